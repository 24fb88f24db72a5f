(** The worklist scheme of Kahn.v with a stack, or any other order of the list of finished nodes, and a body that may fail. *)
From Coq Require Import ZArith List Lia Bool Permutation.
From Verif Require Import Base Res Kahn FlowModel.
Open Scope Z_scope.

Section Any.
  Context {N W A : Type}.
  Variable eqb : N -> N -> bool.
  Variable add : A -> A -> A.
  Variable zero : A.
  Variable out : N -> list (N * W).
  Variable g : N -> A -> W -> A.
  Variable h : N -> A -> A.
  Hypothesis eqb_spec : forall a b, reflect (a = b) (eqb a b).
  Hypothesis add_comm : forall a b, add a b = add b a.
  Hypothesis add_assoc : forall a b c, add a (add b c) = add (add a b) c.
  Hypothesis add_zero : forall a, add a zero = a.
  Variable V : list N.
  Hypothesis V_nodup : NoDup V.
  Hypothesis out_V : forall d m, In d V -> edge out d m -> In m V.
  Notation KI := (kinv eqb add zero out g h V).
  Notation KB := (kbody eqb add out g h).

  (** the same state up to the order of the list *)
  Definition kperm (s s' : @kst N A) : Prop :=
    (forall m, k_dep s m = k_dep s' m) /\ (forall m, k_val s m = k_val s' m) /\ Permutation (k_q s) (k_q s').
  Lemma kinv_perm init P X s s' : kperm s s' -> KI init P X s' -> KI init P X s.
  Proof.
    intros [E1 [E2 E3]] [K1 K2 K3 K4 K5 K6 K7]. split; auto.
    - intros m Hm. rewrite E1. auto.
    - intros m. rewrite E1, <- K3. split; intros I; [apply (Permutation_in m E3 I)|apply (Permutation_in m (Permutation_sym E3) I)].
    - apply (Permutation_NoDup (Permutation_sym E3) K4).
    - intros m Hm. rewrite E2. auto.
    - intros m Hm. rewrite E2. auto.
  Qed.

  Variable body : N -> @kst N A -> res (@kst N A).
  Variable init : N -> A.
  Hypothesis body_ok : forall P X s c q, KI init P X s -> k_q s = c :: q -> In c V ->
    exists s', body c (mkK (k_dep s) (k_val s) q) = Ok s' /\ kperm s' (KB c (mkK (k_dep s) (k_val s) q)).

  Lemma any_inv : forall fuel P X s i, KI init P X s -> (length V <= length P + fuel)%nat ->
    exists P' X' s', whileR kpop body fuel i s = Some (Ok s') /\ KI init P' X' s' /\ k_q s' = [].
  Proof.
    induction fuel as [|f IH]; intros P X s i K Hl; cbn [whileR].
    - unfold kpop. destruct (k_q s) as [|c q] eqn:Eq.
      + exists P, X, s. auto.
      + exfalso. pose proof (kstep eqb add zero out g h eqb_spec add_comm add_assoc add_zero V out_V init P X s c q K Eq) as K'.
        pose proof (ki_ord _ _ _ _ _ _ _ _ _ _ _ K') as HO.
        pose proof (NoDup_incl_length (ordered_nodup _ _ _ HO) (ordered_incl _ _ _ HO)) as HL. cbn [length] in HL. lia.
    - unfold kpop at 1. destruct (k_q s) as [|c q] eqn:Eq.
      + exists P, X, s. auto.
      + assert (Hc : In c V). { apply (ki_q _ _ _ _ _ _ _ _ _ _ _ K). rewrite Eq. left. reflexivity. }
        destruct (body_ok P X s c q K Eq Hc) as [s' [-> HP]].
        apply (IH (c :: P) (kupd eqb X c (k_val s c))); [|cbn [length]; lia].
        apply (kinv_perm init _ _ _ _ HP). apply kstep; auto.
  Qed.

  Theorem any_spec s fuel : good_start eqb out V init s -> (length V <= fuel)%nat -> exists P X s',
    whileR kpop body fuel 0 s = Some (Ok s') /\ ordered out V P /\
    (forall m, In m P <-> In m V /\ ~ loop_upstream out V m) /\
    (forall m, In m V -> In m P \/ loop_upstream out V m) /\
    (forall m, In m P -> X m = add (init m) (inflow eqb add zero out g V X m) /\ k_val s' m = h m (X m)) /\
    (forall m, ~ In m P -> k_val s' m = add (init m) (inflow eqb add zero out g P X m)).
  Proof.
    intros G HF. destruct (any_inv fuel [] init s 0 (kinv_start eqb add zero out g h add_zero V init s init G)) as [P [X [s' [E [K Eq]]]]]; [cbn; lia|].
    pose proof (ki_ord _ _ _ _ _ _ _ _ _ _ _ K) as HO.
    exists P, X, s'. split; [exact E|]. split; [exact HO|]. split; [eapply final_popped; eauto|]. split; [eapply final_dec; eauto|]. split.
    - intros m Hm. split.
      + rewrite (inflow_all eqb add zero out g eqb_spec add_comm add_assoc add_zero V V_nodup P X m HO Hm). apply (ki_X _ _ _ _ _ _ _ _ _ _ _ K m Hm).
      + apply (ki_done _ _ _ _ _ _ _ _ _ _ _ K m Hm).
    - apply (ki_open _ _ _ _ _ _ _ _ _ _ _ K).
  Qed.
End Any.
