(** The worklist scheme shared by all accumulation routines (d8_methods.hpp:98-128,
    flow_accumulation_generic.hpp:63-86, dinf_methods.hpp:206-243, fill_spill_merge.hpp:274-318):
    take a cell off the queue, finish its value, send contributions to its receivers, decrement their
    dependency counts and enqueue those whose count reaches zero. *)
From Coq Require Import ZArith List Lia Bool Permutation.
From Verif Require Import Base.
Open Scope Z_scope.

Lemma NoDup_incl_split {A} (l V : list A) : NoDup l -> incl l V -> exists R, Permutation V (l ++ R).
Proof.
  revert V; induction l as [|a l IH]; intros V ND HI; [exists V; reflexivity|].
  inversion ND as [|? ? Hn ND']; subst. assert (Ha : In a V) by (apply HI; left; auto).
  apply in_split in Ha. destruct Ha as [V1 [V2 ->]].
  destruct (IH (V1 ++ V2)) as [R HR]; [auto| |].
  - intros x Hx. assert (In x (V1 ++ a :: V2)) by (apply HI; right; auto).
    rewrite in_app_iff in *. cbn in H. destruct H as [?|[->|?]]; auto. contradiction.
  - exists R. rewrite <- Permutation_middle. cbn [app]. constructor. exact HR.
Qed.

Section Kahn.
  Context {N W A : Type}.
  Variable eqb : N -> N -> bool.
  Variable add : A -> A -> A.
  Variable zero : A.
  Variable out : N -> list (N * W).      (* receivers of a cell, in loop order *)
  Variable g : N -> A -> W -> A.         (* amount sent along an edge by a cell with total value x *)
  Variable h : N -> A -> A.              (* final value of a cell with total value x *)

  Record kst := mkK { k_dep : N -> Z; k_val : N -> A; k_q : list N }.
  Definition kupd {B} (f : N -> B) (m : N) (b : B) : N -> B := fun x => if eqb x m then b else f x.

  Definition relax (c : N) (x : A) (s : kst) (e : N * W) : kst :=
    let m := fst e in
    let d' := k_dep s m - 1 in
    mkK (kupd (k_dep s) m d') (kupd (k_val s) m (add (k_val s m) (g c x (snd e))))
        (if d' =? 0 then k_q s ++ [m] else k_q s).

  Definition kbody (c : N) (s : kst) : kst :=
    let x := k_val s c in
    fold_left (relax c x) (out c) (mkK (k_dep s) (kupd (k_val s) c (h c x)) (k_q s)).

  Definition kpop (_ : nat) (s : kst) : option (N * kst) :=
    match k_q s with [] => None | c :: q => Some (c, mkK (k_dep s) (k_val s) q) end.

  Definition krun (fuel : nat) (s : kst) : option kst := while_pop kpop kbody fuel 0 s.

  (** ** Counting and summing edges *)
  Definition cnt (m : N) (l : list (N * W)) : nat := length (filter (fun e => eqb (fst e) m) l).
  Fixpoint indeg (L : list N) (m : N) : nat := match L with [] => 0%nat | d :: L' => (cnt m (out d) + indeg L' m)%nat end.
  Fixpoint asum (l : list A) : A := match l with [] => zero | a :: l' => add a (asum l') end.
  Definition insum (X : N -> A) (d m : N) : A :=
    asum (map (fun e => g d (X d) (snd e)) (filter (fun e => eqb (fst e) m) (out d))).
  Definition inflow (L : list N) (X : N -> A) (m : N) : A := asum (map (fun d => insum X d m) L).

  Definition edge (d m : N) : Prop := exists w, In (m, w) (out d).
  Inductive reach : N -> N -> Prop :=
  | reach_refl v : reach v v
  | reach_step v d m : reach v d -> edge d m -> reach v m.
  (** [v] lies on a loop *)
  Definition on_cycle (v : N) : Prop := exists d, reach v d /\ edge d v.

  Hypothesis eqb_spec : forall a b, reflect (a = b) (eqb a b).
  Hypothesis add_comm : forall a b, add a b = add b a.
  Hypothesis add_assoc : forall a b c, add a (add b c) = add (add a b) c.
  Hypothesis add_zero : forall a, add a zero = a.
  Variable V : list N.
  Hypothesis V_nodup : NoDup V.
  Hypothesis out_V : forall d m, In d V -> edge d m -> In m V.

  Lemma eqb_refl a : eqb a a = true.
  Proof. destruct (eqb_spec a a); congruence. Qed.
  Lemma kupd_same {B} (f : N -> B) m b : kupd f m b m = b.
  Proof. unfold kupd. rewrite eqb_refl. reflexivity. Qed.
  Lemma kupd_other {B} (f : N -> B) m b x : x <> m -> kupd f m b x = f x.
  Proof. intros H. unfold kupd. destruct (eqb_spec x m); congruence. Qed.

  Lemma asum_app l l' : asum (l ++ l') = add (asum l) (asum l').
  Proof.
    induction l as [|a l IH]; cbn [asum app]; [rewrite add_comm, add_zero; reflexivity|].
    rewrite IH, add_assoc. reflexivity.
  Qed.

  Lemma cnt_pos m l : (0 < cnt m l)%nat <-> exists w, In (m, w) l.
  Proof.
    unfold cnt. induction l as [|[a w] l IH]; cbn [filter length fst].
    - split; [lia|intros [w []]].
    - destruct (eqb_spec a m) as [->|Hn]; cbn [length].
      + split; [intros _; exists w; left; auto|lia].
      + rewrite IH. split; intros [w' H]; exists w'; [right; auto|]. destruct H as [E|H]; [inversion E; congruence|auto].
  Qed.

  Lemma indeg_zero L m : indeg L m = 0%nat <-> forall d, In d L -> ~ edge d m.
  Proof.
    induction L as [|d L IH]; cbn [indeg].
    - split; [intros _ d []|auto].
    - split.
      + intros H d' [<-|Hd]; [intros C; apply cnt_pos in C; lia|apply IH; auto; lia].
      + intros H. assert (cnt m (out d) = 0%nat) by (pose proof (cnt_pos m (out d)); pose proof (H d (or_introl eq_refl)) as Hd; unfold edge in Hd; destruct (cnt m (out d)); auto; exfalso; apply Hd, H0; lia).
        assert (indeg L m = 0%nat) by (apply IH; intros; apply H; right; auto). lia.
  Qed.

  Lemma indeg_app L L' m : indeg (L ++ L') m = (indeg L m + indeg L' m)%nat.
  Proof. induction L as [|d L IH]; cbn [indeg app]; [auto|]. rewrite IH. lia. Qed.
  Lemma indeg_perm L L' m : Permutation L L' -> indeg L m = indeg L' m.
  Proof. induction 1; cbn [indeg]; lia. Qed.

  (** [P] is closed under donors, oldest at the end. *)
  Inductive ordered : list N -> Prop :=
  | ordered_nil : ordered []
  | ordered_cons m P : ordered P -> In m V -> ~ In m P -> (forall d, In d V -> edge d m -> In d P) -> ordered (m :: P).

  Record kinv (init : N -> A) (P : list N) (X : N -> A) (s : kst) : Prop := {
    ki_ord : ordered P;
    ki_dep : forall m, In m V -> k_dep s m = Z.of_nat (indeg V m) - Z.of_nat (indeg P m);
    ki_q : forall m, In m (k_q s) <-> In m V /\ ~ In m P /\ k_dep s m = 0;
    ki_qnd : NoDup (k_q s);
    ki_X : forall m, In m P -> X m = add (init m) (inflow P X m);
    ki_done : forall m, In m P -> k_val s m = h m (X m);
    ki_open : forall m, ~ In m P -> k_val s m = add (init m) (inflow P X m) }.

  Lemma ordered_incl P : ordered P -> incl P V.
  Proof. induction 1; intros x Hx; [destruct Hx|]. destruct Hx as [<-|Hx]; auto. Qed.
  Lemma ordered_nodup P : ordered P -> NoDup P.
  Proof. induction 1; constructor; auto. Qed.
  Lemma ordered_donors P : ordered P -> forall m d, In m P -> In d V -> edge d m -> In d P.
  Proof. induction 1 as [|m P HP IH HV Hn Hd]; intros x d Hx HdV He; [destruct Hx|]. destruct Hx as [<-|Hx]; right; eauto. Qed.

  (** Effect of sending to a list of receivers *)
  Lemma relax_dep c x es : forall s m, k_dep (fold_left (relax c x) es s) m = k_dep s m - Z.of_nat (cnt m es).
  Proof.
    induction es as [|[a w] es IH]; intros s m; cbn [fold_left]; [unfold cnt; cbn; lia|].
    rewrite IH. unfold relax, cnt, kupd. cbn [k_dep fst filter].
    destruct (eqb_spec a m) as [->|Hn].
    - rewrite eqb_refl. cbn [length]. lia.
    - destruct (eqb_spec m a) as [->|]; [congruence|]. lia.
  Qed.

  Lemma relax_val c x es : forall s m, k_val (fold_left (relax c x) es s) m =
    add (k_val s m) (asum (map (fun e => g c x (snd e)) (filter (fun e => eqb (fst e) m) es))).
  Proof.
    induction es as [|[a w] es IH]; intros s m; cbn [fold_left filter map asum]; [rewrite add_zero; auto|].
    rewrite IH. unfold relax, kupd. cbn [k_val fst snd].
    destruct (eqb_spec a m) as [->|Hn].
    - rewrite eqb_refl. cbn [map asum snd]. rewrite add_assoc. reflexivity.
    - destruct (eqb_spec m a) as [->|]; [congruence|]. reflexivity.
  Qed.

  Lemma relax_q c x es : forall s,
    (forall m, In m (k_q s) -> k_dep s m <= 0) -> NoDup (k_q s) ->
    (forall m, Z.of_nat (cnt m es) <= k_dep s m \/ cnt m es = 0%nat) ->
    NoDup (k_q (fold_left (relax c x) es s)) /\
    (forall m, In m (k_q (fold_left (relax c x) es s)) <->
       In m (k_q s) \/ ((0 < cnt m es)%nat /\ k_dep s m - Z.of_nat (cnt m es) = 0)) /\
    (forall m, In m (k_q (fold_left (relax c x) es s)) -> In m (k_q s) \/ (0 < cnt m es)%nat).
  Proof.
    induction es as [|[a w] es IH]; intros s Hq Hnd Hc; cbn [fold_left].
    - split; [auto|]. split; [intros m; unfold cnt; cbn; split; [auto|intros [?|[? ?]]; [auto|lia]]|auto].
    - set (s1 := relax c x s (a, w)).
      assert (Cm : forall m, cnt m ((a, w) :: es) = ((if eqb a m then 1 else 0) + cnt m es)%nat).
      { intros m. unfold cnt. cbn [filter fst]. destruct (eqb a m); cbn [length]; lia. }
      assert (Da : 1 <= k_dep s a).
      { destruct (Hc a) as [H|H]; rewrite Cm, eqb_refl in H; lia. }
      assert (D1 : forall m, k_dep s1 m = k_dep s m - (if eqb a m then 1 else 0)).
      { intros m. unfold s1, relax, kupd. cbn [k_dep fst]. destruct (eqb_spec m a) as [->|Hn].
        - rewrite eqb_refl. lia.
        - destruct (eqb_spec a m); [congruence|]. lia. }
      assert (Q1 : forall m, In m (k_q s1) <-> In m (k_q s) \/ (m = a /\ k_dep s a = 1)).
      { intros m. unfold s1, relax. cbn [k_q fst]. destruct (Z.eqb_spec (k_dep s a - 1) 0).
        - rewrite in_app_iff. cbn. split; [intros [?|[->|[]]]; [auto|right; split; [auto|lia]]|intros [?|[-> _]]; auto].
        - split; [auto|intros [?|[_ ?]]; [auto|lia]]. }
      destruct (IH s1) as [N1 [M1 M2]].
      + intros m Hm. rewrite D1. apply Q1 in Hm. destruct Hm as [Hm|[-> E]].
        * specialize (Hq m Hm). destruct (eqb a m); lia.
        * rewrite eqb_refl. lia.
      + unfold s1, relax. cbn [k_q fst]. destruct (Z.eqb_spec (k_dep s a - 1) 0); auto.
        apply NoDup_app_disj; [auto|constructor; [intros []|constructor]|].
        intros y Hy [<-|[]]. specialize (Hq _ Hy). lia.
      + intros m. rewrite D1. destruct (Hc m) as [H|H]; rewrite Cm in H; [left|right]; destruct (eqb a m); lia.
      + split; [exact N1|]. split.
        * intros m. rewrite M1, Q1, D1, Cm. destruct (eqb_spec a m) as [->|Hn].
          -- split.
             ++ intros [[H|[_ H]]|[H1 H2]]; [auto| |right; lia].
                right. split; [lia|]. destruct (Hc m) as [H'|H']; rewrite Cm, eqb_refl in H'; lia.
             ++ intros [H|[H1 H2]]; [auto|]. destruct (Nat.eq_dec (cnt m es) 0) as [E|E]; [left; right; split; [auto|lia]|right; lia].
          -- split; [intros [[H|[H _]]|[H1 H2]]; [auto|congruence|right; lia]|intros [H|[H1 H2]]; [auto|right; lia]].
        * intros m Hm. rewrite Cm. destruct (M2 m Hm) as [H|H]; [|right; lia].
          apply Q1 in H. destruct H as [H|[-> _]]; [auto|]. right. rewrite eqb_refl. lia.
  Qed.

  Lemma indeg_cons_le P c m : ordered P -> In c V -> ~ In c P -> (indeg P m + cnt m (out c) <= indeg V m)%nat.
  Proof.
    intros HP Hc Hn. assert (HI : incl (c :: P) V) by (intros x [<-|Hx]; [auto|eapply ordered_incl; eauto]).
    assert (ND : NoDup (c :: P)) by (constructor; auto using ordered_nodup).
    destruct (NoDup_incl_split (c :: P) V ND HI) as [R HR].
    rewrite (indeg_perm V _ m HR), indeg_app. cbn [indeg]. lia.
  Qed.

  Lemma donors_done P X init s c : kinv init P X s -> In c V -> k_dep s c = 0 ->
    forall d, In d V -> edge d c -> In d P.
  Proof.
    intros K Hc H0 d Hd He.
    pose proof (ki_ord _ _ _ _ K) as HO.
    destruct (NoDup_incl_split P V (ordered_nodup P HO) (ordered_incl P HO)) as [R HR].
    rewrite (ki_dep _ _ _ _ K c Hc), (indeg_perm V _ c HR), indeg_app in H0.
    assert (Z0 : indeg R c = 0%nat) by lia. rewrite indeg_zero in Z0.
    assert (Hd' : In d (P ++ R)) by (eapply Permutation_in; eauto).
    apply in_app_iff in Hd'. destruct Hd' as [?|Hr]; [auto|]. destruct (Z0 d Hr He).
  Qed.

  Lemma insum_ext X X' d m : X d = X' d -> insum X d m = insum X' d m.
  Proof. intros E. unfold insum. rewrite E. reflexivity. Qed.
  Lemma inflow_ext X X' L m : (forall d, In d L -> X d = X' d) -> inflow L X m = inflow L X' m.
  Proof. intros E. unfold inflow. f_equal. apply map_ext_in. intros d Hd. apply insum_ext; auto. Qed.
  Lemma filter_no_edge c m : ~ edge c m -> filter (fun e => eqb (fst e) m) (out c) = [].
  Proof.
    unfold edge. intros H. induction (out c) as [|[a w] l IH]; cbn [filter fst]; [auto|].
    destruct (eqb_spec a m) as [->|]; [exfalso; apply H; exists w; left; auto|].
    apply IH. intros [w' Hw]. apply H. exists w'. right; auto.
  Qed.
  Lemma insum_no_edge X c m : ~ edge c m -> insum X c m = zero.
  Proof. intros H. unfold insum. rewrite filter_no_edge by auto. reflexivity. Qed.
  Lemma zero_add a : add zero a = a.
  Proof. rewrite add_comm. apply add_zero. Qed.

  Lemma kstep init P X s c q : kinv init P X s -> k_q s = c :: q ->
    kinv init (c :: P) (kupd X c (k_val s c)) (kbody c (mkK (k_dep s) (k_val s) q)).
  Proof.
    intros K Eq.
    pose proof (ki_ord _ _ _ _ K) as HO. pose proof (ki_qnd _ _ _ _ K) as Hqn. rewrite Eq in Hqn.
    inversion Hqn as [|? ? Hcq Hqn']; subst.
    assert (Hcin : In c (k_q s)) by (rewrite Eq; left; auto).
    apply (ki_q _ _ _ _ K) in Hcin. destruct Hcin as [HcV [HcP Hc0]].
    pose proof (donors_done P X init s c K HcV Hc0) as Hdon.
    assert (Hself : ~ edge c c) by (intros He; apply HcP; apply (Hdon c HcV He)).
    assert (HnoP : forall m, In m P -> ~ edge c m) by (intros m Hm He; apply HcP; eapply ordered_donors; eauto).
    assert (HX : forall m, inflow P (kupd X c (k_val s c)) m = inflow P X m).
    { intros m. apply inflow_ext. intros d Hd. apply kupd_other. intros ->. auto. }
    assert (HX' : forall m, inflow (c :: P) (kupd X c (k_val s c)) m = add (insum (kupd X c (k_val s c)) c m) (inflow P X m)).
    { intros m. unfold inflow at 1. cbn [map asum]. f_equal. apply HX. }
    unfold kbody. cbn [k_val k_dep k_q].
    set (s0 := mkK (k_dep s) (kupd (k_val s) c (h c (k_val s c))) q).
    destruct (relax_q c (k_val s c) (out c) s0) as [Q1 [Q2 _]].
    { cbn [k_q k_dep s0]. intros m Hm. assert (In m (k_q s)) by (rewrite Eq; right; auto).
      apply (ki_q _ _ _ _ K) in H. lia. }
    { exact Hqn'. }
    { cbn [k_dep s0]. intros m. destruct (Nat.eq_dec (cnt m (out c)) 0) as [E|E]; [auto|left].
      assert (Hm : In m V) by (apply (out_V c m HcV); apply cnt_pos; lia).
      rewrite (ki_dep _ _ _ _ K m Hm). pose proof (indeg_cons_le P c m HO HcV HcP). lia. }
    split.
    - constructor; auto.
    - intros m Hm. rewrite relax_dep. cbn [k_dep s0 indeg]. rewrite (ki_dep _ _ _ _ K m Hm). lia.
    - intros m. rewrite Q2, relax_dep. cbn [k_q k_dep s0].
      pose proof (ki_q _ _ _ _ K m) as Km. rewrite Eq in Km. cbn [In] in Km |- *.
      split.
      + intros [Hq|[Hp Hd]].
        * assert (m <> c) by (intros ->; auto).
          destruct Km as [Km _]. destruct Km as [A1 [A2 A3]]; [auto|].
          split; [auto|]. split; [intros [?|?]; [congruence|auto]|].
          assert (Hm0 : cnt m (out c) = 0%nat).
          { destruct (Nat.eq_dec (cnt m (out c)) 0) as [E|E]; [auto|exfalso].
            apply HcP, (donors_done P X init s m K A1 A3 c HcV). apply cnt_pos. lia. }
          lia.
        * assert (He : edge c m) by (apply cnt_pos; auto).
          split; [apply (out_V c m HcV He)|]. split; [|lia].
          intros [<-|HmP]; [auto|]. apply (HnoP m HmP He).
      + intros [HmV [HmP Hd]]. destruct (Nat.eq_dec (cnt m (out c)) 0) as [E|E].
        * left. destruct Km as [_ Km]. destruct Km as [->|?]; [|exfalso; apply HmP; auto|auto].
          split; [auto|]. split; [intros ?; apply HmP; auto|lia].
        * right. lia.
    - exact Q1.
    - intros m [<-|Hm].
      + rewrite HX', kupd_same, insum_no_edge, zero_add by auto. apply (ki_open _ _ _ _ K). auto.
      + assert (m <> c) by (intros ->; auto).
        rewrite HX', kupd_other, insum_no_edge, zero_add by auto. apply (ki_X _ _ _ _ K). auto.
    - intros m Hm. rewrite relax_val. cbn [k_val s0].
      assert (He : ~ edge c m) by (destruct Hm as [<-|Hm]; auto).
      rewrite filter_no_edge by auto. cbn [map asum]. rewrite add_zero.
      destruct (eqb_spec m c) as [->|Hn].
      + rewrite !kupd_same. reflexivity.
      + rewrite !kupd_other by auto. destruct Hm as [?|Hm]; [congruence|]. apply (ki_done _ _ _ _ K). auto.
    - intros m Hm. assert (m <> c) by (intros ->; apply Hm; left; auto).
      assert (HmP : ~ In m P) by (intros ?; apply Hm; right; auto).
      rewrite relax_val, HX'. cbn [k_val s0]. rewrite kupd_other by auto.
      rewrite (ki_open _ _ _ _ K m HmP). unfold insum. rewrite kupd_same.
      rewrite <- add_assoc. f_equal. apply add_comm.
  Qed.

  Lemma krun_inv init : forall fuel P X s i, kinv init P X s -> (length V <= length P + fuel)%nat ->
    exists P' X' s', while_pop kpop kbody fuel i s = Some s' /\ kinv init P' X' s' /\ k_q s' = [].
  Proof.
    induction fuel as [|f IH]; intros P X s i K Hl; cbn [while_pop].
    - unfold kpop. destruct (k_q s) as [|c q] eqn:Eq.
      + exists P, X, s. auto.
      + exfalso. pose proof (kstep init P X s c q K Eq) as K'.
        pose proof (ki_ord _ _ _ _ K') as HO.
        pose proof (NoDup_incl_length (ordered_nodup _ HO) (ordered_incl _ HO)) as HL. cbn [length] in HL. lia.
    - unfold kpop at 1. destruct (k_q s) as [|c q] eqn:Eq.
      + exists P, X, s. auto.
      + apply (IH (c :: P) (kupd X c (k_val s c))); [apply kstep; auto|cbn [length]; lia].
  Qed.

  (** ** Reachability *)
  Lemma reach_trans a b c : reach a b -> reach b c -> reach a c.
  Proof. intros H H'. revert a H. induction H' as [v|v d m H1 IH He]; intros a H; [auto|]. apply (reach_step a d m); [apply IH; auto|auto]. Qed.
  Lemma reach_left a b c : edge a b -> reach b c -> reach a c.
  Proof. intros H H'. eapply reach_trans; [|eauto]. eapply reach_step; [constructor|auto]. Qed.
  Lemma reach_V v m : reach v m -> In v V -> In m V.
  Proof. induction 1; auto. intros. apply (out_V d m); auto. Qed.

  Lemma ordered_reach P : ordered P -> forall v m, reach v m -> In v V -> In m P -> In v P.
  Proof.
    intros HO v m H. induction H as [v|v d m H IH He]; intros Hv Hm; [auto|].
    apply IH; [auto|]. apply (ordered_donors P HO m d); auto. eapply reach_V; eauto.
  Qed.
  Lemma ordered_acyclic P : ordered P -> forall v, In v P -> ~ on_cycle v.
  Proof.
    induction 1 as [|m P HP IH HV Hn Hd]; intros v Hv; [destruct Hv|].
    destruct Hv as [<-|Hv]; [|auto]. intros [d [Hr He]].
    apply Hn. apply (ordered_reach P HP m d Hr HV). apply Hd; auto. eapply reach_V; eauto.
  Qed.

  (** Every cell of a non-empty set closed under "has a donor in the set" is downstream of a loop. *)
  Lemma stuck_cycle (R : N -> Prop) (HR : forall m, R m -> In m V /\ exists d, R d /\ edge d m) :
    forall k vis hd, NoDup vis -> incl vis V -> In hd vis -> R hd -> (forall v, In v vis -> reach hd v) ->
    (length V <= length vis + k)%nat -> exists v, In v V /\ on_cycle v /\ reach v hd.
  Proof.
    induction k as [|k IH]; intros vis hd ND HI Hh Rh Hr Hl.
    - destruct (HR hd Rh) as [HhV [d [Rd He]]]. destruct (HR d Rd) as [HdV _].
      assert (Hd : In d vis).
      { assert (HL : (length V <= length vis)%nat) by lia. exact (NoDup_length_incl ND HL HI d HdV). }
      exists hd. split; [auto|]. split; [exists d; auto|constructor].
    - destruct (HR hd Rh) as [HhV [d [Rd He]]]. destruct (HR d Rd) as [HdV _].
      destruct (in_dec (fun a b => match eqb_spec a b with ReflectT _ e => left e | ReflectF _ n => right n end) d vis) as [Hd|Hd].
      + exists hd. split; [auto|]. split; [exists d; auto|constructor].
      + destruct (IH (d :: vis) d) as [v [Hv [Hc Hvd]]].
        * constructor; auto.
        * intros x [<-|Hx]; auto.
        * left; auto.
        * auto.
        * intros v [<-|Hv]; [constructor|]. eapply reach_left; eauto.
        * cbn [length]. lia.
        * exists v. split; [auto|]. split; [auto|]. eapply reach_step; eauto.
  Qed.

  Definition loop_upstream (m : N) : Prop := exists v, In v V /\ on_cycle v /\ reach v m.

  Lemma final_dec init P X s : kinv init P X s -> k_q s = [] ->
    forall m, In m V -> In m P \/ loop_upstream m.
  Proof.
    intros K Eq m HmV. pose proof (ki_ord _ _ _ _ K) as HO.
      destruct (in_dec (fun a b => match eqb_spec a b with ReflectT _ e => left e | ReflectF _ n => right n end) m P) as [?|Hn]; [auto|right].
      apply (stuck_cycle (fun x => In x V /\ ~ In x P)) with (k := length V) (vis := [m]).
      + intros x [HxV HxP]. split; [auto|].
        assert (Hx0 : k_dep s x <> 0).
        { intros E. assert (Hq : In x (k_q s)) by (apply (ki_q _ _ _ _ K); auto). rewrite Eq in Hq. destruct Hq. }
        rewrite (ki_dep _ _ _ _ K x HxV) in Hx0.
        destruct (NoDup_incl_split P V (ordered_nodup P HO) (ordered_incl P HO)) as [R HR].
        rewrite (indeg_perm V _ x HR), indeg_app in Hx0.
        assert (Hpos : (0 < indeg R x)%nat) by lia.
        assert (Hex : exists d, In d R /\ edge d x).
        { clear - Hpos eqb_spec. induction R as [|d R IH]; cbn [indeg] in Hpos; [lia|].
          destruct (Nat.eq_dec (cnt x (out d)) 0) as [E|E].
          - destruct IH as [d' [H1 H2]]; [lia|]. exists d'. split; [right; auto|auto].
          - exists d. split; [left; auto|]. apply cnt_pos. lia. }
        destruct Hex as [d [Hd He]]. exists d. split; [|auto].
        assert (HdV : In d V) by (eapply Permutation_in; [symmetry; exact HR|apply in_app_iff; auto]).
        split; [auto|]. intros HdP.
        pose proof (Permutation_NoDup HR V_nodup) as ND.
        clear - ND Hd HdP. induction P as [|p P IH]; [destruct HdP|].
        cbn [app] in ND. inversion ND as [|? ? Hni ND']; subst.
        destruct HdP as [->|HdP]; [apply Hni, in_app_iff; auto|auto].
      + constructor; [intros []|constructor].
      + intros x [<-|[]]. auto.
      + left; auto.
      + auto.
      + intros v [<-|[]]. constructor.
      + cbn [length]. lia.
  Qed.


  Lemma final_popped init P X s : kinv init P X s -> k_q s = [] ->
    forall m, In m P <-> In m V /\ ~ loop_upstream m.
  Proof.
    intros K Eq m. pose proof (ki_ord _ _ _ _ K) as HO. split.
    - intros Hm. split; [apply (ordered_incl P HO m Hm)|]. intros [v [Hv [Hc Hr]]].
      apply (ordered_acyclic P HO v); [eapply ordered_reach; eauto|auto].
    - intros [HmV Hno]. destruct (final_dec init P X s K Eq m HmV); tauto.
  Qed.

  (** ** Sums over permutations *)
  Lemma asum_perm l l' : Permutation l l' -> asum l = asum l'.
  Proof.
    induction 1; cbn [asum]; [auto|congruence| |congruence].
    rewrite !add_assoc, (add_comm y x). reflexivity.
  Qed.
  Lemma inflow_perm L L' X m : Permutation L L' -> inflow L X m = inflow L' X m.
  Proof. intros H. unfold inflow. apply asum_perm, Permutation_map, H. Qed.
  Lemma asum_zero {B} (f : B -> A) l : (forall b, In b l -> f b = zero) -> asum (map f l) = zero.
  Proof.
    induction l as [|b l IH]; intros H; cbn [map asum]; [auto|].
    rewrite (H b (or_introl eq_refl)), IH, add_zero by (intros; apply H; right; auto). reflexivity.
  Qed.
  Lemma inflow_all P X m : ordered P -> In m P -> inflow V X m = inflow P X m.
  Proof.
    intros HO Hm. destruct (NoDup_incl_split P V (ordered_nodup P HO) (ordered_incl P HO)) as [R HR].
    rewrite (inflow_perm V (P ++ R) X m HR). unfold inflow. rewrite map_app, asum_app.
    rewrite (asum_zero _ R), add_zero; [reflexivity|]. intros d Hd. apply insum_no_edge. intros He.
    assert (HdV : In d V) by (eapply Permutation_in; [symmetry; exact HR|apply in_app_iff; auto]).
    pose proof (ordered_donors P HO m d Hm HdV He) as HdP.
    pose proof (Permutation_NoDup HR V_nodup) as ND. clear - ND Hd HdP.
    induction P as [|p P IH]; [destruct HdP|].
    cbn [app] in ND. inversion ND as [|? ? Hni ND']; subst.
    destruct HdP as [->|HdP]; [apply Hni, in_app_iff; auto|auto].
  Qed.

  (** ** Starting state *)
  Definition good_start (init : N -> A) (s : kst) : Prop :=
    (forall m, In m V -> k_dep s m = Z.of_nat (indeg V m)) /\
    (forall m, k_val s m = init m) /\
    NoDup (k_q s) /\ (forall m, In m (k_q s) <-> In m V /\ k_dep s m = 0).

  Lemma kinv_start init s X : good_start init s -> kinv init [] X s.
  Proof.
    intros [H1 [H2 [H3 H4]]]. split; [constructor| | |auto| | |].
    - intros m Hm. rewrite H1 by auto. cbn [indeg]. lia.
    - intros m. rewrite H4. cbn. tauto.
    - intros m [].
    - intros m [].
    - intros m _. rewrite H2. unfold inflow. cbn. rewrite add_zero. reflexivity.
  Qed.

  Theorem krun_spec init s fuel : good_start init s -> (length V <= fuel)%nat -> exists P X s',
    krun fuel s = Some s' /\ ordered P /\
    (forall m, In m P <-> In m V /\ ~ loop_upstream m) /\
    (forall m, In m V -> In m P \/ loop_upstream m) /\
    (forall m, In m P -> X m = add (init m) (inflow V X m) /\ k_val s' m = h m (X m)) /\
    (forall m, ~ In m P -> k_val s' m = add (init m) (inflow P X m)).
  Proof.
    intros G HF. destruct (krun_inv init fuel [] init s 0 (kinv_start init s init G)) as [P [X [s' [E [K Eq]]]]]; [cbn; lia|].
    pose proof (ki_ord _ _ _ _ K) as HO.
    exists P, X, s'. split; [exact E|]. split; [exact HO|]. split; [eapply final_popped; eauto|]. split; [eapply final_dec; eauto|]. split.
    - intros m Hm. split; [rewrite (inflow_all P X m HO Hm); apply (ki_X _ _ _ _ K m Hm)|apply (ki_done _ _ _ _ K m Hm)].
    - apply (ki_open _ _ _ _ K).
  Qed.
End Kahn.

(** ** States up to pointwise equality, and bodies that may fail *)
Section Sim.
  Context {N W A : Type}.
  Variable eqb : N -> N -> bool.
  Variable add : A -> A -> A.
  Variable out : N -> list (N * W).
  Variable g : N -> A -> W -> A.
  Variable h : N -> A -> A.

  Definition keq (s s' : @kst N A) : Prop :=
    (forall m, k_dep s m = k_dep s' m) /\ (forall m, k_val s m = k_val s' m) /\ k_q s = k_q s'.
  Lemma keq_refl s : keq s s.
  Proof. split; [auto|split; auto]. Qed.
  Lemma keq_relax c x s s' e : keq s s' -> keq (relax eqb add g c x s e) (relax eqb add g c x s' e).
  Proof.
    intros [H1 [H2 H3]]. unfold relax. split; [|split]; cbn [k_dep k_val k_q].
    - intros m. unfold kupd. rewrite !H1. reflexivity.
    - intros m. unfold kupd. rewrite !H2. reflexivity.
    - rewrite H1, H3. reflexivity.
  Qed.
End Sim.

(** ** Single-receiver networks: the value counts the upstream cells *)
Section Count.
  Context {N W : Type}.
  Variable eqb : N -> N -> bool.
  Variable out : N -> list (N * W).
  Hypothesis eqb_spec : forall a b, reflect (a = b) (eqb a b).
  Variable V : list N.
  Hypothesis V_nodup : NoDup V.
  Hypothesis out_V : forall d m, In d V -> edge out d m -> In m V.
  Hypothesis single : forall d, (length (out d) <= 1)%nat.

  Notation gZ := (fun (_ : N) (x : Z) (_ : W) => x + 1).

  Lemma single_edge d m m' : edge out d m -> edge out d m' -> m = m'.
  Proof.
    unfold edge. pose proof (single d) as H. destruct (out d) as [|e [|e' l]]; cbn [length] in H; [|  |lia].
    - intros [w []].
    - intros [w [->|[]]] [w' [E|[]]]. congruence.
  Qed.

  Lemma reach_inv v m : reach out v m -> v = m \/ exists u, edge out v u /\ reach out u m.
  Proof.
    induction 1 as [v|v d m H IH He]; [auto|right].
    destruct IH as [->|[u [H1 H2]]].
    - exists m. split; [auto|constructor].
    - exists u. split; [auto|]. eapply reach_step; eauto.
  Qed.

  Lemma reach_linear v a : reach out v a -> forall b, reach out v b -> reach out a b \/ reach out b a.
  Proof.
    induction 1 as [v|v d a H IH He]; intros b Hb; [auto|].
    destruct (IH b Hb) as [Hr|Hr].
    - apply reach_inv in Hr. destruct Hr as [->|[u [H1 H2]]].
      + right. eapply reach_step; [constructor|auto].
      + rewrite (single_edge d a u He H1). auto.
    - right. eapply reach_step; eauto.
  Qed.

  Lemma insum_single (X : N -> Z) d m :
    insum eqb Z.add 0 out gZ X d m = if existsb (fun e => eqb (fst e) m) (out d) then X d + 1 else 0.
  Proof.
    unfold insum. pose proof (single d) as H. destruct (out d) as [|[a w] [|e' l]]; cbn [length] in H; [| |lia]; cbn [filter existsb fst].
    - reflexivity.
    - destruct (eqb a m); cbn [orb map asum]; lia.
  Qed.
  Lemma existsb_edge d m : existsb (fun e => eqb (fst e) m) (out d) = true <-> edge out d m.
  Proof.
    rewrite existsb_exists. unfold edge. split.
    - intros [[a w] [H1 H2]]. cbn [fst] in H2. destruct (eqb_spec a m); [subst; eauto|discriminate].
    - intros [w H]. exists (m, w). split; [auto|]. cbn [fst]. destruct (eqb_spec m m); congruence.
  Qed.

  Lemma flat_map_NoDup {B C} (f : B -> list C) l : NoDup l -> (forall b, In b l -> NoDup (f b)) ->
    (forall b b' c, In b l -> In b' l -> In c (f b) -> In c (f b') -> b = b') -> NoDup (flat_map f l).
  Proof.
    induction 1 as [|b l Hb Hl IH]; intros H1 H2; cbn [flat_map]; [constructor|].
    apply NoDup_app_disj.
    - apply H1; left; auto.
    - apply IH; [intros; apply H1; right; auto|]. intros b1 b2 c ? ? ? ?. apply (H2 b1 b2 c); [right|right| |]; auto.
    - intros c Hc Hc'. apply in_flat_map in Hc'. destruct Hc' as [b' [Hb' Hc']].
      assert (b = b') by (apply (H2 b b' c); [left|right| |]; auto). subst. contradiction.
  Qed.

  (** [upset m U]: [U] lists, without repetition, the cells of [V] whose water passes through [m]. *)
  Definition upset (m : N) (U : list N) : Prop := NoDup U /\ forall v, In v U <-> In v V /\ reach out v m.

  Lemma count_upstream (X : N -> Z) P : ordered out V P ->
    (forall m, In m P -> X m = 0 + inflow eqb Z.add 0 out gZ V X m) ->
    exists U : N -> list N, forall m, In m P -> upset m (U m) /\ X m + 1 = Z.of_nat (length (U m)).
  Proof.
    intros HO. induction HO as [|m P HO IH HmV HmP Hdon]; intros HX.
    - exists (fun _ => []). intros m [].
    - destruct IH as [U HU]; [intros x Hx; apply HX; right; auto|].
      set (D := filter (fun d => existsb (fun e => eqb (fst e) m) (out d)) V).
      assert (HD : forall d, In d D <-> In d V /\ edge out d m).
      { intros d. unfold D. rewrite filter_In, existsb_edge. reflexivity. }
      assert (HDP : forall d, In d D -> In d P) by (intros d Hd; apply HD in Hd; apply Hdon; tauto).
      set (Um := m :: flat_map U D).
      assert (Hac : forall v, In v (m :: P) -> ~ on_cycle out v).
      { apply (ordered_acyclic out V out_V). constructor; auto. }
      exists (fun x => if eqb x m then Um else U x).
      intros x Hx. destruct (eqb_spec x m) as [->|Hxm].
      2:{ destruct Hx as [?|Hx]; [congruence|]. apply HU; auto. }
      split.
      + split.
        * constructor.
          -- intros Hin. apply in_flat_map in Hin. destruct Hin as [d [Hd Hm]].
             apply (proj2 (proj1 (HU d (HDP d Hd)))) in Hm. apply HmP.
             apply (ordered_reach out V out_V P HO m d); [apply Hm|auto|auto].
          -- apply flat_map_NoDup.
             ++ apply NoDup_filter. auto.
             ++ intros d Hd. apply (proj1 (HU d (HDP d Hd))).
             ++ intros d d' v Hd Hd' Hv Hv'.
                apply (proj2 (proj1 (HU d (HDP d Hd)))) in Hv. apply (proj2 (proj1 (HU d' (HDP d' Hd')))) in Hv'.
                apply HD in Hd. apply HD in Hd'.
                assert (Hlin : forall a b, edge out a m -> edge out b m -> reach out a b -> a = b).
                { intros a b Ha Hb Hr. apply reach_inv in Hr. destruct Hr as [?|[u [H1 H2]]]; [auto|exfalso].
                  rewrite <- (single_edge a m u Ha H1) in H2.
                  apply (Hac m); [left; auto|]. exists b. auto. }
                destruct (reach_linear v d (proj2 Hv) d' (proj2 Hv')) as [H|H].
                ** apply Hlin; tauto.
                ** symmetry. apply Hlin; tauto.
        * intros v. cbn [In Um]. rewrite in_flat_map. split.
          -- intros [<-|[d [Hd Hv]]]; [split; [auto|constructor]|].
             apply (proj2 (proj1 (HU d (HDP d Hd)))) in Hv. split; [tauto|].
             apply HD in Hd. eapply reach_step; [apply Hv|tauto].
          -- intros [HvV Hr]. inversion Hr as [|? d ? H1 H2]; subst; [auto|right].
             assert (HdV : In d V) by (eapply reach_V; eauto).
             assert (Hd : In d D) by (apply HD; auto).
             exists d. split; [auto|]. apply (proj2 (proj1 (HU d (HDP d Hd)))). auto.
      + rewrite (HX m (or_introl eq_refl)). cbn [Um length]. rewrite Nat2Z.inj_succ.
        enough (E : inflow eqb Z.add 0 out gZ V X m = Z.of_nat (length (flat_map U D))) by lia.
        unfold inflow.
        assert (G : forall L, (forall d, In d L -> existsb (fun e => eqb (fst e) m) (out d) = true -> In d P) ->
           asum Z.add 0 (map (fun d => insum eqb Z.add 0 out gZ X d m) L) =
           Z.of_nat (length (flat_map U (filter (fun d => existsb (fun e => eqb (fst e) m) (out d)) L)))).
        { induction L as [|d L IHL]; intros HL; cbn [map asum filter flat_map]; [reflexivity|].
          rewrite IHL by (intros; apply HL; [right|]; auto). rewrite insum_single.
          destruct (existsb _ (out d)) eqn:E; cbn [flat_map]; [|lia].
          rewrite app_length, Nat2Z.inj_add.
          rewrite (proj2 (HU d (HL d (or_introl eq_refl) E))). lia. }
        apply G. intros d Hd E. apply existsb_edge in E. apply Hdon; auto.
  Qed.

  (** Cells that are never finished hold the count of what the finished part sent them. *)
  Lemma count_open (X : N -> Z) P U m : ordered out V P -> ~ In m P ->
    (forall d, In d P -> upset d (U d) /\ X d + 1 = Z.of_nat (length (U d))) ->
    exists L, NoDup L /\ (forall v, In v L <-> In v V /\ exists d, reach out v d /\ In d P /\ edge out d m) /\
      inflow eqb Z.add 0 out gZ P X m = Z.of_nat (length L).
  Proof.
    intros HO Hm HU.
    set (D := filter (fun d => existsb (fun e => eqb (fst e) m) (out d)) P).
    assert (HD : forall d, In d D <-> In d P /\ edge out d m).
    { intros d. unfold D. rewrite filter_In, existsb_edge. reflexivity. }
    exists (flat_map U D). split; [|split].
    - apply flat_map_NoDup.
      + apply NoDup_filter, (ordered_nodup out V P HO).
      + intros d Hd. apply HD in Hd. apply (HU d); tauto.
      + intros d d' v Hd Hd' Hv Hv'. apply HD in Hd. apply HD in Hd'. destruct Hd as [Hd He], Hd' as [Hd' He'].
        apply (proj2 (proj1 (HU d Hd))) in Hv. apply (proj2 (proj1 (HU d' Hd'))) in Hv'.
        assert (HmV : In m V) by (apply (out_V d m); [apply (ordered_incl out V P HO); auto|auto]).
        assert (Hlin : forall a b, In b P -> edge out a m -> reach out a b -> a = b).
        { intros a b Hb Ha Hr. apply reach_inv in Hr. destruct Hr as [?|[u [H1 H2]]]; [auto|exfalso].
          rewrite <- (single_edge a m u Ha H1) in H2. apply Hm.
          apply (ordered_reach out V out_V P HO m b); auto. }
        destruct (reach_linear v d (proj2 Hv) d' (proj2 Hv')) as [H|H].
        * apply Hlin; auto.
        * symmetry. apply Hlin; auto.
    - intros v. rewrite in_flat_map. split.
      + intros [d [Hd Hv]]. apply HD in Hd. apply (proj2 (proj1 (HU d (proj1 Hd)))) in Hv.
        split; [tauto|]. exists d. tauto.
      + intros [Hv [d [Hr [Hd He]]]]. exists d. split; [apply HD; auto|]. apply (proj2 (proj1 (HU d Hd))). auto.
    - unfold inflow.
      assert (G : forall L, (forall d, In d L -> In d P) ->
           asum Z.add 0 (map (fun d => insum eqb Z.add 0 out gZ X d m) L) =
           Z.of_nat (length (flat_map U (filter (fun d => existsb (fun e => eqb (fst e) m) (out d)) L)))).
        { induction L as [|d L IHL]; intros HL; cbn [map asum filter flat_map]; [reflexivity|].
          rewrite IHL by (intros; apply HL; right; auto). rewrite insum_single.
          destruct (existsb _ (out d)) eqn:E; cbn [flat_map]; [|lia].
          rewrite app_length, Nat2Z.inj_add.
          rewrite (proj2 (HU d (HL d (or_introl eq_refl)))). lia. }
      apply G. auto.
  Qed.
End Count.
