(** Breadth-first expansion with a level marker in the queue, and plain FIFO flooding: the two loop
    shapes of flats/Barnes2014.hpp:79-106,177-207,257-279 and flats/flat_resolution.hpp:169-194,266-294,
    343-354 (and of the flooding in fill_spill_merge.hpp). *)
From Coq Require Import ZArith List Lia Bool Permutation.
From Verif Require Import Base Res.
Open Scope Z_scope.

(** Computations with a bound on loop iterations: [None] = bound reached. *)
Definition bindF {A B} (m : option (res A)) (f : A -> option (res B)) : option (res B) :=
  match m with None => None | Some (Ok a) => f a | Some Thrown => Some Thrown | Some Undef => Some Undef end.
Notation "'dof' x <- m ; f" := (bindF m (fun x => f)) (at level 200, x name, m at level 100, f at level 200).
(** [for(i : is) body] where the body contains a bounded loop *)
Fixpoint forF {I S} (is : list I) (body : I -> S -> option (res S)) (s : S) : option (res S) :=
  match is with [] => Some (Ok s) | i :: is' => dof s' <- body i s; forF is' body s' end.

(** [while(q.size()!=1){c=q.front();q.pop_front(); if(c is marker){loops++;q.push_back(marker);continue;} ...}]
    The queue holds cells and the marker ([None]); [visit c loops s] returns the new state and the cells
    to push. [front] of an empty deque is undefined. *)
Fixpoint level_loop {C S : Type} (visit : C -> Z -> S -> res (S * list C)) (fuel : nat)
    (q : list (option C)) (loops : Z) (s : S) : option (res S) :=
  if Nat.eqb (length q) 1 then Some (Ok s) else
  match fuel with
  | O => None
  | Datatypes.S f =>
      match q with
      | [] => Some Undef
      | None :: q' => level_loop visit f (q' ++ [None]) (loops + 1) s
      | Some c :: q' =>
          match visit c loops s with
          | Ok (s', new) => level_loop visit f (q' ++ map Some new) loops s'
          | Thrown => Some Thrown
          | Undef => Some Undef
          end
      end
  end.

(** [while(q.size()>0){c=q.front();q.pop(); ...}] *)
Fixpoint fifo_loop {C S : Type} (visit : C -> S -> res (S * list C)) (fuel : nat)
    (q : list C) (s : S) : option (res S) :=
  match q with
  | [] => Some (Ok s)
  | c :: q' =>
      match fuel with
      | O => None
      | Datatypes.S f =>
          match visit c s with
          | Ok (s', new) => fifo_loop visit f (q' ++ new) s'
          | Thrown => Some Thrown
          | Undef => Some Undef
          end
      end
  end.

(** ** Unmarked nodes *)
Section Count.
  Context {C : Type}.
  Variable eqb : C -> C -> bool.
  Hypothesis eqb_spec : forall a b, reflect (a = b) (eqb a b).
  Definition bupd {B} (f : C -> B) (c : C) (b : B) : C -> B := fun x => if eqb x c then b else f x.
  Lemma bupd_same {B} (f : C -> B) c b : bupd f c b c = b.
  Proof. unfold bupd. destruct (eqb_spec c c); congruence. Qed.
  Lemma bupd_other {B} (f : C -> B) c b x : x <> c -> bupd f c b x = f x.
  Proof. intros H. unfold bupd. destruct (eqb_spec x c); congruence. Qed.

  Definition zeros (V : list C) (lev : C -> Z) : nat := length (filter (fun c => lev c =? 0) V).
  Lemma zeros_le V lev : (zeros V lev <= length V)%nat.
  Proof. unfold zeros. induction V as [|c V IH]; cbn; [lia|]. destruct (lev c =? 0); cbn; lia. Qed.
  Lemma zeros_upd V lev c v : NoDup V -> In c V -> lev c = 0 -> v <> 0 -> zeros V lev = S (zeros V (bupd lev c v)).
  Proof.
    unfold zeros. induction V as [|a V IH]; intros ND HI H0 Hv; [destruct HI|].
    inversion ND as [|? ? Hn ND']; subst. cbn [filter]. destruct HI as [->|HI].
    - rewrite bupd_same, H0, Z.eqb_refl. destruct (Z.eqb_spec v 0); [contradiction|]. cbn [length]. f_equal.
      apply filter_ext_length. intros b Hb. rewrite bupd_other; auto. intros ->. contradiction.
    - rewrite bupd_other by (intros ->; contradiction). specialize (IH ND' HI H0 Hv).
      destruct (lev a =? 0); cbn [length]; lia.
  Qed.
End Count.

(** ** Level loop *)
Section Level.
  Context {C S : Type}.
  Variable eqb : C -> C -> bool.
  Hypothesis eqb_spec : forall a b, reflect (a = b) (eqb a b).
  Variable V : list C.
  Hypothesis V_nodup : NoDup V.
  Variable edges : list C.
  Variable adj : C -> list C.
  Hypothesis edges_V : forall c, In c edges -> In c V.
  Hypothesis adj_V : forall c d, In c V -> In d (adj c) -> In d V.
  Hypothesis adj_8 : forall c, (length (adj c) <= 8)%nat.
  Variable visit : C -> Z -> S -> res (S * list C).
  (** the program state [s] represents the levels [lev] assigned so far (0 = none), in round [loops] *)
  Variable R : (C -> Z) -> Z -> S -> Prop.
  Hypothesis visit_done : forall lev loops s c, R lev loops s -> In c V -> 0 < lev c -> visit c loops s = Ok (s, []).
  Hypothesis visit_new : forall lev loops s c, R lev loops s -> In c V -> lev c = 0 -> 1 <= loops ->
    (forall d, 0 <= lev d <= loops) ->
    exists s', visit c loops s = Ok (s', adj c) /\ R (bupd eqb lev c loops) loops s'.
  Hypothesis R_next : forall lev loops s, R lev loops s -> R lev (loops + 1) s.

  (** [c] can be reached in [n] steps from a start cell *)
  Inductive steps : nat -> C -> Prop :=
  | steps_0 c : In c edges -> steps 0 c
  | steps_S n c d : steps n c -> In d (adj c) -> steps (Datatypes.S n) d.
  Definition isdist (c : C) (n : nat) : Prop := steps n c /\ forall m, steps m c -> (n <= m)%nat.

  Lemma steps_V n c : steps n c -> In c V.
  Proof. induction 1; eauto. Qed.

  Record linv (cur nxt : list C) (loops : Z) (lev : C -> Z) : Prop := {
    li_loops : 1 <= loops;
    li_cur : forall c, In c cur -> steps (Z.to_nat (loops - 1)) c;
    li_nxt : forall c, In c nxt -> steps (Z.to_nat loops) c;
    li_rng : forall c, 0 <= lev c <= loops;
    li_lev : forall c, 0 < lev c -> steps (Z.to_nat (lev c - 1)) c;
    li_edge : forall c, In c edges -> lev c = 1 \/ (In c cur /\ loops = 1);
    li_adj : forall c d, 0 < lev c -> In d (adj c) ->
      (0 < lev d <= lev c + 1) \/ (In d cur /\ lev c = loops - 1) \/ (In d nxt /\ lev c = loops) }.

  Lemma linv_done c cur nxt loops lev : linv (c :: cur) nxt loops lev -> 0 < lev c -> linv cur nxt loops lev.
  Proof.
    intros [A B D E F G H] Hc. constructor; auto.
    - intros d Hd. apply B. right; auto.
    - intros d Hd. destruct (G d Hd) as [|[[<-|Hin] Hl]]; auto.
      left. specialize (E c). lia.
    - intros a d Ha Hd. destruct (H a d Ha Hd) as [?|[[[<-|Hin] Hl]|?]]; auto.
      left. specialize (E c). lia.
  Qed.

  Lemma linv_new c cur nxt loops lev : linv (c :: cur) nxt loops lev -> lev c = 0 ->
    linv cur (nxt ++ adj c) loops (bupd eqb lev c loops).
  Proof.
    intros [A B D E F G H] Hc. pose proof (bupd_same eqb eqb_spec lev c loops) as Us.
    pose proof (bupd_other eqb eqb_spec lev c loops) as Uo.
    assert (dec : forall x, x = c \/ x <> c) by (intros x; destruct (eqb_spec x c); auto).
    constructor; auto.
    - intros d Hd. apply B. right; auto.
    - intros d Hd. apply in_app_or in Hd. destruct Hd as [Hd|Hd]; auto.
      replace (Z.to_nat loops) with (Datatypes.S (Z.to_nat (loops - 1))) by lia.
      apply steps_S with c; auto. apply B. left; auto.
    - intros d. destruct (dec d) as [->|Hn]; [rewrite Us; lia|rewrite Uo; auto].
    - intros d Hd. destruct (dec d) as [->|Hn]; [rewrite Us; apply B; left; auto|].
      rewrite Uo in Hd |- * by auto. auto.
    - intros d Hd. destruct (dec d) as [->|Hn].
      + rewrite Us. destruct (G c Hd) as [|[_ ?]]; [lia|]. left. lia.
      + rewrite Uo by auto. destruct (G d Hd) as [|[[<-|?] ?]]; auto. congruence.
    - intros a d Ha Hd. destruct (dec a) as [->|Hna].
      + rewrite Us. right. right. split; [apply in_or_app; auto|reflexivity].
      + rewrite (Uo a Hna) in *. destruct (dec d) as [->|Hnd].
        * rewrite Us. left. destruct (H a c Ha Hd) as [?|[[_ ?]|[_ ?]]]; lia.
        * rewrite Uo by auto. destruct (H a d Ha Hd) as [?|[[[<-|?] ?]|[? ?]]]; auto; [congruence|].
          right. right. split; auto. apply in_or_app; auto.
  Qed.

  Lemma linv_next nxt loops lev : linv [] nxt loops lev -> linv nxt [] (loops + 1) lev.
  Proof.
    intros [A B D E F G H]. constructor; auto; try lia.
    - intros c Hc. replace (loops + 1 - 1) with loops by lia. auto.
    - intros c [].
    - intros c. specialize (E c). lia.
    - intros c Hc. destruct (G c Hc) as [?|[[] _]]; auto.
    - intros c d Hc Hd. destruct (H c d Hc Hd) as [?|[[[] _]|[? ?]]]; auto. right. left. split; auto. lia.
  Qed.

  Lemma linv_start : linv edges [] 1 (fun _ => 0).
  Proof.
    constructor; try lia.
    - intros c Hc. apply steps_0; auto.
    - intros c [].
    - intros c. right; auto.
  Qed.

  Lemma linv_final loops lev : linv [] [] loops lev ->
    forall c, (0 < lev c /\ isdist c (Z.to_nat (lev c - 1))) \/ (lev c = 0 /\ forall n, ~ steps n c).
  Proof.
    intros [A B D E F G H].
    assert (M : forall n c, steps n c -> 0 < lev c <= Z.of_nat n + 1).
    { induction 1 as [c Hc|n c d Hs IH Hd].
      - destruct (G c Hc) as [->|[[] _]]. lia.
      - destruct (H c d) as [?|[[[] _]|[[] _]]]; auto; lia. }
    intros c. destruct (Z.eq_dec (lev c) 0) as [Z0|Hn].
    - right. split; auto. intros n Hs. apply M in Hs. lia.
    - left. specialize (E c). split; [lia|]. split; [apply F; lia|]. intros m Hm. apply M in Hm. lia.
  Qed.

  Definition size (cur nxt : list C) (lev : C -> Z) : nat := length cur + length nxt + 9 * zeros V lev.

  Lemma level_run : forall fuel cur nxt loops lev s, linv cur nxt loops lev -> R lev loops s ->
    (2 * size cur nxt lev + match cur with [] => 1 | _ => 0 end <= fuel)%nat ->
    exists s' lev' loops', level_loop visit fuel (map Some cur ++ None :: map Some nxt) loops s = Some (Ok s') /\
      R lev' loops' s' /\ linv [] [] loops' lev'.
  Proof.
    unfold size. induction fuel as [|f IH]; intros cur nxt loops lev s I HR Hf.
    { destruct cur as [|c cur]; [|cbn [length] in Hf]; exfalso; lia. }
    destruct cur as [|c cur].
    - destruct nxt as [|d nxt].
      + cbn. exists s, lev, loops. auto.
      + cbn [map app level_loop length Nat.eqb].
        replace (Some d :: map Some nxt ++ [None]) with (map Some (d :: nxt) ++ None :: map (@Some C) []) by reflexivity.
        apply IH with (lev := lev); [apply linv_next; auto|apply R_next; auto|]. cbn [length] in *. lia.
    - assert (HV : In c V) by (apply (steps_V (Z.to_nat (loops - 1))); apply (li_cur _ _ _ _ I); left; auto).
      assert (L : Nat.eqb (length (map Some (c :: cur) ++ None :: map (@Some C) nxt)) 1 = false).
      { apply Nat.eqb_neq. rewrite app_length. cbn. lia. }
      cbn [level_loop]. rewrite L. cbn [map app].
      pose proof (li_rng _ _ _ _ I) as E.
      destruct (Z.eq_dec (lev c) 0) as [Hc|Hc].
      + destruct (visit_new lev loops s c HR HV Hc (li_loops _ _ _ _ I) E) as [s' [Hv HR']]. rewrite Hv.
        replace ((map Some cur ++ None :: map Some nxt) ++ map Some (adj c))
          with (map Some cur ++ None :: map (@Some C) (nxt ++ adj c))
          by (rewrite <- app_assoc, map_app; reflexivity).
        apply IH with (lev := bupd eqb lev c loops); [apply linv_new; auto|auto|].
        rewrite app_length. specialize (adj_8 c).
        assert (Hl := li_loops _ _ _ _ I).
        rewrite (zeros_upd eqb eqb_spec V lev c loops V_nodup HV Hc) in Hf by lia.
        cbn [length] in Hf. destruct cur; cbn [length] in *; lia.
      + rewrite (visit_done lev loops s c HR HV) by (specialize (E c); lia).
        cbn [map]. rewrite app_nil_r. apply IH with (lev := lev); [apply linv_done with c; auto; specialize (E c); lia|auto|].
        cbn [length] in Hf. destruct cur; cbn [length] in *; lia.
  Qed.

  (** The level loop started from [edges] ends with each cell at its breadth-first distance + 1. *)
  Theorem level_spec fuel s : R (fun _ => 0) 1 s -> (2 * (length edges + 9 * length V) + 1 <= fuel)%nat ->
    exists s' lev loops, level_loop visit fuel (map Some edges ++ [None]) 1 s = Some (Ok s') /\ R lev loops s' /\
      forall c, (0 < lev c /\ isdist c (Z.to_nat (lev c - 1))) \/ (lev c = 0 /\ forall n, ~ steps n c).
  Proof.
    intros HR Hf. destruct (level_run fuel edges [] 1 (fun _ => 0) s linv_start HR) as [s' [lev [loops [E [HR' I]]]]].
    - unfold size. pose proof (zeros_le V (fun _ => 0)). destruct edges; cbn [length] in *; lia.
    - exists s', lev, loops. split; [exact E|]. split; auto. eapply linv_final; eauto.
  Qed.
End Level.

(** ** Plain flooding *)
Section Flood.
  Context {C S : Type}.
  Variable eqb : C -> C -> bool.
  Hypothesis eqb_spec : forall a b, reflect (a = b) (eqb a b).
  Variable V : list C.
  Hypothesis V_nodup : NoDup V.
  Variable adj : C -> list C.
  Hypothesis adj_V : forall c d, In c V -> In d (adj c) -> In d V.
  Hypothesis adj_8 : forall c, (length (adj c) <= 8)%nat.
  Variable ok : C -> bool.   (* cells through which the flood passes *)
  Variable visit : C -> S -> res (S * list C).
  (** the state [s] represents the set of cells reached so far ([lev] c <> 0) *)
  Variable R : (C -> Z) -> S -> Prop.
  Hypothesis visit_skip : forall lev s c, R lev s -> In c V -> (ok c = false \/ lev c <> 0) -> visit c s = Ok (s, []).
  Hypothesis visit_new : forall lev s c, R lev s -> In c V -> ok c = true -> lev c = 0 ->
    exists s', visit c s = Ok (s', adj c) /\ R (bupd eqb lev c 1) s'.

  Variable start : list C.
  Hypothesis start_V : forall c, In c start -> In c V.
  Inductive floods : C -> Prop :=
  | floods_start c : In c start -> ok c = true -> floods c
  | floods_step c d : floods c -> In d (adj c) -> ok d = true -> floods d.

  Lemma flood_run : forall fuel q lev s, R lev s ->
    (forall c, In c q -> In c V) -> (forall c, In c q -> ok c = true -> floods c) ->
    (forall c, lev c <> 0 -> floods c) ->
    (forall c, In c start -> ok c = true -> lev c <> 0 \/ In c q) ->
    (forall c d, lev c <> 0 -> In d (adj c) -> ok d = true -> lev d <> 0 \/ In d q) ->
    (length q + 9 * zeros V lev <= fuel)%nat ->
    exists s' lev', fifo_loop visit fuel q s = Some (Ok s') /\ R lev' s' /\ forall c, lev' c <> 0 <-> floods c.
  Proof.
    induction fuel as [|f IH]; intros q lev s HR HV Hq Hl Hs Ha Hf.
    - destruct q as [|c q]; [|cbn in Hf; lia]. cbn. exists s, lev. split; auto. split; auto.
      intros c. split; auto. induction 1 as [c Hc Hk|c d Hc IH Hd Hk].
      + destruct (Hs c Hc Hk) as [?|[]]; auto.
      + destruct (Ha c d) as [?|[]]; auto.
    - destruct q as [|c q].
      + cbn. exists s, lev. split; auto. split; auto.
        intros c. split; auto. induction 1 as [c Hc Hk|c d Hc IHc Hd Hk].
        * destruct (Hs c Hc Hk) as [?|[]]; auto.
        * destruct (Ha c d) as [?|[]]; auto.
      + cbn [fifo_loop]. assert (HcV : In c V) by (apply HV; left; auto).
        assert (K : (ok c = false \/ lev c <> 0) \/ (ok c = true /\ lev c = 0))
          by (destruct (ok c); destruct (Z.eq_dec (lev c) 0); auto).
        destruct K as [K|[Hk Hz]].
        * rewrite (visit_skip lev s c HR HcV K). rewrite app_nil_r. apply (IH q lev s HR).
          -- intros; apply HV; right; auto.
          -- intros; apply Hq; auto; right; auto.
          -- auto.
          -- intros d Hd Hkd. destruct (Hs d Hd Hkd) as [?|[<-|?]]; auto. destruct K; [congruence|auto].
          -- intros a d Hla Hd Hkd. destruct (Ha a d Hla Hd Hkd) as [?|[<-|?]]; auto. destruct K; [congruence|auto].
          -- cbn [length] in Hf. lia.
        * destruct (visit_new lev s c HR HcV Hk Hz) as [s' [Hv HR']]. rewrite Hv.
          pose proof (bupd_same eqb eqb_spec lev c 1) as Us. pose proof (bupd_other eqb eqb_spec lev c 1) as Uo.
          assert (dec : forall x, x = c \/ x <> c) by (intros x; destruct (eqb_spec x c); auto).
          apply (IH _ (bupd eqb lev c 1) s' HR').
          -- intros d Hd. apply in_app_or in Hd. destruct Hd; [apply HV; right; auto|eauto].
          -- intros d Hd Hkd. apply in_app_or in Hd. destruct Hd as [Hd|Hd]; [apply Hq; auto; right; auto|].
             apply floods_step with c; auto. apply Hq; auto. left; auto.
          -- intros d Hd. destruct (dec d) as [->|Hn]; [apply Hq; auto; left; auto|]. rewrite Uo in Hd; auto.
          -- intros d Hd Hkd. destruct (dec d) as [->|Hn]; [left; rewrite Us; lia|]. rewrite Uo by auto.
             destruct (Hs d Hd Hkd) as [?|[<-|?]]; [auto|congruence|]. right. apply in_or_app; auto.
          -- intros a d Hla Hd Hkd. destruct (dec d) as [->|Hnd]; [left; rewrite Us; lia|].
             rewrite (Uo d) by auto. destruct (dec a) as [->|Hna]; [right; apply in_or_app; auto|].
             rewrite Uo in Hla by auto. destruct (Ha a d Hla Hd Hkd) as [?|[<-|?]]; [auto|congruence|].
             right. apply in_or_app; auto.
          -- rewrite app_length. rewrite (zeros_upd eqb eqb_spec V lev c 1 V_nodup HcV Hz) in Hf by lia.
             specialize (adj_8 c). cbn [length] in Hf. lia.
  Qed.

  Theorem flood_spec fuel s : R (fun _ => 0) s -> (length start + 9 * length V <= fuel)%nat ->
    exists s' lev, fifo_loop visit fuel start s = Some (Ok s') /\ R lev s' /\ forall c, lev c <> 0 <-> floods c.
  Proof.
    intros HR Hf. apply (flood_run fuel start (fun _ => 0)); auto.
    - intros c Hc Hk. apply floods_start; auto.
    - intros c Hc. exfalso. apply Hc. reflexivity.
    - pose proof (zeros_le V (fun _ => 0)). lia.
  Qed.
End Flood.
