(** The aggregated priority flood computes the minimax level of every label. *)
From Coq Require Import ZArith List Lia Bool Permutation.
From Verif Require Import Base Res FlowModel PPFModel.
Open Scope Z_scope.

(** From Special Watershed 1 one gets to the label over meetings that are not higher than [z]. *)
Inductive greach (mg : sgraph) (z : Z) : Z -> Prop :=
| gr_1 : greach mg z 1
| gr_step a b v : greach mg z a -> mg a b = Some v -> v <= z -> greach mg z b.
Lemma greach_le mg z z' l : greach mg z l -> z <= z' -> greach mg z' l.
Proof. induction 1; intros; [apply gr_1|eapply gr_step; eauto; lia]. Qed.

Section Agg.
  Variables (tb : nat -> nat) (lowest max : Z) (mg : sgraph).
  Hypothesis Hmax : 1 < max.
  Hypothesis Hmg : forall a b v, mg a b = Some v -> 0 <= a < max /\ 0 <= b < max /\ lowest <= v.

  Record AI (s : ast) : Prop := {
    ai_vis : forall l, a_vis s l = true -> lowest <= a_ge s l /\ greach mg (a_ge s l) l /\ forall z, lowest <= z -> greach mg z l -> a_ge s l <= z;
    ai_open : forall k l, In (k, l) (a_open s) -> lowest <= k /\ greach mg k l /\ 0 <= l < max;
    ai_front : forall a b v, a_vis s a = true -> mg a b = Some v -> a_vis s b = true \/ exists k, In (k, b) (a_open s) /\ k <= Z.max (a_ge s a) v;
    ai_1 : a_vis s 1 = true \/ In (lowest, 1) (a_open s) }.

  Lemma ai_cut s k0 : AI s -> (forall k l, In (k, l) (a_open s) -> k0 <= k) -> forall z l, lowest <= z -> greach mg z l -> a_vis s l = false -> k0 <= z.
  Proof.
    intros [A1 A2 A3 A4] M z l Hz G. induction G as [|a b v G IH E Le]; intros V.
    - destruct A4 as [A4|A4]; [congruence|]. specialize (M _ _ A4). lia.
    - destruct (a_vis s a) eqn:Va; [|auto]. destruct (A1 a Va) as [_ [_ B]]. specialize (B z Hz G). destruct (A3 a b v Va E) as [?|[k [Ik Lk]]]; [congruence|].
      specialize (M _ _ Ik). lia.
  Qed.

  Definition unv (vis : Z -> bool) : nat := length (filter (fun l => negb (vis l)) (zrange 0 (Z.to_nat max))).
  Lemma zset_same {A} (f : Z -> A) k a : zset f k a k = a.
  Proof. unfold zset. rewrite Z.eqb_refl. reflexivity. Qed.
  Lemma zset_other {A} (f : Z -> A) k a k' : k' <> k -> zset f k a k' = f k'.
  Proof. unfold zset. intros N. destruct (Z.eqb_spec k' k); [contradiction|reflexivity]. Qed.
  Lemma unv_set vis l : 0 <= l < max -> vis l = false -> unv vis = S (unv (zset vis l true)).
  Proof.
    intros R V. unfold unv. assert (Hin : In l (zrange 0 (Z.to_nat max))) by (apply zrange_In; lia). pose proof (zrange_NoDup 0 (Z.to_nat max)) as Hnd.
    revert Hin Hnd. generalize (zrange 0 (Z.to_nat max)) as q. induction q as [|a q IH]; intros Hin Hnd; [contradiction|].
    apply NoDup_cons_iff in Hnd. destruct Hnd as [Hni Hnd]. cbn [filter]. destruct Hin as [->|Hin].
    - rewrite V, zset_same. cbn [negb length]. f_equal. apply filter_ext_length. intros b Hb. rewrite zset_other; auto. intros ->; auto.
    - rewrite zset_other by (intros ->; auto). destruct (vis a); cbn [negb length]; rewrite (IH Hin Hnd); reflexivity.
  Qed.

  (** the loop over the row of a label *)
  Lemma visit_fold my v : forall ns s, exists add, fold_left (a_visit mg my v) ns s = mkA (add ++ a_open s) (a_vis s) (a_ge s) /\ (length add <= length ns)%nat /\
    (forall k n, In (k, n) add <-> In n ns /\ a_vis s n = false /\ exists e, mg v n = Some e /\ k = Z.max my e).
  Proof.
    induction ns as [|n ns IH]; intros s; cbn [fold_left].
    - exists []. destruct s; split; [reflexivity|]. split; [cbn; lia|]. intros k n. cbn. tauto.
    - unfold a_visit at 2. destruct (mg v n) as [e|] eqn:E; [destruct (a_vis s n) eqn:V|].
      + destruct (IH s) as [add [F [Le H]]]. exists add. split; [exact F|]. cbn [length]. split; [lia|]. intros k m. rewrite H. cbn [In]. split; [tauto|].
        intros [[<-|?] [? ?]]; [congruence|auto].
      + destruct (IH (mkA ((Z.max my e, n) :: a_open s) (a_vis s) (a_ge s))) as [add [F [Le H]]]. exists (add ++ [(Z.max my e, n)]). cbn [a_open a_vis a_ge] in *.
        split; [rewrite F, <- app_assoc; reflexivity|]. rewrite app_length. cbn [length]. split; [lia|]. intros k m. rewrite in_app_iff, H. cbn [In]. split.
        * intros [[A [B C]]|[E0|[]]]; [auto|]. injection E0 as <- <-. split; [auto|]. split; [auto|]. exists e. auto.
        * intros [[<-|A] [B [e' [C D]]]]; [right; left; congruence|left]. split; auto. split; auto. exists e'. auto.
      + destruct (IH s) as [add [F [Le H]]]. exists add. split; [exact F|]. cbn [length]. split; [lia|]. intros k m. rewrite H. cbn [In]. split; [tauto|].
        intros [[<-|?] [? [e [? ?]]]]; [congruence|eauto].
  Qed.

  Lemma agg_ok : exists s, aggregated tb lowest max mg = Some s /\
    forall l, l <> 1 -> (exists z, greach mg z l) -> greach mg (a_ge s l) l /\ forall z, greach mg z l -> a_ge s l <= z.
  Proof.
    assert (LOW : forall z l, l <> 1 -> greach mg z l -> lowest <= z).
    { intros z l N G. destruct G as [|a b v G E Le]; [contradiction|]. destruct (Hmg _ _ _ E) as [_ [_ Lo]]. lia. }
    destruct (while_pop_inv (a_pop tb) (a_body max mg) AI (fun s => (length (a_open s) + unv (a_vis s) * Z.to_nat max)%nat)) with
      (fuel := S (Z.to_nat max * Z.to_nat max)) (i := O) (s := mkA [(lowest, 1)] (fun _ => false) (fun _ => 0)) as [s [i [E [A F]]]].
    - intros i s c s1 I P. unfold a_pop in P. destruct (pq_pop _ (tb i) (a_open s)) as [[c' q]|] eqn:EP; [|discriminate P]. injection P as <- <-.
      apply pq_pop_some in EP. destruct EP as [PM MIN]. destruct c' as [k v]. cbn [fst] in MIN.
      assert (INO : forall e, In e (a_open s) <-> e = (k, v) \/ In e q).
      { intros e. split; intros He; [apply (Permutation_in _ PM) in He; destruct He; auto|apply (Permutation_in _ (Permutation_sym PM)); destruct He; [left; auto|right; auto]]. }
      assert (MK : forall k' l, In (k', l) (a_open s) -> k <= k') by (intros k' l Hl; specialize (MIN _ Hl); cbn [fst] in MIN; rewrite Z.gtb_ltb in MIN; apply Z.ltb_ge in MIN; exact MIN).
      assert (LEN : length (a_open s) = S (length q)) by (rewrite (Permutation_length PM); reflexivity).
      pose proof I as [A1 A2 A3 A4]. destruct (A2 k v) as [Lk [Gk Rv]]; [apply INO; auto|].
      unfold a_body. cbn [a_vis a_open a_ge]. destruct (a_vis s v) eqn:V.
      + split; [|cbn [a_open a_vis]; lia]. constructor; cbn [a_vis a_open a_ge]; auto.
        * intros k' l Hl. apply A2, INO. auto.
        * intros a b x Va Ex. destruct (A3 a b x Va Ex) as [?|[k' [Ik Lk']]]; [auto|]. apply INO in Ik. destruct Ik as [Ek|Ik]; [|right; eauto].
          injection Ek as -> ->. auto.
        * destruct A4 as [?|A4]; [auto|]. apply INO in A4. destruct A4 as [Ek|?]; [|auto]. injection Ek as _ <-. auto.
      + destruct (visit_fold k v (zrange 0 (Z.to_nat max)) (mkA q (zset (a_vis s) v true) (zset (a_ge s) v k))) as [add [FE [LA HA]]].
        rewrite FE. cbn [a_open a_vis a_ge] in *. rewrite zrange_length in LA.
        assert (U := unv_set (a_vis s) v Rv V).
        split; [|rewrite app_length; nia].
        assert (DV : forall u : Z, u = v \/ u <> v) by (intros u; lia).
        constructor; cbn [a_open a_vis a_ge].
        * intros l Hl. destruct (DV l) as [->|Nl].
          -- rewrite zset_same. split; [exact Lk|]. split; [exact Gk|]. intros z Hz Gz. apply (ai_cut s k I MK z v); auto.
          -- rewrite !zset_other in * by auto. auto.
        * intros k' l Hl. apply in_app_iff in Hl. destruct Hl as [Hl|Hl]; [|apply A2, INO; auto]. apply HA in Hl. destruct Hl as [Rl [_ [e [Ee ->]]]].
          destruct (Hmg _ _ _ Ee) as [_ [R' Lo]]. split; [lia|]. split; [|exact R']. apply (gr_step mg _ v l e); [|exact Ee|lia]. apply (greach_le _ k); [exact Gk|lia].
        * intros a b x Va Ex. destruct (DV b) as [->|Nb]; [left; apply zset_same|]. rewrite (zset_other _ _ _ b) by auto. destruct (DV a) as [->|Na].
          -- rewrite zset_same. destruct (a_vis s b) eqn:Vb; [auto|right]. exists (Z.max k x). split; [|lia]. apply in_app_iff. left. apply HA.
             destruct (Hmg _ _ _ Ex) as [_ [R' _]]. split; [apply zrange_In; lia|]. split; [rewrite zset_other by auto; exact Vb|]. exists x. auto.
          -- rewrite zset_other in Va by auto. rewrite (zset_other _ _ _ a) by auto. destruct (A3 a b x Va Ex) as [?|[k' [Ik Lk']]]; [auto|right].
             apply INO in Ik. destruct Ik as [Ek|Ik]; [congruence|]. exists k'. split; [apply in_app_iff; auto|exact Lk'].
        * destruct (DV 1) as [E1|N1]; [left; rewrite E1; apply zset_same|]. rewrite zset_other by auto. destruct A4 as [?|A4]; [auto|right].
          apply INO in A4. destruct A4 as [Ek|?]; [congruence|]. apply in_app_iff. auto.
    - constructor; cbn [a_open a_vis a_ge]; auto; try discriminate.
      + intros k l [Ek|[]]. injection Ek as <- <-. split; [lia|]. split; [apply gr_1|lia].
      + right. left. auto.
    - cbn [a_open a_vis length]. assert (unv (fun _ => false) <= Z.to_nat max)%nat; [|nia]. unfold unv. rewrite <- (zrange_length 0 (Z.to_nat max)) at 2.
      generalize (zrange 0 (Z.to_nat max)). induction l; cbn in *; lia.
    - unfold aggregated. exists s. split; [exact E|]. intros l N1 [z G].
      assert (OE : a_open s = []).
      { unfold a_pop in F. destruct (pq_pop _ (tb i) (a_open s)) as [[c q]|] eqn:EP; [discriminate F|]. eapply pq_pop_none; [|exact EP]. apply (min_by_key fst). }
      assert (VIS : a_vis s l = true).
      { destruct (a_vis s l) eqn:V; auto. exfalso. assert (Z.succ z <= z); [|lia]. apply (ai_cut s (Z.succ z) A) with (l := l); auto; [rewrite OE; intros k m []|].
        apply (LOW z l); auto. }
      destruct (ai_vis _ A l VIS) as [B1 [B2 B3]]. split; [exact B2|]. intros z' G'. apply B3; auto. apply (LOW z' l); auto.
  Qed.
End Agg.
