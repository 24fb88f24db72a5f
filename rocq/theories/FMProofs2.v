From Coq Require Import ZArith List Lia Bool Permutation QArith Qcanon.
From Verif Require Import Base Res Kahn RasterSpec RasterFacts FlowModel FlowSpec FlowProofs FAModel FASpec FAProofs FMModel FMSpec FMProofs.
Open Scope Z_scope.

Lemma qsum_cons q l : qsum (q :: l) = (q + qsum l)%Qc.
Proof. reflexivity. Qed.
Lemma qsum_app a b : qsum (a ++ b) = (qsum a + qsum b)%Qc.
Proof. induction a as [|q a IH]; [cbn [app]; change (qsum []) with 0%Qc; ring|]. change ((q :: a) ++ b) with (q :: (a ++ b)). rewrite !qsum_cons, IH. ring. Qed.
Lemma qsum_scale {B} (f : B -> Qc) k l : qsum (map (fun b => f b * k)%Qc l) = (qsum (map f l) * k)%Qc.
Proof. induction l as [|b l IH]; cbn [map]; [change (qsum []) with 0%Qc; ring|]. rewrite !qsum_cons, IH. ring. Qed.
Lemma qsum_nonneg {B} (f : B -> Qc) l : (forall b, In b l -> (0 <= f b)%Qc) -> (0 <= qsum (map f l))%Qc.
Proof.
  induction l as [|b l IH]; intros H; cbn [map]; [apply Qcle_refl|]. rewrite qsum_cons.
  replace 0%Qc with (0 + 0)%Qc by ring. apply Qcplus_le_compat; [apply H; left; auto|]. apply IH. intros; apply H; right; auto.
Qed.
Lemma qsum_pos {B} (f : B -> Qc) l b : (forall b, In b l -> (0 <= f b)%Qc) -> In b l -> (0 < f b)%Qc -> (0 < qsum (map f l))%Qc.
Proof.
  intros H Hb Hp. apply in_split in Hb. destruct Hb as [l1 [l2 ->]]. rewrite map_app, qsum_app. cbn [map]. rewrite qsum_cons. apply Qclt_le_trans with (f b); [exact Hp|].
  replace (qsum (map f l1) + (f b + qsum (map f l2)))%Qc with (f b + (qsum (map f l1) + qsum (map f l2)))%Qc by ring.
  rewrite <- (Qcplus_0_r (f b)) at 1. apply Qcplus_le_compat; [apply Qcle_refl|].
  replace 0%Qc with (0 + 0)%Qc by ring. apply Qcplus_le_compat; apply qsum_nonneg; intros c Hc; apply H, in_app_iff; cbn [In]; auto.
Qed.
Lemma qsum_zero {B} (f : B -> Qc) l : (forall b, In b l -> f b = 0%Qc) -> qsum (map f l) = 0%Qc.
Proof. induction l as [|b l IH]; intros H; cbn [map]; [reflexivity|]. rewrite qsum_cons, H by (cbn; auto). rewrite IH; [ring|]. intros; apply H; right; auto. Qed.

Section FM.
  Variables (elev : grid Qc) (nd : Qc) (w h : Z).
  Local Notation nbe n x y := (elev (x + dx D8 n)%Z (y + dy D8 n)%Z).
  Local Notation low := (low elev nd w h).

  Definition lowb (x y : Z) (n : nat) : bool :=
    inGrid w h (x + dx D8 n) (y + dy D8 n) && negb (eqq (nbe n x y) nd) && ltq (nbe n x y) (elev x y).
  Lemma lowb_iff x y n : lowb x y n = true <-> low D8 x y n.
  Proof. unfold lowb, FMProofs.low. rewrite !andb_true_iff, negb_true_iff, eqq_false, ltq_iff, in_raster_iff. tauto. Qed.

  Section MFD.
    Variable wt : Qc -> nat -> Qc.
    Hypothesis wt_pos : forall rise n, (1 <= n <= 8)%nat -> (0 < rise)%Qc -> (0 < wt rise n)%Qc.

    Lemma mfd_scan x y : in_raster w h x y -> ~ on_edge w h x y ->
      exists a, forM (dirs D8) (mfd_step elev nd w h wt x y (elev x y)) (row0, 0%Qc) = Ok a /\
        fst a 0%nat = NO_FLOW_GEN /\
        (forall n, In n (dirs D8) -> fst a n = if lowb x y n then wt (elev x y - nbe n x y)%Qc n else NO_FLOW_GEN) /\
        snd a = qsum (map (fun n => if lowb x y n then wt (elev x y - nbe n x y)%Qc n else 0%Qc) (dirs D8)).
    Proof.
      intros Hin Hi.
      set (f := fun n => if lowb x y n then wt (elev x y - nbe n x y)%Qc n else 0%Qc).
      set (I := fun (done : list nat) (a : row * Qc) =>
        fst a 0%nat = NO_FLOW_GEN /\
        (forall n, In n done -> fst a n = if lowb x y n then wt (elev x y - nbe n x y)%Qc n else NO_FLOW_GEN) /\
        (forall n, ~ In n done -> fst a n = NO_FLOW_GEN) /\
        snd a = qsum (map f done)).
      destruct (forM_inv I (mfd_step elev nd w h wt x y (elev x y)) (dirs D8)) with (s := (row0, 0%Qc)) as [b [E H]].
      - intros done n rest a Eo [I0 [I1 [I2 I3]]]. unfold mfd_step. pose proof (interior_nbr w h x y n Hin Hi) as Hnb.
        pose proof Hnb as Hg. rewrite in_raster_iff in Hg. rewrite Hg. cbn [negb].
        rewrite gat_ok by auto. cbn [bind].
        assert (Hnd : ~ In n done /\ (1 <= n)%nat).
        { pose proof (seq_NoDup 8 1) as N. change (seq 1 8) with (dirs D8) in N. rewrite Eo in N. apply NoDup_remove_2 in N.
          split; [intros C; apply N, in_app_iff; auto|].
          assert (In n (dirs D8)) by (rewrite Eo; apply in_app_iff; right; left; auto). apply dirs_In in H. lia. }
        destruct Hnd as [Hnd Hn1].
        assert (Hskip : lowb x y n = false -> I (done ++ [n]) a).
        { intros Hl. split; [auto|]. split; [|split].
          - intros m. rewrite in_app_iff. intros [C|[<-|[]]]; [auto|]. rewrite Hl. auto.
          - intros m C. apply I2. intros C'. apply C, in_app_iff. auto.
          - rewrite map_app, qsum_app, <- I3. cbn [map]. rewrite qsum_cons. change (qsum []) with 0%Qc. unfold f. rewrite Hl. ring. }
        destruct (eqq (nbe n x y) nd) eqn:E1.
        { exists a. split; [reflexivity|]. apply Hskip. unfold lowb. rewrite Hg, E1. reflexivity. }
        destruct (ltq (nbe n x y) (elev x y)) eqn:E2.
        2: { exists a. split; [reflexivity|]. apply Hskip. unfold lowb. rewrite Hg, E1, E2. reflexivity. }
        assert (Hl : lowb x y n = true) by (unfold lowb; rewrite Hg, E1, E2; reflexivity).
        cbn zeta. eexists. split; [reflexivity|]. split; [|split; [|split]]; cbn [fst snd].
        + rewrite rset_other by lia. auto.
        + intros m Hm. apply in_app_iff in Hm. destruct Hm as [C|[<-|[]]].
          * rewrite rset_other by congruence. auto.
          * rewrite rset_same, Hl. reflexivity.
        + intros m C. rewrite in_app_iff in C. cbn [In] in C. rewrite rset_other by (intros ->; tauto). apply I2. tauto.
        + rewrite map_app, qsum_app, <- I3. cbn [map]. rewrite qsum_cons. change (qsum []) with 0%Qc. unfold f. rewrite Hl. ring.
      - split; [reflexivity|]. split; [intros n []|]. split; reflexivity.
      - exists b. split; [exact E|]. destruct H as [I0 [I1 [I2 I3]]]. auto.
    Qed.

    Lemma mfd_norm_loop ic r : exists r', forM (dirs D8) (mfd_norm ic) r = Ok r' /\ r' 0%nat = r 0%nat /\
      forall n, In n (dirs D8) -> r' n = if posq (r n) then (r n * ic)%Qc else 0%Qc.
    Proof.
      set (I := fun (done : list nat) (r' : row) => (forall n, ~ In n done -> r' n = r n) /\
        forall n, In n done -> r' n = if posq (r n) then (r n * ic)%Qc else 0%Qc).
      destruct (forM_inv I (mfd_norm ic) (dirs D8)) with (s := r) as [b [E H]].
      - intros done n rest r' Eo [I1 I2]. unfold mfd_norm.
        assert (Hnd : ~ In n done).
        { pose proof (seq_NoDup 8 1) as N. change (seq 1 8) with (dirs D8) in N. rewrite Eo in N. apply NoDup_remove_2 in N.
          intros C; apply N, in_app_iff; auto. }
        rewrite (I1 n Hnd).
        assert (G : forall v, v = (if posq (r n) then (r n * ic)%Qc else 0%Qc) -> I (done ++ [n]) (rset r' n v)).
        { intros v Hv. split; intros m Hm; rewrite in_app_iff in Hm; cbn [In] in Hm.
          - rewrite rset_other by (intros ->; tauto). apply I1. tauto.
          - destruct Hm as [Hm|[<-|[]]]; [rewrite rset_other by congruence; auto|]. rewrite rset_same. exact Hv. }
        destruct (posq (r n)) eqn:Ep; eexists; (split; [reflexivity|]); apply G; rewrite ?Ep; auto.
      - split; [auto|intros n []].
      - exists b. split; [exact E|]. destruct H as [H1 H2]. split; [|exact H2]. apply H1. rewrite dirs_In. lia.
    Qed.

    Lemma mfd_cell_ok x y : in_raster w h x y -> ~ on_edge w h x y ->
      exists r, mfd_cell elev nd w h wt x y row0 = Ok r /\
        ((has_lower elev nd w h x y -> distributes elev nd w h r x y) /\ (~ has_lower elev nd w h x y -> keeps r)) /\
        (forall n m, In n (dirs D8) -> In m (dirs D8) -> low D8 x y n -> low D8 x y m ->
           (r n * wt (elev x y - nbe m x y) m = r m * wt (elev x y - nbe n x y) n)%Qc /\ (0 < r n)%Qc).
    Proof.
      intros Hin Hi. unfold mfd_cell. rewrite gat_ok by auto. cbn [bind].
      destruct (mfd_scan x y Hin Hi) as [[r0 C] [E [H0 [Hr HC]]]]. rewrite E. cbn [bind fst snd] in *.
      set (f := fun n => if lowb x y n then wt (elev x y - nbe n x y)%Qc n else 0%Qc) in *.
      assert (Hwp : forall n, In n (dirs D8) -> lowb x y n = true -> (0 < wt (elev x y - nbe n x y)%Qc n)%Qc).
      { intros n Hn Hl. apply wt_pos; [apply dirs_In in Hn; exact Hn|]. apply qc_sub_pos. apply lowb_iff in Hl. apply Hl. }
      assert (Hf : forall n, In n (dirs D8) -> (0 <= f n)%Qc).
      { intros n Hn. unfold f. destruct (lowb x y n) eqn:El; [|apply Qcle_refl]. apply Qclt_le_weak. apply Hwp; auto. }
      destruct (posq C) eqn:EC.
      - apply posq_iff in EC. destruct (mfd_norm_loop (/ C)%Qc (rset r0 0 HAS_FLOW_GEN)) as [r [E' [H0' Hr']]].
        exists r. split; [exact E'|]. rewrite rset_same in H0'.
        assert (Hic : (0 < / C)%Qc) by (apply qc_pos_inv; auto).
        assert (HCn : C <> 0%Qc) by (intros ->; exact (qc_lt_irr _ EC)).
        assert (Hrn : forall n, In n (dirs D8) -> r n = (f n * / C)%Qc).
        { intros n Hn. rewrite Hr' by auto. pose proof Hn as Hn'. apply dirs_In in Hn'. rewrite rset_other by lia. rewrite Hr by auto. unfold f.
          destruct (lowb x y n) eqn:El.
          - rewrite (proj2 (posq_iff _)); auto.
          - replace (posq NO_FLOW_GEN) with false by reflexivity. ring. }
        assert (Hpos : forall n, In n (dirs D8) -> ((0 < r n)%Qc <-> lowb x y n = true)).
        { intros n Hn. rewrite Hrn by auto. unfold f. destruct (lowb x y n) eqn:El; split; intros Hp; auto.
          - apply qc_pos_mul; auto.
          - replace (0 * / C)%Qc with 0%Qc in Hp by ring. exfalso. exact (qc_lt_irr _ Hp).
          - discriminate. }
        assert (HL : has_lower elev nd w h x y).
        { apply has_lower_iff. destruct (existsb (lowb x y) (dirs D8)) eqn:Ex.
          - apply existsb_exists in Ex. destruct Ex as [n [Hn Hl]]. exists n. split; [auto|]. apply lowb_iff; auto.
          - exfalso. assert (C = 0%Qc); [|contradiction]. rewrite HC. apply qsum_zero. intros n Hn. unfold f.
            destruct (lowb x y n) eqn:El; [|auto]. rewrite <- not_true_iff_false in Ex. exfalso. apply Ex, existsb_exists. eauto. }
        split; [split; [|intros Cn; contradiction]|].
        + intros _. split; [exact H0'|]. split.
          * intros n Hn Hp. assert (Hd : In n (dirs D8)) by (apply dirs_In; cbn; lia). apply low_lower; [auto|]. apply lowb_iff, Hpos; auto.
          * change (seq 1 8) with (dirs D8). rewrite (map_ext_in _ (fun n => f n * / C)%Qc).
            -- rewrite qsum_scale, <- HC. apply Qcmult_inv_r; auto.
            -- intros n Hn. rewrite <- Hrn by auto. destruct (Qclt_le_dec 0 (r n)) as [Hp|Hp]; [reflexivity|].
               destruct (lowb x y n) eqn:El; [exfalso; apply Hpos in El; auto; exact (Qclt_not_le _ _ El Hp)|].
               rewrite Hrn by auto. unfold f. rewrite El. ring.
        + intros n m Hn Hm Ln Lm. apply lowb_iff in Ln. apply lowb_iff in Lm. split; [|apply Hpos; auto].
          rewrite !Hrn by auto. unfold f. rewrite Ln, Lm. ring.
      - apply posq_false in EC.
        assert (Hno : forall n, In n (dirs D8) -> lowb x y n = false).
        { intros n Hn. destruct (lowb x y n) eqn:El; [|auto]. exfalso. refine (Qclt_not_le _ _ _ EC).
          rewrite HC. apply (qsum_pos f _ n); auto. unfold f. rewrite El. auto. }
        exists r0. split; [reflexivity|]. split.
        + split.
          * intros HL. apply has_lower_iff in HL. destruct HL as [n [Hn Hl]]. apply lowb_iff in Hl. rewrite Hno in Hl by auto. discriminate.
          * intros _. split; [exact H0|]. intros n Hn. rewrite Hr by (apply dirs_In; cbn; lia). rewrite Hno by (apply dirs_In; cbn; lia). discriminate.
        + intros n m Hn _ Ln. apply lowb_iff in Ln. rewrite Hno in Ln by auto. discriminate.
    Qed.
  End MFD.
End FM.
