From Coq Require Import ZArith List Lia Bool Permutation QArith Qcanon.
From Verif Require Import Base Res Kahn RasterSpec RasterFacts FlowModel FlowSpec FlowProofs FAModel FASpec FAProofs FMModel FMSpec.
Open Scope Z_scope.

Lemma ltq_iff a b : ltq a b = true <-> (a < b)%Qc.
Proof. unfold ltq. destruct (Qclt_le_dec a b) as [H|H]; split; intros; auto; try discriminate. exfalso. exact (Qclt_not_le _ _ H0 H). Qed.
Lemma ltq_false a b : ltq a b = false <-> (b <= a)%Qc.
Proof. unfold ltq. destruct (Qclt_le_dec a b) as [H|H]; split; intros; auto; try discriminate. exfalso. exact (Qclt_not_le _ _ H H0). Qed.
Lemma rset_same r n v : rset r n v n = v.
Proof. unfold rset. rewrite Nat.eqb_refl. reflexivity. Qed.
Lemma rset_other r n v k : k <> n -> rset r n v k = r k.
Proof. intros H. unfold rset. destruct (Nat.eqb_spec k n); [congruence|reflexivity]. Qed.
Lemma qc_lt01 : (0 < 1)%Qc. Proof. reflexivity. Qed.
Lemma qc_neg1 : (Q2Qc (-1) <= 0)%Qc. Proof. discriminate. Qed.
Lemma qc_lt_irr (a : Qc) : ~ (a < a)%Qc.
Proof. intros H. exact (Qclt_not_le _ _ H (Qcle_refl a)). Qed.

Section FM.
  Variables (elev : grid Qc) (nd : Qc) (w h : Z).
  Definition row0 : row := fun _ => NO_FLOW_GEN.

  Lemma FM_ok cellf (R : Z -> Z -> row -> Prop) order : Permutation order (cells w h) ->
    (forall x y, in_raster w h x y -> elev x y <> nd -> ~ on_edge w h x y -> exists r, cellf x y row0 = Ok r /\ R x y r) ->
    exists P, FM elev nd w h cellf order = Ok P /\
      forall x y, in_raster w h x y ->
        (elev x y = nd -> P (y * w + x) = rset row0 0 NO_DATA_GEN) /\
        (elev x y <> nd -> on_edge w h x y -> P (y * w + x) = row0) /\
        (elev x y <> nd -> ~ on_edge w h x y -> R x y (P (y * w + x))).
  Proof.
    intros Ho Hc. unfold FM.
    assert (Hin : forall c, In c order -> in_raster w h (fst c) (snd c)).
    { intros [x y] H. apply cells_In. eapply Permutation_in; eauto. }
    assert (HN : NoDup order) by (eapply Permutation_NoDup; [symmetry; exact Ho|apply cells_NoDup]).
    set (I := fun (done : list (Z * Z)) (P : Z -> row) => forall x y, in_raster w h x y ->
        (~ In (x, y) done -> P (y * w + x) = row0) /\
        (In (x, y) done ->
        (elev x y = nd -> P (y * w + x) = rset row0 0 NO_DATA_GEN) /\
        (elev x y <> nd -> on_edge w h x y -> P (y * w + x) = row0) /\
        (elev x y <> nd -> ~ on_edge w h x y -> R x y (P (y * w + x))))).
    match goal with |- exists P, forM _ ?body _ = _ /\ _ =>
      destruct (forM_inv I body order) with (s := fun _ : Z => row0) as [P [E H]] end.
    - intros done [x y] rest P Eo HI.
      assert (Hxy : in_raster w h x y) by (apply (Hin (x, y)); rewrite Eo; apply in_app_iff; right; left; auto).
      assert (Hnd : ~ In (x, y) done).
      { rewrite Eo in HN. apply NoDup_remove_2 in HN. intros C. apply HN, in_app_iff. auto. }
      destruct (HI x y Hxy) as [H0 _]. specialize (H0 Hnd). rewrite H0, gat_ok by auto. cbn [bind].
      assert (G : forall v, (elev x y = nd -> v = rset row0 0 NO_DATA_GEN) ->
        (elev x y <> nd -> on_edge w h x y -> v = row0) -> (elev x y <> nd -> ~ on_edge w h x y -> R x y v) ->
        I (done ++ [(x, y)]) (aset P (y * w + x) v)).
      { intros v H1 H2 H3 x' y' Hx'. unfold aset, kupd.
        destruct (Z.eqb_spec (y' * w + x') (y * w + x)) as [En|En].
        - assert (EE : (x', y') = (x, y)) by (apply (at_inj w h); auto). inversion EE; subst. split; [|auto].
          intros C. exfalso. apply C, in_app_iff. right; left; auto.
        - destruct (HI x' y' Hx') as [J1 J2]. rewrite in_app_iff. split; [intros C; apply J1; auto|].
          intros [C|[C|[]]]; [auto|]. inversion C; subst. congruence. }
      destruct (eqq (elev x y) nd) eqn:En.
      + apply eqq_iff in En. eexists. split; [reflexivity|]. apply G; congruence.
      + apply eqq_false in En. destruct (isEdgeCell w h x y) eqn:HE.
        * apply on_edge_iff in HE; [|auto]. exists P. split; [reflexivity|].
          intros x' y' Hx'. rewrite in_app_iff. destruct (HI x' y' Hx') as [J1 J2]. split; [intros C; apply J1; auto|].
          intros [C|[C|[]]]; [auto|]. inversion C; subst. split; [congruence|]. split; [auto|]. intros _ C'. contradiction.
        * assert (Hi : ~ on_edge w h x y) by (rewrite on_edge_iff by auto; congruence).
          destruct (Hc x y Hxy En Hi) as [r [Er Hr]]. rewrite Er. cbn [bind]. eexists. split; [reflexivity|].
          apply G; [congruence|contradiction|auto].
    - intros x y Hx. split; [reflexivity|intros []].
    - exists P. split; [exact E|]. intros x y Hx. apply (H x y Hx).
      eapply Permutation_in; [symmetry; exact Ho|]. apply cells_In. exact Hx.
  Qed.

  Lemma keeps_row0 : keeps row0.
  Proof. split; [reflexivity|]. intros n _. discriminate. Qed.
  Lemma marked_row0 : marked_nodata (rset row0 0 NO_DATA_GEN).
  Proof. split; [reflexivity|]. intros n Hn. rewrite rset_other by lia. discriminate. Qed.

  Lemma good_metric_FM (cellf : Z -> Z -> row -> res row) (gradient : Z -> Z -> Prop) order : Permutation order (cells w h) ->
    (forall x y, in_raster w h x y -> elev x y <> nd -> ~ on_edge w h x y -> exists r, cellf x y row0 = Ok r /\
       ((gradient x y -> distributes elev nd w h r x y) /\ (~ gradient x y -> keeps r))) ->
    exists P, FM elev nd w h cellf order = Ok P /\ good_metric elev nd w h gradient P.
  Proof.
    intros Ho Hc. destruct (FM_ok cellf _ order Ho Hc) as [P [E H]]. exists P. split; [exact E|].
    intros x y Hx. destruct (H x y Hx) as [H1 [H2 H3]]. cbn zeta. split; [|split].
    - intros C. rewrite (H1 C). apply marked_row0.
    - intros C C'. rewrite (H2 C C'). apply keeps_row0.
    - exact H3.
  Qed.

  (** *** rows with one receiver *)
  Definition one_row (n : nat) : row := rset (rset row0 0 HAS_FLOW_GEN) n 1%Qc.
  Lemma one_row_self n : one_row n n = 1%Qc.
  Proof. apply rset_same. Qed.
  Lemma one_row_other n k : (1 <= k)%nat -> k <> n -> one_row n k = Q2Qc (-1).
  Proof. intros Hk H. unfold one_row. rewrite rset_other by auto. rewrite rset_other by lia. reflexivity. Qed.
  Lemma one_row_0 n : (1 <= n)%nat -> one_row n 0%nat = 0%Qc.
  Proof. intros H. unfold one_row. rewrite rset_other by lia. apply rset_same. Qed.
  Lemma one_row_pos n k : (1 <= k)%nat -> (0 < one_row n k)%Qc -> k = n.
  Proof.
    intros Hk H. destruct (Nat.eq_dec k n); [auto|]. rewrite one_row_other in H by auto.
    exfalso. exact (Qclt_not_le _ _ H qc_neg1).
  Qed.
  Lemma one_row_sum n : (1 <= n <= 8)%nat ->
    qsum (map (fun k => if Qclt_le_dec 0 (one_row n k) then one_row n k else 0%Qc) (seq 1 8)) = 1%Qc.
  Proof.
    intros Hn. do 9 (destruct n as [|n]; [try lia; reflexivity|]). lia.
  Qed.
  Lemma one_row_distributes n x y : lower_data elev nd w h x y n -> distributes elev nd w h (one_row n) x y.
  Proof.
    intros H. assert (Hn : (1 <= n <= 8)%nat) by apply H. split; [apply one_row_0; lia|]. split.
    - intros k Hk Hp. apply one_row_pos in Hp; [|lia]. subst. exact H.
    - apply one_row_sum. auto.
  Qed.

  (** *** lower neighbours by table *)
  Local Notation nbe t x y n := (elev (x + dx t n)%Z (y + dy t n)%Z).
  Definition low (t : topology) (x y : Z) (n : nat) : Prop :=
    in_raster w h (x + dx t n) (y + dy t n) /\ (nbe t x y n) <> nd /\
    ((nbe t x y n) < elev x y)%Qc.
  Lemma low_lower x y n : (1 <= n <= 8)%nat -> (low D8 x y n <-> lower_data elev nd w h x y n).
  Proof.
    intros Hn. unfold low, lower_data. split.
    - intros [A [B C]]. split; [auto|]. eexists _, _. split; [|split; [exact A|split; [exact B|exact C]]].
      apply toward_iff. rewrite Nat2Z.id. lia.
    - intros [_ [a [b [T [A [B C]]]]]]. apply toward_iff in T. rewrite Nat2Z.id in T. destruct T as [_ [-> ->]]. auto.
  Qed.
  Lemma low_dec t x y n : low t x y n \/ ~ low t x y n.
  Proof.
    unfold low. destruct (inGrid w h (x + dx t n) (y + dy t n)) eqn:G.
    - destruct (Qc_eq_dec ((nbe t x y n)) nd); [right; tauto|].
      destruct (Qclt_le_dec ((nbe t x y n)) (elev x y)) as [H|H].
      + left. rewrite in_raster_iff. auto.
      + right. intros [_ [_ C]]. exact (Qclt_not_le _ _ C H).
    - right. rewrite in_raster_iff. intros [C _]. congruence.
  Qed.
  Lemma interior_nbr_t t x y n : in_raster w h x y -> ~ on_edge w h x y -> in_raster w h (x + dx t n) (y + dy t n).
  Proof.
    intros H He. destruct t; [apply interior_nbr; auto|].
    assert (B : -1 <= dx D4 n <= 1 /\ -1 <= dy D4 n <= 1).
    { do 5 (destruct n as [|n]; [unfold dx, dy; cbn [nth d4x d4y]; lia|]). unfold dx, dy. rewrite !nth_overflow by (cbn; lia). lia. }
    unfold on_edge in He. assert (He' : ~ (x = 0 \/ y = 0 \/ x = w - 1 \/ y = h - 1)) by tauto. unfold in_raster in *. lia.
  Qed.
  Lemma has_lower_iff x y : has_lower elev nd w h x y <-> exists n, In n (dirs D8) /\ low D8 x y n.
  Proof.
    unfold has_lower. split.
    - intros [n H]. exists n. assert (Hn : (1 <= n <= 8)%nat) by apply H. split; [apply dirs_In; cbn; lia|]. apply low_lower; auto.
    - intros [n [Hn H]]. apply dirs_In in Hn. cbn [nmax] in Hn. exists n. apply low_lower; auto.
  Qed.

  (** *** O'Callaghan *)
  Lemma oc_scan t maxe x y : in_raster w h x y -> elev x y <> nd -> ~ on_edge w h x y -> (elev x y <= maxe)%Qc ->
    exists b, forM (dirs t) (oc_step elev nd w h t x y (elev x y)) (0%nat, maxe) = Ok b /\
      ((fst b = 0%nat /\ forall n, In n (dirs t) -> ~ low t x y n) \/
       (In (fst b) (dirs t) /\ low t x y (fst b) /\
        (forall n, In n (dirs t) -> low t x y n ->
          let en := (nbe t x y n) in
          (snd b <= en)%Qc /\ (en = snd b -> (fst b <= n)%nat)) /\ snd b = (nbe t x y (fst b)))).
  Proof.
    intros Hin Hd Hi Hm.
    set (I := fun (done : list nat) (b : nat * Qc) =>
      (b = (0%nat, maxe) /\ forall n, In n done -> ~ low t x y n) \/
       (In (fst b) done /\ low t x y (fst b) /\
        (forall n, In n done -> low t x y n ->
          let en := (nbe t x y n) in
          (snd b <= en)%Qc /\ (en = snd b -> (fst b <= n)%nat)) /\ snd b = (nbe t x y (fst b)))).
    destruct (forM_inv I (oc_step elev nd w h t x y (elev x y)) (dirs t)) with (s := (0%nat, maxe)) as [b [E H]].
    - intros done n rest b Eo HI. unfold oc_step. pose proof (interior_nbr_t t x y n Hin Hi) as Hnb.
      rewrite gat_ok by auto. cbn [bind]. set (en := (nbe t x y n)) in *.
      assert (Hskip : ~ low t x y n -> I (done ++ [n]) b).
      { intros Hl. destruct HI as [[-> H]|[H1 [H2 [H3 H4]]]].
        - left. split; [auto|]. intros m. rewrite in_app_iff. intros [C|[<-|[]]]; auto.
        - right. rewrite in_app_iff. split; [auto|]. split; [auto|]. split; [|auto].
          intros m Hmm Hlm. apply in_app_iff in Hmm. destruct Hmm as [C|[<-|[]]]; [exact (H3 m C Hlm)|contradiction]. }
      destruct (eqq en nd) eqn:E1.
      { apply eqq_iff in E1. exists b. split; [reflexivity|]. apply Hskip. intros [_ [C _]]. apply C. exact E1. }
      apply eqq_false in E1. destruct (ltq en (elev x y)) eqn:E2; cbn [negb].
      2: { apply ltq_false in E2. exists b. split; [reflexivity|]. apply Hskip. intros [_ [_ C]]. exact (Qclt_not_le _ _ C E2). }
      apply ltq_iff in E2. assert (Hlow : low t x y n) by (split; [auto|split; auto]).
      assert (Hlt : forall m, In m done -> (m < n)%nat).
      { intros m Hmd. unfold dirs in Eo. assert (HS : forall a k l1 l2 v, seq a k = l1 ++ v :: l2 -> forall u, In u l1 -> (u < v)%nat).
        { clear. intros a k. revert a. induction k; intros a l1 l2 v Es u Hu; cbn [seq] in Es; [destruct l1; discriminate|].
          destruct l1 as [|c l1]; [destruct Hu|]. inversion Es; subst. destruct Hu as [<-|Hu]; [|eauto].
          assert (In v (seq (S c) k)) by (rewrite H1; apply in_app_iff; right; left; auto). apply in_seq in H. lia. }
        eapply HS; eauto. }
      destruct (ltq en (snd b)) eqn:E3.
      + apply ltq_iff in E3. exists (n, en). split; [reflexivity|]. right. cbn [fst snd]. rewrite in_app_iff. split; [right; left; auto|].
        split; [auto|]. split; [|reflexivity]. intros m Hmm Hlm. cbn zeta. apply in_app_iff in Hmm. destruct Hmm as [C|[<-|[]]].
        * destruct HI as [[-> H]|[H1 [H2 [H3 H4]]]]; [exfalso; exact (H m C Hlm)|].
          destruct (H3 m C Hlm) as [H5 _]. assert (en < (nbe t x y m))%Qc by (eapply Qclt_le_trans; eauto).
          split; [apply Qclt_le_weak; auto|]. intros C'. rewrite C' in H. exfalso. exact (qc_lt_irr _ H).
        * split; [apply Qcle_refl|auto].
      + apply ltq_false in E3. exists b. split; [reflexivity|]. right. rewrite in_app_iff.
        destruct HI as [[-> H]|[H1 [H2 [H3 H4]]]].
        { cbn [snd] in E3. exfalso. apply (Qclt_not_le _ _ E2). eapply Qcle_trans; eauto. }
        split; [auto|]. split; [auto|]. split; [|auto]. intros m Hmm Hlm. cbn zeta. apply in_app_iff in Hmm. destruct Hmm as [C|[<-|[]]]; [apply H3; auto|].
        split; [exact E3|]. intros _. specialize (Hlt _ H1). lia.
    - left. split; [auto|]. intros n [].
    - exists b. split; [exact E|]. destruct H as [[-> H]|H]; [left|right]; auto.
  Qed.

  Lemma oc_cell_ok t maxe x y : in_raster w h x y -> elev x y <> nd -> ~ on_edge w h x y -> (elev x y <= maxe)%Qc ->
    exists r, oc_cell elev nd w h t maxe x y row0 = Ok r /\
      ((r = row0 /\ forall n, In n (dirs t) -> ~ low t x y n) \/
       exists n, In n (dirs t) /\ low t x y n /\ r = one_row n /\
         forall m, In m (dirs t) -> low t x y m ->
           ((nbe t x y n) <= (nbe t x y m))%Qc /\
           ((nbe t x y m) = (nbe t x y n) -> (n <= m)%nat)).
  Proof.
    intros Hin Hd Hi Hm. unfold oc_cell. rewrite gat_ok by auto. cbn [bind].
    destruct (oc_scan t maxe x y Hin Hd Hi Hm) as [b [E H]]. rewrite E. cbn [bind].
    destruct H as [[H1 H2]|[H1 [H2 [H3 H4]]]].
    - rewrite H1. exists row0. split; [reflexivity|]. left. auto.
    - pose proof H1 as Hn. apply dirs_In in Hn. destruct (Nat.eqb_spec (fst b) 0); [lia|].
      eexists. split; [reflexivity|]. right. exists (fst b). split; [auto|]. split; [auto|]. split; [reflexivity|].
      rewrite <- H4. intros m Hmm Hl. apply (H3 m Hmm Hl).
  Qed.

  (** *** Fairfield & Leymarie *)
  Definition unit_rnd (rnd : Z -> Z -> nat -> Qc) : Prop := forall x y n, (0 <= rnd x y n)%Qc /\ (rnd x y n < 1)%Qc.

  Lemma qc_pos_mul a b : (0 < a)%Qc -> (0 < b)%Qc -> (0 < a * b)%Qc.
  Proof. intros Ha Hb. replace 0%Qc with (0 * b)%Qc by ring. apply Qcmult_lt_compat_r; auto. Qed.
  Lemma qc_pos_inv a : (0 < a)%Qc -> (0 < / a)%Qc.
  Proof.
    intros Ha. destruct (Qclt_le_dec 0 (/ a)) as [H|H]; [exact H|]. exfalso.
    assert (Hn : a <> 0%Qc) by (intros ->; exact (qc_lt_irr _ Ha)).
    assert (E : (a * / a)%Qc = 1%Qc) by (apply Qcmult_inv_r; auto).
    assert (L : (/ a * a <= 0 * a)%Qc) by (apply Qcmult_le_compat_r; [exact H|apply Qclt_le_weak; exact Ha]).
    rewrite Qcmult_comm, E in L. replace (0 * a)%Qc with 0%Qc in L by ring. exact (Qclt_not_le _ _ qc_lt01 L).
  Qed.
  Lemma qc_sub_pos a b : (a < b)%Qc -> (0 < b - a)%Qc.
  Proof. intros H. apply Qclt_minus_iff in H. exact H. Qed.
  Lemma qc_pos_sub a b : (0 < b - a)%Qc -> (a < b)%Qc.
  Proof. intros H. apply Qclt_minus_iff. exact H. Qed.

  Lemma ff_scan t rnd x y : in_raster w h x y -> ~ on_edge w h x y ->
    exists b, forM (dirs t) (ff_step elev nd w h t rnd x y (elev x y)) (0%nat, 0%Qc) = Ok b /\
      ((fst b = 0%nat /\ forall n, In n (dirs t) -> low t x y n ->
          ~ (0 < (elev x y - (nbe t x y n)) * rho_factor t (rnd x y n) n)%Qc) \/
       (In (fst b) (dirs t) /\ low t x y (fst b))).
  Proof.
    intros Hin Hi.
    set (I := fun (done : list nat) (b : nat * Qc) =>
      (b = (0%nat, 0%Qc) /\ forall n, In n done -> low t x y n ->
          ~ (0 < (elev x y - (nbe t x y n)) * rho_factor t (rnd x y n) n)%Qc) \/
       (In (fst b) done /\ low t x y (fst b))).
    destruct (forM_inv I (ff_step elev nd w h t rnd x y (elev x y)) (dirs t)) with (s := (0%nat, 0%Qc)) as [b [E H]].
    - intros done n rest b Eo HI. unfold ff_step. pose proof (interior_nbr_t t x y n Hin Hi) as Hnb.
      pose proof Hnb as Hg. rewrite in_raster_iff in Hg. rewrite Hg. cbn [negb].
      rewrite gat_ok by auto. cbn [bind]. set (en := (nbe t x y n)) in *.
      assert (Hskip : (low t x y n -> b = (0%nat, 0%Qc) -> ~ (0 < (elev x y - en) * rho_factor t (rnd x y n) n)%Qc) -> I (done ++ [n]) b).
      { intros Hl. destruct HI as [[-> H]|[H1 H2]].
        - left. split; [auto|]. intros m. rewrite in_app_iff. intros [C|[<-|[]]]; auto.
        - right. rewrite in_app_iff. auto. }
      destruct (eqq en nd) eqn:E1.
      { apply eqq_iff in E1. exists b. split; [reflexivity|]. apply Hskip. intros [_ [C _]]. exfalso. apply C. exact E1. }
      apply eqq_false in E1. destruct (ltq en (elev x y)) eqn:E2; cbn [negb].
      2: { apply ltq_false in E2. exists b. split; [reflexivity|]. apply Hskip. intros [_ [_ C]]. exfalso. exact (Qclt_not_le _ _ C E2). }
      apply ltq_iff in E2. assert (Hlow : low t x y n) by (split; [auto|split; auto]).
      cbn zeta. destruct (ltq (snd b) ((elev x y - en) * rho_factor t (rnd x y n) n)) eqn:E3.
      + eexists. split; [reflexivity|]. right. cbn [fst]. rewrite in_app_iff. split; [right; left; auto|auto].
      + apply ltq_false in E3. exists b. split; [reflexivity|]. apply Hskip. intros _ ->. cbn [snd] in E3. intros C. exact (Qclt_not_le _ _ C E3).
    - left. split; [auto|]. intros n [].
    - exists b. split; [exact E|]. destruct H as [[-> H]|H]; [left|right]; auto.
  Qed.

  Lemma ff_cell_ok t rnd x y : in_raster w h x y -> ~ on_edge w h x y ->
    exists r, ff_cell elev nd w h t rnd x y row0 = Ok r /\
      ((r = row0 /\ forall n, In n (dirs t) -> low t x y n ->
          ~ (0 < (elev x y - (nbe t x y n)) * rho_factor t (rnd x y n) n)%Qc) \/
       exists n, In n (dirs t) /\ low t x y n /\ r = one_row n).
  Proof.
    intros Hin Hi. unfold ff_cell. rewrite gat_ok by auto. cbn [bind].
    destruct (ff_scan t rnd x y Hin Hi) as [b [E H]]. rewrite E. cbn [bind].
    destruct H as [[H1 H2]|[H1 H2]].
    - rewrite H1. exists row0. split; [reflexivity|]. left. auto.
    - pose proof H1 as Hn. apply dirs_In in Hn. destruct (Nat.eqb_spec (fst b) 0); [lia|].
      eexists. split; [reflexivity|]. right. exists (fst b). auto.
  Qed.

  Lemma rho8_pos u n : (0 <= u)%Qc -> (u < 1)%Qc -> (0 < rho_factor D8 u n)%Qc.
  Proof.
    intros H1 H2. unfold rho_factor. destruct (nth n n8_diag false); [|apply qc_lt01].
    apply qc_pos_inv, qc_sub_pos. eapply Qclt_trans; [exact H2|]. reflexivity.
  Qed.
End FM.
