From Coq Require Import ZArith List Lia Bool Permutation QArith Qcanon Relations.
From Verif Require Import Base Res Kahn RasterSpec RasterFacts FlowModel FlowSpec FlowProofs FAModel FASpec FAProofs FMModel FMSpec FMProofs FMProofs2 FMProofs3.
Open Scope Z_scope.

Section Good.
  Variables (elev : grid Qc) (nd : Qc) (w h : Z) (gradient : Z -> Z -> Prop) (P : Z -> row).
  Hypothesis G : good_metric elev nd w h gradient P.

  Lemma gm_data c : has_data w h P NO_DATA_GEN c <-> in_raster w h (fst c) (snd c) /\ elev (fst c) (snd c) <> nd.
  Proof.
    destruct c as [x y]. unfold has_data, at_. cbn [fst snd]. split; intros [H1 H2]; (split; [auto|]).
    - intros C. apply H2. destruct (G x y H1) as [[A _] _]; auto.
    - intros C. destruct (G x y H1) as [_ [G1 G2]]. destruct (isEdgeCell w h x y) eqn:HE.
      + apply on_edge_iff in HE; [|auto]. destruct (G1 H2 HE) as [K _]. rewrite K in C. discriminate.
      + assert (Hi : ~ on_edge w h x y) by (rewrite on_edge_iff by auto; congruence).
        destruct (G2 H2 Hi) as [G3 G4].
        assert (N1 : ~ gradient x y) by (intros g; destruct (G3 g) as [K _]; rewrite K in C; discriminate).
        destruct (G4 N1) as [K _]. rewrite K in C. discriminate.
  Qed.

  Lemma gm_quiet : quiet_border w h P NO_DATA_GEN.
  Proof.
    intros [x y] n He Hd Hn. assert (Hin : in_raster w h x y) by apply He.
    assert (H : elev x y <> nd) by (apply (gm_data (x, y)); exact (conj Hin Hd)).
    destruct (G x y Hin) as [_ [G1 _]]. destruct (G1 H He) as [_ K]. apply K. auto.
  Qed.

  Lemma gm_down c d : feeds w h P NO_DATA_GEN c d -> (elev (fst d) (snd d) < elev (fst c) (snd c))%Qc.
  Proof.
    intros [n [Hc [Hd [Hn [Tw Hp]]]]]. apply gm_data in Hc. destruct c as [x y]. cbn [fst snd] in *. destruct Hc as [Hin Hne].
    destruct (Qclt_le_dec (elev (fst d) (snd d)) (elev x y)) as [L|L]; [exact L|]. exfalso.
    destruct (G x y Hin) as [_ [G1 G2]]. destruct (isEdgeCell w h x y) eqn:HE.
    - apply on_edge_iff in HE; [|auto]. destruct (G1 Hne HE) as [_ K]. exact (Qclt_not_le _ _ Hp (K n Hn)).
    - assert (Hi : ~ on_edge w h x y) by (rewrite on_edge_iff by auto; congruence).
      destruct (G2 Hne Hi) as [G3 G4].
      assert (N1 : ~ gradient x y).
      { intros g. destruct (G3 g) as [_ [K _]]. destruct (K n Hn Hp) as [_ [a [b [Tw' [_ [_ Lt]]]]]].
        apply toward_iff in Tw. apply toward_iff in Tw'. destruct Tw as [_ [A1 A2]], Tw' as [_ [B1 B2]]. subst a b.
        rewrite <- A1, <- A2 in Lt. exact (Qclt_not_le _ _ Lt L). }
      destruct (G4 N1) as [_ K]. exact (Qclt_not_le _ _ Hp (K n Hn)).
  Qed.

  Lemma gm_acyclic c : ~ on_loop w h P NO_DATA_GEN c.
  Proof.
    assert (M : forall a b, clos_trans _ (feeds w h P NO_DATA_GEN) a b -> (elev (fst b) (snd b) < elev (fst a) (snd a))%Qc).
    { intros a b H. induction H; [apply gm_down; auto|]. eapply Qclt_trans; eauto. }
    intros H. exact (qc_lt_irr _ (M _ _ H)).
  Qed.

  Hypothesis Gdec : forall x y, in_raster w h x y -> ~ on_edge w h x y -> gradient x y \/ ~ gradient x y.
  Lemma gm_lossless : lossless w h P NO_DATA_GEN.
  Proof.
    intros [x y] Hc. pose proof Hc as Hd. apply gm_data in Hd. cbn [fst snd] in Hd. destruct Hd as [Hin Hne].
    destruct (G x y Hin) as [_ [G1 G2]]. destruct (isEdgeCell w h x y) eqn:HE.
    - left. apply on_edge_iff in HE; [|auto]. destruct (G1 Hne HE) as [_ K]. exact K.
    - assert (Hi : ~ on_edge w h x y) by (rewrite on_edge_iff by auto; congruence).
      destruct (G2 Hne Hi) as [G3 G4]. destruct (Gdec x y Hin Hi) as [g|g].
      + right. destruct (G3 g) as [_ [K S]]. split; [|exact S].
        intros n Hn Hp. destruct (K n Hn Hp) as [_ [a [b [Tw [Hab [Hnd _]]]]]].
        exists (a, b). split; [exact Hc|]. split; [apply gm_data; cbn; auto|]. split; [auto|]. split; [exact Tw|exact Hp].
      + left. destruct (G4 g) as [_ K]. exact K.
  Qed.
End Good.

Section Dec.
  Variables (elev : grid Qc) (nd : Qc) (w h : Z).
  Lemma has_lower_dec x y : has_lower elev nd w h x y \/ ~ has_lower elev nd w h x y.
  Proof.
    destruct (existsb (lowb elev nd w h x y) (dirs D8)) eqn:E.
    - left. apply has_lower_iff. apply existsb_exists in E. destruct E as [n [Hn Hl]]. exists n. split; [auto|]. apply lowb_iff; auto.
    - right. intros C. apply has_lower_iff in C. destruct C as [n [Hn Hl]]. apply lowb_iff in Hl.
      rewrite <- not_true_iff_false in E. apply E, existsb_exists. eauto.
  Qed.
  Lemma facet_dec T x y : trig_ok T -> in_raster w h x y -> ~ on_edge w h x y -> has_lower_facet elev nd w h x y \/ ~ has_lower_facet elev nd w h x y.
  Proof.
    intros HT Hin Hi. rewrite (hlf_iff elev nd w h T HT x y Hin Hi).
    destruct (existsb (fun k => full elev nd x y k && posq (snd (rs elev T x y k))) (dirs D8)) eqn:E.
    - left. apply existsb_exists in E. destruct E as [k [Hk E]]. apply andb_true_iff in E. exists k. rewrite posq_iff in E. tauto.
    - right. intros [k [Hk [F Q]]]. rewrite <- not_true_iff_false in E. apply E, existsb_exists. exists k. rewrite F, (proj2 (posq_iff _) Q). auto.
  Qed.
End Dec.

(** the four families *)
Section Fams.
  Variables (elev : grid Qc) (nd : Qc) (w h : Z).
  Lemma oc8_good maxe order : Permutation order (cells w h) -> (forall x y, in_raster w h x y -> (elev x y <= maxe)%Qc) ->
    exists P, FM_OCallaghan elev nd w h D8 maxe order = Ok P /\ good_metric elev nd w h (has_lower elev nd w h) P.
  Proof.
    intros Ho Hm. apply good_metric_FM; [exact Ho|]. intros x y Hin Hd Hi.
    destruct (oc_cell_ok elev nd w h D8 maxe x y Hin Hd Hi (Hm x y Hin)) as [r [E H]]. exists r. split; [exact E|].
    destruct H as [[-> H]|[n [Hn [Hl [-> _]]]]].
    - split; [|intros _; apply keeps_row0]. intros C. apply has_lower_iff in C. destruct C as [n [Hn Hl]]. exfalso. exact (H n Hn Hl).
    - assert (Hn' : (1 <= n <= 8)%nat) by (apply dirs_In in Hn; exact Hn). split.
      + intros _. apply one_row_distributes. apply low_lower; auto.
      + intros C. exfalso. apply C. apply has_lower_iff. eauto.
  Qed.
  Lemma rho8_good rnd order : Permutation order (cells w h) -> unit_rnd rnd ->
    exists P, FM_FairfieldLeymarie elev nd w h D8 rnd order = Ok P /\ good_metric elev nd w h (has_lower elev nd w h) P.
  Proof.
    intros Ho Hr. apply good_metric_FM; [exact Ho|]. intros x y Hin Hd Hi.
    destruct (ff_cell_ok elev nd w h D8 rnd x y Hin Hi) as [r [E H]]. exists r. split; [exact E|].
    destruct H as [[-> H]|[n [Hn [Hl ->]]]].
    - split; [|intros _; apply keeps_row0]. intros C. apply has_lower_iff in C. destruct C as [n [Hn Hl]]. exfalso.
      apply (H n Hn Hl). apply qc_pos_mul; [apply qc_sub_pos; apply Hl|]. apply rho8_pos; apply Hr.
    - assert (Hn' : (1 <= n <= 8)%nat) by (apply dirs_In in Hn; exact Hn). split.
      + intros _. apply one_row_distributes. apply low_lower; auto.
      + intros C. exfalso. apply C. apply has_lower_iff. eauto.
  Qed.
  Lemma mfd_good wt order : Permutation order (cells w h) -> (forall rise n, (1 <= n <= 8)%nat -> (0 < rise)%Qc -> (0 < wt rise n)%Qc) ->
    exists P, FM_MFD elev nd w h wt order = Ok P /\ good_metric elev nd w h (has_lower elev nd w h) P.
  Proof.
    intros Ho Hr. apply good_metric_FM; [exact Ho|]. intros x y Hin Hd Hi.
    destruct (mfd_cell_ok elev nd w h wt Hr x y Hin Hi) as [r [E [H _]]]. eauto.
  Qed.
  Lemma tb_good T order : Permutation order (cells w h) -> trig_ok T ->
    exists P, FM_Tarboton elev nd w h T order = Ok P /\ good_metric elev nd w h (has_lower_facet elev nd w h) P.
  Proof.
    intros Ho HT. apply good_metric_FM; [exact Ho|]. intros x y Hin Hd Hi.
    destruct (tb_cell_ok elev nd w h T HT x y Hin Hi) as [r [E [H _]]]. eauto.
  Qed.

  Lemma FM_order_indep cellf order order' P P' : Permutation order (cells w h) -> Permutation order' (cells w h) ->
    (forall x y, in_raster w h x y -> elev x y <> nd -> ~ on_edge w h x y -> exists r, cellf x y row0 = Ok r) ->
    FM elev nd w h cellf order = Ok P -> FM elev nd w h cellf order' = Ok P' ->
    forall x y, in_raster w h x y -> P (y * w + x) = P' (y * w + x).
  Proof.
    intros Ho Ho' Hc E E' x y Hin.
    assert (Hc' : forall x y, in_raster w h x y -> elev x y <> nd -> ~ on_edge w h x y -> exists r, cellf x y row0 = Ok r /\ cellf x y row0 = Ok r).
    { intros a b A B C. destruct (Hc a b A B C) as [r R]. eauto. }
    destruct (FM_ok elev nd w h cellf (fun x y r => cellf x y row0 = Ok r) order Ho Hc') as [Q [EQ HQ]].
    destruct (FM_ok elev nd w h cellf (fun x y r => cellf x y row0 = Ok r) order' Ho' Hc') as [Q' [EQ' HQ']].
    assert (Q = P) by congruence. assert (Q' = P') by congruence. subst.
    destruct (HQ x y Hin) as [A1 [A2 A3]], (HQ' x y Hin) as [B1 [B2 B3]].
    destruct (Qc_eq_dec (elev x y) nd) as [C|C]; [rewrite A1, B1; auto|].
    destruct (isEdgeCell w h x y) eqn:HE.
    - apply on_edge_iff in HE; [|auto]. rewrite A2, B2; auto.
    - assert (Hi : ~ on_edge w h x y) by (rewrite on_edge_iff by auto; congruence).
      specialize (A3 C Hi). specialize (B3 C Hi). congruence.
  Qed.
End Fams.

(** weights of the MFD family *)
Lemma dr_pos n : (1 <= n <= 8)%nat -> (0 < dr n)%Qc.
Proof. intros H. do 9 (destruct n as [|n]; [try lia; reflexivity|]). lia. Qed.
Lemma LH_pos n : (1 <= n <= 8)%nat -> (0 < LH n)%Qc.
Proof. intros H. do 9 (destruct n as [|n]; [try lia; reflexivity|]). lia. Qed.
Lemma holmgren_pos pw : (forall q, (0 < q)%Qc -> (0 < pw q)%Qc) -> forall rise n, (1 <= n <= 8)%nat -> (0 < rise)%Qc -> (0 < holmgren_wt pw rise n)%Qc.
Proof. intros Hp rise n Hn Hr. apply Hp. apply qc_pos_mul; [|apply LH_pos; auto]. apply qc_pos_mul; [auto|apply qc_pos_inv, dr_pos; auto]. Qed.
Lemma freeman_pos pw : (forall q, (0 < q)%Qc -> (0 < pw q)%Qc) -> forall rise n, (1 <= n <= 8)%nat -> (0 < rise)%Qc -> (0 < freeman_wt pw rise n)%Qc.
Proof. intros Hp rise n Hn Hr. apply Hp. apply qc_pos_mul; [auto|apply qc_pos_inv, dr_pos; auto]. Qed.
