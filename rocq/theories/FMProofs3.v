From Coq Require Import ZArith List Lia Bool Permutation QArith Qcanon.
From Verif Require Import Base Res Kahn RasterSpec RasterFacts FlowModel FlowSpec FlowProofs FAModel FASpec FAProofs FMModel FMSpec FMProofs FMProofs2.
Open Scope Z_scope.

Definition d1 (n : nat) : nat := nth n [0; 1; 3; 3; 5; 5; 7; 7; 1]%nat 0%nat.
Definition d2 (n : nat) : nat := nth n [0; 2; 2; 4; 4; 6; 6; 8; 8]%nat 0%nat.
Lemma d1_table n : In n (dirs D8) -> dx_e1 n = dx D8 (d1 n) /\ dy_e1 n = dy D8 (d1 n) /\ (1 <= d1 n <= 8)%nat /\
  dx_e2 n = dx D8 (d2 n) /\ dy_e2 n = dy D8 (d2 n) /\ (1 <= d2 n <= 8)%nat /\ d1 n <> d2 n /\ facet (d1 n) (d2 n) /\
  (if af_pos n then n = d2 n /\ nwrap (n + 1) = d1 n else n = d1 n /\ nwrap (n + 1) = d2 n).
Proof.
  intros H. apply dirs_In in H. cbn [nmax] in H.
  do 9 (destruct n as [|n]; [try lia; unfold d1, d2, facet; cbn; repeat split; try lia; tauto|]). lia.
Qed.
Lemma facet_n n m : facet n m -> exists k, In k (dirs D8) /\ n = d1 k /\ m = d2 k.
Proof.
  unfold facet. cbn [In]. intros H.
  decompose [or] H; try contradiction;
  match goal with E : (_, _) = (n, m) |- _ => inversion E; subst end;
  [exists 1%nat|exists 2%nat|exists 3%nat|exists 4%nat|exists 5%nat|exists 6%nat|exists 7%nat|exists 8%nat];
  (split; [apply dirs_In; cbn; lia|split; reflexivity]).
Qed.

(** row with two receivers *)
Definition two_row (n m : nat) (q : Qc) : row := rset (rset (rset row0 0 HAS_FLOW_GEN) n q) m (1 - q)%Qc.
Lemma two_row_sym n m q k : n <> m -> two_row n m q k = rset (rset (rset row0 0 HAS_FLOW_GEN) m (1 - q)%Qc) n q k.
Proof. intros H. unfold two_row, rset. destruct (Nat.eqb_spec k m), (Nat.eqb_spec k n); auto; subst; contradiction. Qed.
Lemma two_row_sum n m q : (1 <= n <= 8)%nat -> (1 <= m <= 8)%nat -> n <> m -> (0 < q)%Qc -> (q < 1)%Qc ->
  qsum (map (fun k => if Qclt_le_dec 0 (two_row n m q k) then two_row n m q k else 0%Qc) (seq 1 8)) = 1%Qc.
Proof.
  intros Hn Hm Hnm Hq0 Hq1.
  assert (G : forall k, (1 <= k)%nat -> (if Qclt_le_dec 0 (two_row n m q k) then two_row n m q k else 0%Qc) =
     if Nat.eqb k m then (1 - q)%Qc else if Nat.eqb k n then q else 0%Qc).
  { intros k Hk. replace (two_row n m q k) with (if Nat.eqb k m then (1 - q)%Qc else if Nat.eqb k n then q else Q2Qc (-1)).
    2: { unfold two_row, rset. destruct (Nat.eqb k m); [reflexivity|]. destruct (Nat.eqb k n); [reflexivity|].
         destruct (Nat.eqb_spec k 0); [lia|reflexivity]. }
    destruct (Nat.eqb k m).
    - destruct (Qclt_le_dec 0 (1 - q)) as [C|C]; [reflexivity|]. exfalso. apply (Qclt_not_le _ _ (qc_sub_pos _ _ Hq1) C).
    - destruct (Nat.eqb k n); [|reflexivity].
      destruct (Qclt_le_dec 0 q) as [C|C]; [reflexivity|]. exfalso. exact (Qclt_not_le _ _ Hq0 C). }
  rewrite (map_ext_in _ (fun k => if Nat.eqb k m then (1 - q)%Qc else if Nat.eqb k n then q else 0%Qc)).
  2: { intros k Hk. apply in_seq in Hk. apply G. lia. }
  clear G. do 9 (destruct n as [|n]; [try lia; do 9 (destruct m as [|m]; [try lia; try congruence; cbn [seq map Nat.eqb]; rewrite !qsum_cons; change (qsum []) with 0%Qc; ring|]); lia|]). lia.
Qed.

Section TB.
  Variables (elev : grid Qc) (nd : Qc) (w h : Z) (T : trig).
  Hypothesis HT : trig_ok T.
  Local Notation nbe n x y := (elev (x + dx D8 n)%Z (y + dy D8 n)%Z).

  Definition dnb (x y : Z) (n : nat) : Prop := nbe n x y <> nd.
  Definition angle (x y : Z) (k : nat) : Qc := at2 T (nbe (d1 k) x y - nbe (d2 k) x y)%Qc (elev x y - nbe (d1 k) x y)%Qc.
  Definition rs (x y : Z) (k : nat) : Qc * Qc :=
    let s1 := (elev x y - nbe (d1 k) x y)%Qc in
    let s2 := (nbe (d1 k) x y - nbe (d2 k) x y)%Qc in
    if ltq (angle x y k) (eps T) then (0%Qc, s1)
    else if ltq (dang T - eps T)%Qc (angle x y k) then (dang T, ((elev x y - nbe (d2 k) x y) / rt2 T)%Qc)
    else (angle x y k, hyp T s1 s2).
  Definition full (x y : Z) (k : nat) : bool := negb (eqq (nbe (d1 k) x y) nd) && negb (eqq (nbe (d2 k) x y) nd).

  Lemma tb_scan x y : in_raster w h x y -> ~ on_edge w h x y ->
    exists b, forM (dirs D8) (tb_step elev nd w h T x y) (0%nat, 0%Qc, 0%Qc) = Ok b /\
      ((b = (0%nat, 0%Qc, 0%Qc) /\ forall k, In k (dirs D8) -> full x y k = true -> (snd (rs x y k) <= 0)%Qc) \/
       exists k, In k (dirs D8) /\ full x y k = true /\ b = (k, snd (rs x y k), fst (rs x y k)) /\ (0 < snd (rs x y k))%Qc /\
         forall k', In k' (dirs D8) -> full x y k' = true -> (snd (rs x y k') <= snd (rs x y k))%Qc).
  Proof.
    intros Hin Hi.
    set (I := fun (done : list nat) (b : nat * Qc * Qc) =>
      ((b = (0%nat, 0%Qc, 0%Qc) /\ forall k, In k done -> full x y k = true -> (snd (rs x y k) <= 0)%Qc) \/
       exists k, In k done /\ full x y k = true /\ b = (k, snd (rs x y k), fst (rs x y k)) /\ (0 < snd (rs x y k))%Qc /\
         forall k', In k' done -> full x y k' = true -> (snd (rs x y k') <= snd (rs x y k))%Qc)).
    destruct (forM_inv I (tb_step elev nd w h T x y) (dirs D8)) with (s := (0%nat, 0%Qc, 0%Qc)) as [b [E H]].
    - intros done k rest b Eo HI.
      assert (Hk : In k (dirs D8)) by (rewrite Eo; apply in_app_iff; right; left; auto).
      destruct (d1_table k Hk) as [A1 [A2 [A3 [A4 [A5 [A6 _]]]]]].
      unfold tb_step. rewrite A1, A2, A4, A5.
      pose proof (interior_nbr w h x y (d1 k) Hin Hi) as H1. pose proof (interior_nbr w h x y (d2 k) Hin Hi) as H2.
      pose proof H1 as G1. pose proof H2 as G2. rewrite in_raster_iff in G1, G2. rewrite G1, G2. cbn [negb].
      rewrite !gat_ok by auto. cbn [bind].
      assert (Hskip : (full x y k = true -> (snd (rs x y k) <= snd (fst b))%Qc) -> I (done ++ [k]) b).
      { intros Hl. destruct HI as [[-> H]|[k0 [B1 [B2 [B3 [B4 B5]]]]]].
        - left. split; [auto|]. intros m. rewrite in_app_iff. intros [C|[<-|[]]]; auto.
        - right. exists k0. rewrite in_app_iff. split; [auto|]. split; [auto|]. split; [auto|]. split; [auto|].
          intros m. rewrite in_app_iff. intros [C|[<-|[]]]; [auto|]. rewrite B3 in Hl. auto. }
      destruct (eqq (nbe (d1 k) x y) nd) eqn:E1.
      { exists b. split; [reflexivity|]. apply Hskip. unfold full. rewrite E1. discriminate. }
      destruct (eqq (nbe (d2 k) x y) nd) eqn:E2.
      { exists b. split; [reflexivity|]. apply Hskip. unfold full. rewrite E1, E2. discriminate. }
      assert (Hf : full x y k = true) by (unfold full; rewrite E1, E2; reflexivity).
      cbn zeta. fold (angle x y k).
      match goal with |- context [ltq (snd (fst b)) (snd ?t)] => change t with (rs x y k) end.
      destruct (ltq (snd (fst b)) (snd (rs x y k))) eqn:E3.
      + apply ltq_iff in E3. eexists. split; [reflexivity|]. right. exists k. rewrite in_app_iff. split; [right; left; auto|].
        split; [auto|]. split; [reflexivity|].
        destruct HI as [[-> H]|[k0 [B1 [B2 [B3 [B4 B5]]]]]].
        * split; [exact E3|]. intros m. rewrite in_app_iff. intros [C|[<-|[]]] Hm; [|apply Qcle_refl].
          eapply Qcle_trans; [apply H; auto|]. apply Qclt_le_weak. exact E3.
        * rewrite B3 in E3. cbn [fst snd] in E3. split; [eapply Qclt_trans; eauto|].
          intros m. rewrite in_app_iff. intros [C|[<-|[]]] Hm; [|apply Qcle_refl].
          eapply Qcle_trans; [apply B5; auto|]. apply Qclt_le_weak. exact E3.
      + apply ltq_false in E3. exists b. split; [reflexivity|]. apply Hskip. auto.
    - left. split; [auto|]. intros n [].
    - exists b. split; [exact E|exact H].
  Qed.

  Lemma rs_flow x y k : In k (dirs D8) -> facet_flow elev T x y (d1 k) (d2 k) (fst (rs x y k)) (snd (rs x y k)).
  Proof.
    intros Hk. destruct (d1_table k Hk) as [_ [_ [A3 [_ [_ [A6 _]]]]]].
    assert (N : forall n, (1 <= n <= 8)%nat -> nb_elev elev x y n (nbe n x y)).
    { intros n Hn. eexists _, _. split; [|reflexivity]. apply toward_iff. rewrite Nat2Z.id. lia. }
    unfold rs. fold (angle x y k). destruct (ltq (angle x y k) (eps T)) eqn:E1.
    - apply ltq_iff in E1. cbn [fst snd]. eapply ff_along; [apply N; auto|apply N; exact A6|exact E1].
    - apply ltq_false in E1. destruct (ltq (dang T - eps T) (angle x y k)) eqn:E2.
      + apply ltq_iff in E2. cbn [fst snd]. eapply ff_across; [apply (N (d1 k)); auto|apply N; auto|exact E1|exact E2].
      + apply ltq_false in E2. cbn [fst snd]. apply ff_inside; [apply N; auto|apply N; auto|exact E1|exact E2].
  Qed.

  (** the steepness is positive exactly if the facet has a lower corner *)
  Lemma rs_pos x y k : (0 < snd (rs x y k))%Qc <-> (nbe (d1 k) x y < elev x y \/ nbe (d2 k) x y < elev x y)%Qc.
  Proof.
    destruct HT as [[H1 [H2 [H3 [H4 H5]]]] [T1 [T2 [T3 T4]]]]. unfold rs. fold (angle x y k).
    set (e0 := elev x y). set (e1 := nbe (d1 k) x y). set (e2 := nbe (d2 k) x y).
    destruct (ltq (angle x y k) (eps T)) eqn:E1; cbn [snd].
    - apply ltq_iff in E1. split; [intros H; left; apply qc_pos_sub; auto|].
      intros [H|H]; [apply qc_sub_pos; auto|]. destruct (Qclt_le_dec e1 e0) as [C|C]; [apply qc_sub_pos; auto|]. exfalso.
      assert (D : (dang T - eps T < angle x y k)%Qc).
      { apply T2.
        - fold e0 e1. apply Qcle_minus_iff. replace (0 + - (e0 - e1))%Qc with (e1 + - e0)%Qc by ring. apply -> Qcle_minus_iff. exact C.
        - fold e1 e2. apply qc_sub_pos. eapply Qclt_le_trans; eauto. }
      exact (qc_lt_irr _ (Qclt_trans _ _ _ H2 (Qclt_trans _ _ _ D E1))).
    - apply ltq_false in E1. destruct (ltq (dang T - eps T) (angle x y k)) eqn:E2; cbn [snd].
      + apply ltq_iff in E2. assert (Hi : (0 < / rt2 T)%Qc) by (apply qc_pos_inv; auto). unfold Qcdiv. fold e0 e2.
        assert (HP : (0 < (e0 - e2) * / rt2 T <-> e2 < e0)%Qc).
        { split.
          - intros H. destruct (Qclt_le_dec e2 e0) as [C|C]; [auto|]. exfalso. apply (Qclt_not_le _ _ H).
            replace 0%Qc with (0 * / rt2 T)%Qc by ring. apply Qcmult_le_compat_r; [|apply Qclt_le_weak; auto].
            apply Qcle_minus_iff. replace (0 + - (e0 - e2))%Qc with (e2 + - e0)%Qc by ring. apply -> Qcle_minus_iff. exact C.
          - intros H. apply qc_pos_mul; [apply qc_sub_pos|]; auto. }
        rewrite HP. split; [auto|]. intros [H|H]; [|auto].
        assert (Hs : (0 < e1 - e2)%Qc) by (apply (T3 (e0 - e1)%Qc); [apply qc_sub_pos; auto|exact E2]).
        eapply Qclt_trans; [apply qc_pos_sub; exact Hs|exact H].
      + apply ltq_false in E2. destruct (T1 _ _ E1 E2) as [S1 S2]. fold e0 e1 e2 in S1, S2. fold e0 e1 e2.
        split; [|intros _; apply T4; auto]. intros _. left. apply qc_pos_sub. exact S1.
  Qed.

  Lemma dnb_data x y n : in_raster w h x y -> ~ on_edge w h x y -> (1 <= n <= 8)%nat -> (nbe n x y <> nd <-> data_at elev nd w h x y n).
  Proof.
    intros Hin Hi Hn. unfold data_at. split.
    - intros H. eexists _, _. split; [apply toward_iff; rewrite Nat2Z.id; split; [lia|split; reflexivity]|].
      split; [apply interior_nbr; auto|auto].
    - intros [a [b [Tw [_ H]]]]. apply toward_iff in Tw. rewrite Nat2Z.id in Tw. destruct Tw as [_ [-> ->]]. auto.
  Qed.
  Lemma lower_nbe x y n : in_raster w h x y -> ~ on_edge w h x y -> (1 <= n <= 8)%nat ->
    nbe n x y <> nd -> (nbe n x y < elev x y)%Qc -> lower_data elev nd w h x y n.
  Proof. intros Hin Hi Hn H1 H2. apply low_lower; [auto|]. split; [apply interior_nbr; auto|auto]. Qed.
  Lemma lower_nbe_inv x y n : lower_data elev nd w h x y n -> (nbe n x y < elev x y)%Qc.
  Proof. intros H. pose proof (proj1 H) as Hn. apply low_lower in H; [|auto]. apply H. Qed.

  Lemma hlf_iff x y : in_raster w h x y -> ~ on_edge w h x y ->
    (has_lower_facet elev nd w h x y <-> exists k, In k (dirs D8) /\ full x y k = true /\ (0 < snd (rs x y k))%Qc).
  Proof.
    intros Hin Hi. split.
    - intros [n [m [F [D1 [D2 L]]]]]. destruct (facet_n n m F) as [k [Hk [-> ->]]]. exists k. split; [auto|].
      destruct (d1_table k Hk) as [_ [_ [A3 [_ [_ [A6 _]]]]]].
      apply dnb_data in D1; auto. apply dnb_data in D2; auto. split.
      + unfold full. rewrite andb_true_iff, !negb_true_iff, !eqq_false. auto.
      + apply rs_pos. destruct L as [L|L]; apply lower_nbe_inv in L; auto.
    - intros [k [Hk [Hf Hp]]]. destruct (d1_table k Hk) as [_ [_ [A3 [_ [_ [A6 [_ [F _]]]]]]]].
      unfold full in Hf. rewrite andb_true_iff, !negb_true_iff, !eqq_false in Hf. destruct Hf as [F1 F2].
      exists (d1 k), (d2 k). split; [auto|]. split; [apply dnb_data; auto|]. split; [apply dnb_data; auto|].
      apply rs_pos in Hp. destruct Hp as [Hp|Hp]; [left|right]; apply lower_nbe; auto.
  Qed.

  Lemma tb_cell_ok x y : in_raster w h x y -> ~ on_edge w h x y ->
    exists r, tb_cell elev nd w h T x y row0 = Ok r /\
      ((has_lower_facet elev nd w h x y -> distributes elev nd w h r x y) /\ (~ has_lower_facet elev nd w h x y -> keeps r)) /\
      (has_lower_facet elev nd w h x y ->
        exists n m a s, facet n m /\ data_at elev nd w h x y n /\ data_at elev nd w h x y m /\
          facet_flow elev T x y n m a s /\ (0 < s)%Qc /\
          (forall n' m' a' s', facet n' m' -> data_at elev nd w h x y n' -> data_at elev nd w h x y m' ->
             facet_flow elev T x y n' m' a' s' -> (s' <= s)%Qc) /\
          (a = 0%Qc -> r n = 1%Qc) /\ (a = dang T -> r m = 1%Qc) /\
          (a <> 0%Qc -> a <> dang T -> r n = (a / pi4 T)%Qc /\ r m = (1 - a / pi4 T)%Qc)).
  Proof.
    intros Hin Hi. unfold tb_cell. destruct (tb_scan x y Hin Hi) as [b [E H]]. rewrite E. cbn [bind].
    destruct H as [[-> H]|[k [Hk [Hf [-> [Hp Hmax]]]]]].
    - cbn [Nat.eqb]. exists row0. split; [reflexivity|].
      assert (N : ~ has_lower_facet elev nd w h x y).
      { intros C. apply hlf_iff in C; auto. destruct C as [k [Hk [Hf Hp]]]. exact (Qclt_not_le _ _ Hp (H k Hk Hf)). }
      split; [split; [contradiction|intros _; apply keeps_row0]|contradiction].
    - assert (L : has_lower_facet elev nd w h x y) by (apply hlf_iff; eauto).
      destruct (d1_table k Hk) as [_ [_ [A3 [_ [_ [A6 [Hne [Hfc A9]]]]]]]].
      pose proof Hf as Hfd. unfold full in Hfd. rewrite andb_true_iff, !negb_true_iff, !eqq_false in Hfd. destruct Hfd as [F1 F2].
      destruct HT as [[H1 [H2 [H3 [H4 H5]]]] [T1 [T2 [T3 T4]]]].
      assert (Hd0 : dang T <> 0%Qc).
      { intros C. rewrite C in H2. apply (qc_lt_irr (eps T)). eapply Qclt_trans; [exact H2|]. eapply Qclt_trans; [|exact H1].
        apply Qclt_minus_iff. replace (0 + - (0 - eps T))%Qc with (eps T) by ring. exact H1. }
      assert (Hk0 : (1 <= k)%nat) by (apply dirs_In in Hk; lia).
      destruct (Nat.eqb_spec k 0); [lia|]. clear n.
      set (a := fst (rs x y k)) in *. set (s := snd (rs x y k)) in *.
      (* the possible values of the angle *)
      assert (CA : (a = 0%Qc /\ (nbe (d1 k) x y < elev x y)%Qc) \/ (a = dang T /\ (nbe (d2 k) x y < elev x y)%Qc) \/
                   (a <> 0%Qc /\ a <> dang T /\ (0 < a)%Qc /\ (a < pi4 T)%Qc /\ (pi4 T - a)%Qc <> dang T /\
                    (nbe (d1 k) x y < elev x y)%Qc /\ (nbe (d2 k) x y < elev x y)%Qc)).
      { unfold a, s, rs in *. fold (angle x y k) in *. destruct (ltq (angle x y k) (eps T)) eqn:E1; cbn [fst snd] in *.
        - left. split; [auto|]. apply qc_pos_sub. auto.
        - apply ltq_false in E1. destruct (ltq (dang T - eps T) (angle x y k)) eqn:E2; cbn [fst snd] in *.
          + right. left. split; [auto|]. apply qc_pos_sub. destruct (Qclt_le_dec 0 (elev x y - nbe (d2 k) x y)) as [C|C]; [auto|].
            exfalso. apply (Qclt_not_le _ _ Hp). unfold Qcdiv. replace 0%Qc with (0 * / rt2 T)%Qc by ring.
            apply Qcmult_le_compat_r; [exact C|]. apply Qclt_le_weak, qc_pos_inv; auto.
          + apply ltq_false in E2. right. right. destruct (T1 _ _ E1 E2) as [S1 S2].
            assert (P0 : (0 < angle x y k)%Qc) by (eapply Qclt_le_trans; [exact H1|exact E1]).
            assert (P1 : (angle x y k < dang T)%Qc).
            { eapply Qcle_lt_trans; [exact E2|]. apply Qclt_minus_iff. replace (dang T + - (dang T - eps T))%Qc with (eps T) by ring. auto. }
            split; [intros C; rewrite C in P0; exact (qc_lt_irr _ P0)|]. split; [intros C; rewrite C in P1; exact (qc_lt_irr _ P1)|].
            split; [auto|]. split; [eapply Qcle_lt_trans; [exact E2|exact H3]|]. split.
            * intros C. apply (qc_lt_irr (dang T)). rewrite <- C at 1. eapply Qcle_lt_trans; [|exact H4].
              apply Qcplus_le_compat; [apply Qcle_refl|]. apply Qcopp_le_compat. exact E1.
            * apply qc_pos_sub in S1. apply qc_pos_sub in S2. split; [exact S1|]. eapply Qclt_trans; [exact S2|exact S1]. }
      assert (Hpi : (0 < pi4 T)%Qc) by (eapply Qclt_trans; [|exact H3]; eapply Qclt_trans; [exact H1|exact H2]).
      assert (L1 : (nbe (d1 k) x y < elev x y)%Qc -> lower_data elev nd w h x y (d1 k)) by (intros; apply lower_nbe; auto).
      assert (L2 : (nbe (d2 k) x y < elev x y)%Qc -> lower_data elev nd w h x y (d2 k)) by (intros; apply lower_nbe; auto).
      (* what the tail computes *)
      assert (R : exists r, (let r := rset row0 0 HAS_FLOW_GEN in
          let rm := if af_pos k && eqq a 0%Qc then dang T else if af_pos k && eqq a (dang T) then 0%Qc
                    else if af_pos k then (pi4 T - a)%Qc else a in
          if eqq rm 0%Qc then Ok (rset r k 1%Qc) else if eqq rm (dang T) then Ok (rset r (nwrap (k + 1)) 1%Qc)
          else Ok (rset (rset r k (rm / pi4 T)%Qc) (nwrap (k + 1)) (1 - rm / pi4 T)%Qc)) = Ok r /\
          ((a = 0%Qc /\ r = one_row (d1 k)) \/ (a = dang T /\ r = one_row (d2 k)) \/
           (a <> 0%Qc /\ a <> dang T /\ forall j, r j = two_row (d1 k) (d2 k) (a / pi4 T) j))).
      { cbn zeta. destruct (af_pos k); cbn [andb] in *; destruct A9 as [A9 A10].
        - destruct CA as [[Ca _]|[[Ca _]|[Ca [Cb [Cc [Cd [Ce _]]]]]]].
          + rewrite Ca, (proj2 (eqq_iff 0 0) eq_refl), (proj2 (eqq_false _ _) Hd0), (proj2 (eqq_iff _ _) eq_refl). eexists. split; [reflexivity|].
            left. rewrite A10. auto.
          + rewrite Ca, (proj2 (eqq_false _ _) Hd0), (proj2 (eqq_iff (dang T) _) eq_refl), (proj2 (eqq_iff 0 0) eq_refl). eexists. split; [reflexivity|].
            right. left. rewrite A9 at 1. auto.
          + rewrite (proj2 (eqq_false _ _) Ca), (proj2 (eqq_false _ _) Cb), (proj2 (eqq_false _ _) Ce).
            assert (Cz : (pi4 T - a)%Qc <> 0%Qc) by (intros C; apply qc_sub_pos in Cd; rewrite C in Cd; exact (qc_lt_irr _ Cd)).
            rewrite (proj2 (eqq_false _ _) Cz). eexists. split; [reflexivity|]. right. right. split; [auto|]. split; [auto|].
            intros j. rewrite A10. rewrite A9 at 1. rewrite two_row_sym by auto.
            assert (Q1 : ((pi4 T - a) / pi4 T = 1 - a / pi4 T)%Qc) by (field; intros C; rewrite C in Hpi; exact (qc_lt_irr _ Hpi)).
            rewrite Q1. replace (1 - (1 - a / pi4 T))%Qc with (a / pi4 T)%Qc by ring. reflexivity.
        - destruct CA as [[Ca _]|[[Ca _]|[Ca [Cb [Cc [Cd [Ce _]]]]]]].
          + rewrite Ca, (proj2 (eqq_iff 0 0) eq_refl). eexists. split; [reflexivity|]. left. rewrite A9 at 1. auto.
          + rewrite Ca, (proj2 (eqq_false _ _) Hd0), (proj2 (eqq_iff (dang T) _) eq_refl). eexists. split; [reflexivity|].
            right. left. rewrite A10. auto.
          + rewrite (proj2 (eqq_false _ _) Ca), (proj2 (eqq_false _ _) Cb). eexists. split; [reflexivity|]. right. right. split; [auto|]. split; [auto|].
            intros j. rewrite A10. rewrite A9 at 1. reflexivity. }
      destruct R as [r [Er Hr]]. exists r. split; [exact Er|].
      assert (Hq : (0 < a)%Qc -> (a < pi4 T)%Qc -> (0 < a / pi4 T)%Qc /\ (a / pi4 T < 1)%Qc).
      { intros Q1 Q2. assert (Hi4 : (0 < / pi4 T)%Qc) by (apply qc_pos_inv; auto). split; [apply qc_pos_mul; auto|].
        replace 1%Qc with (pi4 T * / pi4 T)%Qc by (apply Qcmult_inv_r; intros C; rewrite C in Hpi; exact (qc_lt_irr _ Hpi)).
        apply Qcmult_lt_compat_r; auto. }
      split; [split; [intros _|contradiction]|].
      + destruct Hr as [[Ra ->]|[[Ra ->]|[Ra [Rb Rr]]]].
        * apply one_row_distributes, L1. destruct CA as [[_ C]|[[C _]|[C _]]]; [auto|rewrite Ra in C; symmetry in C; contradiction|contradiction].
        * apply one_row_distributes, L2. destruct CA as [[C _]|[[_ C]|[_ [C _]]]]; [rewrite Ra in C; contradiction|auto|contradiction].
        * destruct CA as [[C _]|[[C _]|[_ [_ [Cc [Cd [_ [Ce Cf]]]]]]]]; try contradiction.
          destruct (Hq Cc Cd) as [Q1 Q2].
          split; [|split].
          -- rewrite Rr. unfold two_row. rewrite !rset_other by lia. apply rset_same.
          -- intros j Hj. rewrite Rr. unfold two_row. destruct (Nat.eq_dec j (d2 k)) as [->|J2]; [intros _; auto|].
             rewrite rset_other by auto. destruct (Nat.eq_dec j (d1 k)) as [->|J1]; [intros _; auto|].
             rewrite !rset_other by lia. intros C. exfalso. exact (Qclt_not_le _ _ C qc_neg1).
          -- rewrite (map_ext _ (fun j => if Qclt_le_dec 0 (two_row (d1 k) (d2 k) (a / pi4 T) j) then two_row (d1 k) (d2 k) (a / pi4 T) j else 0%Qc)).
             ++ apply two_row_sum; auto.
             ++ intros j. rewrite (Rr j). reflexivity.
      + intros _. exists (d1 k), (d2 k), a, s. split; [auto|]. split; [apply dnb_data; auto|]. split; [apply dnb_data; auto|].
        split; [apply rs_flow; auto|]. split; [auto|]. split.
        * intros n' m' a' s' F' D1 D2 FF. destruct (facet_n n' m' F') as [k' [Hk' [-> ->]]].
          destruct (d1_table k' Hk') as [_ [_ [B3 [_ [_ [B6 _]]]]]].
          assert (Es : s' = snd (rs x y k')).
          { assert (NE : forall n e, (1 <= n <= 8)%nat -> nb_elev elev x y n e -> e = nbe n x y).
            { intros n e Hn [p [q [Tw ->]]]. apply toward_iff in Tw. rewrite Nat2Z.id in Tw. destruct Tw as [_ [-> ->]]. reflexivity. }
            unfold rs. inversion FF as [e1 e2 N1 N2 C|e1 e2 N1 N2 C1 C2|e1 e2 N1 N2 C1 C2]; subst;
              apply NE in N1; auto; apply NE in N2; auto; subst e1 e2; fold (angle x y k') in *.
            - rewrite (proj2 (ltq_iff _ _) C). reflexivity.
            - rewrite (proj2 (ltq_false _ _) C1), (proj2 (ltq_iff _ _) C2). reflexivity.
            - rewrite (proj2 (ltq_false _ _) C1), (proj2 (ltq_false _ _) C2). reflexivity. }
          rewrite Es. apply Hmax; [auto|]. apply dnb_data in D1; auto. apply dnb_data in D2; auto.
          unfold full. rewrite andb_true_iff, !negb_true_iff, !eqq_false. auto.
        * split; [|split].
          -- intros C. destruct Hr as [[_ ->]|[[Ra _]|[Ra _]]]; [apply one_row_self|congruence|contradiction].
          -- intros C. destruct Hr as [[Ra _]|[[_ ->]|[_ [Ra _]]]]; [congruence|apply one_row_self|contradiction].
          -- intros C1 C2. destruct Hr as [[Ra _]|[[Ra _]|[_ [_ Rr]]]]; try contradiction.
             rewrite !Rr. unfold two_row. rewrite rset_same. rewrite rset_other by auto. rewrite rset_same. auto.
  Qed.
End TB.
