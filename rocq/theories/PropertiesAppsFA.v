(** C98: rd_flow_accumulation. *)
From Coq Require Import ZArith List Lia Bool String Ascii QArith Qcanon Reals Lra Relations Permutation.
From Flocq Require Import Core BinarySingleNaN.
From Verif Require Import Base Res RasterSpec RasterFacts ArrModel Kahn FlowSpec FlowProofs FlowModel FAModel FMModel FMProofs FAFModel FAFSpec FAFNum FAFProofs PropertiesFAF PropertiesEpsInt PyModel PyIntModel PyNumModel
  GDALModel GDALProofs PropertiesGDAL AppsGDALModel PropertiesAppsGDAL AppsDepModel AppsDepProofs PropertiesAppsDep AppsFAModel.
Open Scope Z_scope.
Open Scope list_scope.

(** a cell of the raster that has data *)
Definition data_cell (ds : dataset) (nd : val) (c : Z * Z) : Prop := in_raster (ds_w ds) (ds_h ds) (fst c) (snd c) /\ different (ds_cell ds (fst c) (snd c)) nd = true.
(** D8: the water of [c] flows to [d]: c is not on the edge, d is the lowest of its neighbours with data - of several equally low ones the first, clockwise from the west - and lower than c *)
Definition d8_to (ds : dataset) (nd : val) (c d : Z * Z) : Prop :=
  let z := fun c => height ds (fst c) (snd c) in
  data_cell ds nd c /\ ~ on_edge (ds_w ds) (ds_h ds) (fst c) (snd c) /\
  exists n, 1 <= n <= 8 /\ toward n (fst c) (snd c) (fst d) (snd d) /\ data_cell ds nd d /\ z d < z c /\
    forall m d', toward m (fst c) (snd c) (fst d') (snd d') -> data_cell ds nd d' -> z d <= z d' /\ (z d' = z d -> n <= m).
(** the cells whose water comes to [c], [c] included *)
Definition catchment (ds : dataset) (nd : val) (c : Z * Z) (U : list (Z * Z)) : Prop :=
  NoDup U /\ forall v, In v U <-> data_cell ds nd v /\ clos_refl_trans _ (d8_to ds nd) v c.
(** a cell holds a number *)
Definition holds (v : val) (r : R) : Prop := exists f : float64, v = VD f /\ is_finite f = true /\ B2R f = r.

(** ** arithmetic of integers that are doubles *)
Lemma round_int z : Z.abs z <= 2 ^ 53 -> round radix2 (SpecFloat.fexp 53 1024) (round_mode mode_NE) (IZR z) = IZR z /\ Rlt_bool (Rabs (IZR z)) (bpow radix2 1024) = true.
Proof.
  intros Hz. destruct (f64_int z Hz) as (_ & _ & G). split.
  - rewrite fexp_eq. apply round_generic; [apply valid_rnd_N|exact G].
  - apply Rlt_bool_true. rewrite <- abs_IZR. apply Rle_lt_trans with (IZR (2 ^ 53)); [apply IZR_le; exact Hz|]. change (IZR (2 ^ 53)) with (bpow radix2 53). apply bpow_lt. lia.
Qed.
Lemma mult_int (a b : float64) m k : is_finite a = true -> is_finite b = true -> B2R a = IZR m -> B2R b = IZR k -> Z.abs (m * k) <= 2 ^ 53 ->
  is_finite (Bmult mode_NE a b) = true /\ B2R (Bmult mode_NE a b) = IZR (m * k).
Proof.
  intros Fa Fb Ea Eb Hz. pose proof (Bmult_correct 53 1024 _ _ mode_NE a b) as H. rewrite Ea, Eb, <- mult_IZR in H. destruct (round_int _ Hz) as [R1 R2].
  rewrite R1, R2 in H. destruct H as (H1 & H2 & _). rewrite Fa, Fb in H2. split; assumption.
Qed.
Lemma dbl_int z : Z.abs z <= 2 ^ 53 -> is_finite (dbl (Q2Qc (inject_Z z))) = true /\ B2R (dbl (Q2Qc (inject_Z z))) = IZR z.
Proof.
  intros Hz. unfold dbl. assert (E : this (Q2Qc (inject_Z z)) = inject_Z z) by (cbn [this Q2Qc]; apply Qred_identity; cbn; apply Z.gcd_1_r). rewrite E. cbn [inject_Z Qnum Qden].
  destruct (f64_int z Hz) as (A1 & A2 & _). destruct (f64_int 1 ltac:(lia)) as (B1 & B2 & _).
  pose proof (Bdiv_correct 53 1024 _ _ mode_NE (f64_of_Z z) (f64_of_Z 1)) as H. rewrite A1, B1 in H. specialize (H ltac:(lra)). replace (IZR z / 1)%R with (IZR z) in H by field.
  destruct (round_int _ Hz) as [R1 R2]. rewrite R1, R2 in H. destruct H as (H1 & H2 & _). rewrite A2 in H2. split; assumption.
Qed.
Lemma area_int g z1 z5 : List.length g = 6%nat -> nth 1 g 0%Qc = Q2Qc (inject_Z z1) -> nth 5 g 0%Qc = Q2Qc (inject_Z z5) -> Z.abs z1 <= 2 ^ 53 -> Z.abs z5 <= 2 ^ 53 -> Z.abs (z1 * z5) <= 2 ^ 53 ->
  exists area, getCellArea g = Ok area /\ is_finite area = true /\ B2R area = IZR (Z.abs (z1 * z5)).
Proof.
  intros L E1 E5 H1 H5 HP. destruct g as [|g0 [|g1 [|g2 [|g3 [|g4 [|g5 [|]]]]]]]; try discriminate L. cbn [nth] in E1, E5. subst g1 g5. eexists. split; [reflexivity|].
  destruct (dbl_int z1 H1) as [A1 A2]. destruct (dbl_int z5 H5) as [B1 B2]. destruct (mult_int _ _ _ _ A1 B1 A2 B2 HP) as [M1 M2].
  split; [rewrite is_finite_Babs; exact M1|]. rewrite B2R_Babs, M2. symmetry. apply abs_IZR.
Qed.
Lemma scale_count (v area : float64) N A : is_finite v = true -> is_finite area = true -> B2R v = IZR N -> 0 <= N -> B2R area = IZR A -> 0 <= A -> N * A <= 2 ^ 53 -> holds (VD (scale (f64_of_Z (-1)) area v)) (IZR (N * A)).
Proof.
  intros F1 F2 E1 HN E2 HA HB. unfold scale. destruct (f64_int (-1) ltac:(lia)) as (D1 & D2 & _).
  assert (BE : Beqb v (f64_of_Z (-1)) = false).
  { rewrite Beqb_correct by assumption. rewrite E1, D1. apply Req_bool_false. intros C. apply eq_IZR in C. lia. }
  rewrite BE. eexists. split; [reflexivity|]. apply mult_int; try assumption. rewrite Z.abs_eq by nia. exact HB.
Qed.
Lemma scale_nodata (v area : float64) : is_finite v = true -> B2R v = (-1)%R -> holds (VD (scale (f64_of_Z (-1)) area v)) (-1)%R.
Proof.
  intros F E. unfold scale. destruct (f64_int (-1) ltac:(lia)) as (D1 & D2 & _). assert (BE : Beqb v (f64_of_Z (-1)) = true).
  { rewrite Beqb_correct by assumption. rewrite E, D1. apply Req_bool_true. reflexivity. }
  rewrite BE. eexists. auto.
Qed.

(** ** the D8 metric on ranks *)
Section Metric.
  Variables (w h : Z) (e : grid Z) (nd maxe : Z) (order : list (Z * Z)).
  Hypothesis Hw : 0 < w.
  Hypothesis Hh : 0 < h.
  Hypothesis ORD : Permutation order (Base.cells w h).
  Hypothesis MX : forall x y, in_raster w h x y -> e x y <= maxe.
  Let q (z : Z) : Qc := Q2Qc (inject_Z z).
  Lemma this_q z : this (q z) = inject_Z z. Proof. unfold q. cbn [this Q2Qc]. apply Qred_identity. cbn. apply Z.gcd_1_r. Qed.
  Lemma q_inj a b : q a = q b <-> a = b.
  Proof. split; [|congruence]. intros H. apply (f_equal this) in H. rewrite !this_q in H. injection H as H. exact H. Qed.
  Lemma q_le a b : (q a <= q b)%Qc <-> a <= b.
  Proof. unfold Qcle. rewrite !this_q. unfold Qle. cbn. lia. Qed.
  Lemma q_lt a b : (q a < q b)%Qc <-> a < b.
  Proof. unfold Qclt. rewrite !this_q. unfold Qlt. cbn. lia. Qed.

  Definition dcell (c : Z * Z) : Prop := in_raster w h (fst c) (snd c) /\ e (fst c) (snd c) <> nd.
  Definition to (c d : Z * Z) : Prop :=
    dcell c /\ ~ on_edge w h (fst c) (snd c) /\
    exists n, 1 <= n <= 8 /\ toward n (fst c) (snd c) (fst d) (snd d) /\ dcell d /\ e (fst d) (snd d) < e (fst c) (snd c) /\
      forall m d', toward m (fst c) (snd c) (fst d') (snd d') -> dcell d' -> e (fst d) (snd d) <= e (fst d') (snd d') /\ (e (fst d') (snd d') = e (fst d) (snd d) -> n <= m).

  Lemma B2R_m2 : B2R (f32_of_Z (-2)) = (-2)%R. Proof. vm_compute. lra. Qed.
  Lemma B2R_m1 : B2R (f32_of_Z (-1)) = (-1)%R. Proof. vm_compute. lra. Qed.
  Lemma B2R_z : B2R (f32_of_Z 0) = 0%R. Proof. vm_compute. lra. Qed.
  Lemma B2R_o : B2R (f32_of_Z 1) = 1%R. Proof. vm_compute. lra. Qed.

  Lemma metric : exists p : Z -> nat -> float32, (exists P, FM_OCallaghan (fun x y => q (e x y)) (q nd) w h D8 (q maxe) order = Ok P /\ p = fun i n => f32_of_Z (Qnum (P i n))) /\
    finite_props w h p /\ fquiet_border w h p /\ single_receiver w h p /\ (forall c, fdata w h p c <-> dcell c) /\ (forall c d, ffeeds w h p c d <-> to c d) /\
    (forall c, in_raster w h (fst c) (snd c) -> e (fst c) (snd c) = nd -> share w p c 0 = (-2)%R).
  Proof.
    pose (R := fun x y r => ((r = row0 /\ forall n, In n (dirs D8) -> ~ low (fun x y => q (e x y)) (q nd) w h D8 x y n) \/
       exists n, In n (dirs D8) /\ low (fun x y => q (e x y)) (q nd) w h D8 x y n /\ r = one_row n /\
         forall m, In m (dirs D8) -> low (fun x y => q (e x y)) (q nd) w h D8 x y m ->
           (q (e (x + dx D8 n)%Z (y + dy D8 n)%Z) <= q (e (x + dx D8 m)%Z (y + dy D8 m)%Z))%Qc /\
           (q (e (x + dx D8 m)%Z (y + dy D8 m)%Z) = q (e (x + dx D8 n)%Z (y + dy D8 n)%Z) -> (n <= m)%nat))).
    destruct (FM_ok (fun x y => q (e x y)) (q nd) w h (oc_cell (fun x y => q (e x y)) (q nd) w h D8 (q maxe)) R order ORD) as (P & EP & H).
    { intros x y A B C. apply (oc_cell_ok (fun x y => q (e x y)) (q nd) w h D8 (q maxe) x y A B C). apply q_le, MX, A. }
    set (p := fun i n => f32_of_Z (Qnum (P i n))). exists p. split; [exists P; split; [exact EP|reflexivity]|].
    assert (LOW : forall x y n, In n (dirs D8) -> (low (fun x y => q (e x y)) (q nd) w h D8 x y n <-> dcell (x + dx D8 n, y + dy D8 n) /\ e (x + dx D8 n) (y + dy D8 n) < e x y)).
    { intros x y n _. unfold low, dcell. cbn [fst snd]. rewrite q_inj, q_lt. tauto. }
    assert (ROW : forall c, in_raster w h (fst c) (snd c) ->
      (e (fst c) (snd c) = nd /\ P (ix_of w c) = rset row0 0 NO_DATA_GEN) \/
      (dcell c /\ P (ix_of w c) = row0 /\ forall d, ~ to c d) \/
      (dcell c /\ ~ on_edge w h (fst c) (snd c) /\ exists n, In n (dirs D8) /\ P (ix_of w c) = one_row n /\ forall d, to c d <-> d = (fst c + dx D8 n, snd c + dy D8 n))).
    { intros c I. destruct (H (fst c) (snd c) I) as (H1 & H2 & H3). change (snd c * w + fst c) with (ix_of w c) in *. destruct (Z.eq_dec (e (fst c) (snd c)) nd) as [En|En].
      { left. split; [exact En|]. apply H1, q_inj, En. }
      right. assert (En' : q (e (fst c) (snd c)) <> q nd) by (intros C; apply q_inj in C; contradiction). assert (DC : dcell c) by (split; assumption).
      assert (OE : on_edge w h (fst c) (snd c) \/ ~ on_edge w h (fst c) (snd c)) by (unfold on_edge, in_raster; lia).
      destruct OE as [OE|OE].
      { left. split; [exact DC|]. split; [apply H2; assumption|]. intros d (_ & C & _). contradiction. }
      specialize (H3 En' OE). destruct H3 as [[H4 H5]|(n & N1 & N2 & N3 & N4)].
      - left. split; [exact DC|]. split; [exact H4|]. intros d (_ & _ & n & A1 & A2 & A3 & A4 & _). apply toward_iff in A2. destruct A2 as (A21 & A22 & A23).
        assert (N : In (Z.to_nat n) (dirs D8)) by (apply dirs_In; cbn; lia). apply (H5 _ N). apply LOW; [exact N|]. rewrite <- A22, <- A23. destruct d; auto.
      - right. split; [exact DC|]. split; [exact OE|]. exists n. split; [exact N1|]. split; [exact N3|]. apply (LOW _ _ _ N1) in N2. destruct N2 as [N5 N6]. pose proof (proj1 (dirs_In D8 n) N1) as NB. cbn [nmax] in NB.
        intros d. split.
        + intros (_ & _ & k & A1 & A2 & A3 & A4 & A5). assert (T : toward (Z.of_nat n) (fst c) (snd c) (fst c + dx D8 n) (snd c + dy D8 n)) by (apply toward_iff; rewrite Nat2Z.id; lia).
          destruct (A5 (Z.of_nat n) (fst c + dx D8 n, snd c + dy D8 n) T N5) as [B1 B2]. cbn [fst snd] in B1, B2. apply toward_iff in A2. destruct A2 as (A21 & A22 & A23).
          assert (N : In (Z.to_nat k) (dirs D8)) by (apply dirs_In; cbn; lia).
          assert (LK : low (fun x y => q (e x y)) (q nd) w h D8 (fst c) (snd c) (Z.to_nat k)) by (apply LOW; [exact N|]; rewrite <- A22, <- A23; destruct d; auto).
          destruct (N4 _ N LK) as [C1 C2]. apply (proj1 (q_le _ _)) in C1. rewrite <- A22, <- A23 in C1, C2. rewrite q_inj in C2. assert (EQ : e (fst d) (snd d) = e (fst c + dx D8 n) (snd c + dy D8 n)) by lia.
          specialize (B2 (eq_sym EQ)). specialize (C2 EQ). assert (k = Z.of_nat n) by lia. subst k. rewrite Nat2Z.id in *. rewrite <- A22, <- A23. destruct d; reflexivity.
        + intros ->. split; [exact DC|]. split; [exact OE|]. exists (Z.of_nat n). cbn [fst snd]. split; [lia|]. split; [apply toward_iff; rewrite Nat2Z.id; lia|]. split; [exact N5|]. split; [exact N6|].
          intros m d' T D'. apply toward_iff in T. destruct T as (T1 & T2 & T3). assert (N : In (Z.to_nat m) (dirs D8)) by (apply dirs_In; cbn; lia).
          destruct (Z.lt_ge_cases (e (fst d') (snd d')) (e (fst c) (snd c))) as [Q|Q]; [|split; lia].
          assert (LK : low (fun x y => q (e x y)) (q nd) w h D8 (fst c) (snd c) (Z.to_nat m)) by (apply LOW; [exact N|]; rewrite <- T2, <- T3; destruct d'; auto).
          destruct (N4 _ N LK) as [C1 C2]. apply (proj1 (q_le _ _)) in C1. rewrite <- T2, <- T3 in C1, C2. rewrite q_inj in C2. split; [exact C1|]. intros Q'. specialize (C2 Q'). lia. }
    assert (SH : forall c n, share w p c n = B2R (f32_of_Z (Qnum (P (ix_of w c) n)))) by reflexivity.
    assert (S0 : forall n : nat, B2R (f32_of_Z (Qnum (row0 n))) = (-1)%R) by (intros n; exact B2R_m1).
    assert (S1 : forall n k : nat, (1 <= n)%nat -> B2R (f32_of_Z (Qnum (one_row n k))) = if Nat.eqb k n then 1%R else if Nat.eqb k 0 then 0%R else (-1)%R).
    { intros n k Hn. unfold one_row, rset. destruct (Nat.eqb k n); [exact B2R_o|]. destruct (Nat.eqb k 0); [exact B2R_z|exact B2R_m1]. }
    assert (S2 : forall n : nat, B2R (f32_of_Z (Qnum (rset row0 0 NO_DATA_GEN n))) = if Nat.eqb n 0 then (-2)%R else (-1)%R).
    { intros n. unfold rset. destruct (Nat.eqb n 0); [exact B2R_m2|exact B2R_m1]. }
    assert (FD : forall c, fdata w h p c <-> dcell c).
    { intros c. unfold fdata. split.
      - intros [I N]. rewrite SH in N. destruct (ROW c I) as [(R1 & R2)|[(R1 & _)|(R1 & _)]]; try exact R1. rewrite R2, S2 in N. cbn in N. lra.
      - intros D. split; [apply D|]. rewrite SH. destruct (ROW c (proj1 D)) as [(R1 & R2)|[(R1 & R2 & _)|(R1 & _ & n & R2 & R3 & _)]].
        + destruct D as [_ D]. contradiction.
        + rewrite R2, S0. lra.
        + apply dirs_In in R2. rewrite R3, S1 by lia. destruct (Nat.eqb 0 n); [lra|]. cbn. lra. }
    assert (POS : forall c n, dcell c -> (1 <= n <= 8)%nat -> (0 < share w p c n)%R -> share w p c n = 1%R /\ P (ix_of w c) = one_row n /\ ~ on_edge w h (fst c) (snd c) /\ forall d, to c d <-> d = (fst c + dx D8 n, snd c + dy D8 n)).
    { intros c n D Hn S. rewrite SH in *. destruct (ROW c (proj1 D)) as [(R1 & R2)|[(R1 & R2 & _)|(R1 & RE & k & R2 & R3 & R4)]].
      - destruct D as [_ D]. contradiction.
      - rewrite R2, S0 in S. lra.
      - apply dirs_In in R2. rewrite R3, S1 in S by lia. destruct (Nat.eqb_spec n k) as [->|Nk]; [|destruct (Nat.eqb n 0); lra]. rewrite R3, S1 by lia. rewrite Nat.eqb_refl. auto. }
    split; [|split; [|split; [|split; [exact FD|split]]]].
    - intros i n Hi Hn. assert (I : exists c, in_raster w h (fst c) (snd c) /\ ix_of w c = i).
      { exists (i mod w, i / w). unfold in_raster, ix_of. cbn [fst snd]. pose proof (Z.mod_pos_bound i w Hw). pose proof (Z.div_mod i w ltac:(lia)). split; [|nia].
        split; [lia|]. split; [apply Z.div_pos; lia|apply Z.div_lt_upper_bound; nia]. }
      destruct I as (c & I & E). unfold p. rewrite <- E.
      assert (V : forall k, k = -2 \/ k = -1 \/ k = 0 \/ k = 1 -> is_finite (f32_of_Z k) = true) by (intros k [->|[->|[->| ->]]]; reflexivity).
      apply V. destruct (ROW c I) as [(R1 & R2)|[(R1 & R2 & _)|(R1 & _ & k & R2 & R3 & _)]].
      + rewrite R2. unfold rset. destruct (Nat.eqb n 0); cbn; auto.
      + rewrite R2. cbn. auto.
      + rewrite R3. unfold one_row, rset. destruct (Nat.eqb n k); [cbn; auto|]. destruct (Nat.eqb n 0); cbn; auto.
    - intros c n OE N Hn. destruct (Rlt_dec 0 (share w p c n)) as [Q|Q]; [|lra]. exfalso. assert (D : dcell c) by (apply FD; split; [apply OE|exact N]).
      destruct (POS c n D Hn Q) as (_ & _ & C & _). contradiction.
    - intros c n D Hn S. apply FD in D. destruct (POS c n D Hn S) as (A1 & A2 & _). split; [exact A1|]. intros n' Hn' S'. destruct (POS c n' D Hn' S') as (_ & B2 & _).
      assert (X : one_row n' n' = one_row n n') by congruence. rewrite one_row_self in X. destruct (Nat.eq_dec n' n) as [Q|Q]; [exact Q|]. rewrite one_row_other in X by lia. discriminate X.
    - intros c d. split.
      + intros (n & D & D2 & Hn & T & S). apply FD in D. destruct (POS c n D Hn S) as (_ & _ & _ & A). apply A. apply toward_iff in T. rewrite Nat2Z.id in T. destruct T as (_ & T1 & T2). rewrite <- T1, <- T2. destruct d; reflexivity.
      + intros T0. assert (T := T0). destruct T as (D & OE & _ & _ & _ & D2 & _). destruct (ROW c (proj1 D)) as [(R1 & R2)|[(R1 & R2 & R3)|(R1 & RE & k & R2 & R3 & R4)]].
        * destruct D as [_ D]. contradiction.
        * exfalso. exact (R3 d T0).
        * pose proof (proj1 (dirs_In D8 k) R2) as Hk. cbn [nmax] in Hk. exists k. split; [apply FD; exact D|]. split; [apply FD; exact D2|]. split; [lia|]. apply R4 in T0. subst d. cbn [fst snd].
          split; [apply toward_iff; rewrite Nat2Z.id; lia|]. rewrite SH, R3, S1 by lia. rewrite Nat.eqb_refl. lra.
    - intros c I En. rewrite SH. destruct (ROW c I) as [(R1 & R2)|[(R1 & _)|(R1 & _)]]; [rewrite R2, S2; reflexivity| |]; destruct R1 as [_ R1]; contradiction.
  Qed.

  Lemma FA_D8_counts : w * h < 2 ^ 31 -> exists A, FA_D8 order maxe w h e nd = Ok A /\
    (forall c, dcell c -> exists U, (NoDup U /\ forall v, In v U <-> dcell v /\ clos_refl_trans _ to v c) /\ is_finite (A (ix_of w c)) = true /\ B2R (A (ix_of w c)) = INR (List.length U)) /\
    (forall c, in_raster w h (fst c) (snd c) -> e (fst c) (snd c) = nd -> is_finite (A (ix_of w c)) = true /\ B2R (A (ix_of w c)) = (-1)%R).
  Proof.
    intros SZ. destruct metric as (p & (P & EP & Ep) & M1 & M2 & M3 & M4 & M5 & M6). unfold FA_D8. fold q. change (fun x y => Q2Qc (inject_Z (e x y))) with (fun x y => q (e x y)).
    change (Q2Qc (inject_Z nd)) with (q nd). change (Q2Qc (inject_Z maxe)) with (q maxe). rewrite EP. cbn [bind]. rewrite <- Ep.
    destruct (C82_added_in_turn w h p (fun _ => f64_of_Z 1) ltac:(lia) ltac:(lia) M1 M2) as (A & EA & _ & AN). rewrite EA. exists A. split; [reflexivity|]. split.
    - intros c D. assert (ST : settled w h p c).
      { split; [apply M4; exact D|]. intros (l & L & _). unfold f_on_loop in L.
        assert (K : forall a b, clos_trans _ (ffeeds w h p) a b -> e (fst b) (snd b) < e (fst a) (snd a)).
        { induction 1 as [a b F|a b c' _ IH1 _ IH2]; [|lia]. apply M5 in F. destruct F as (_ & _ & n & _ & _ & _ & F & _). exact F. }
        specialize (K l l L). lia. }
      destruct (C82_counts_cells w h p (fun _ => f64_of_Z 1) A ltac:(lia) ltac:(lia) ltac:(lia) M1 M2 M3 EA (fun _ _ => eq_refl) c ST) as (U & [U1 U2] & F1 & F2). exists U. split; [|auto].
      split; [exact U1|]. intros v. rewrite U2, M4. assert (RT : forall a b, clos_refl_trans _ (ffeeds w h p) a b <-> clos_refl_trans _ to a b).
      { intros a b. split; induction 1 as [a b F|a|a b c' _ IH1 _ IH2]; try (apply rt_step; apply M5; exact F); try apply rt_refl; eapply rt_trans; eassumption. }
      rewrite RT. reflexivity.
    - intros c I En. specialize (AN c I (M6 c I En)). split; [|exact AN]. destruct (A (ix_of w c)); try reflexivity; cbn in AN; lra.
  Qed.
End Metric.

(** a cell is not +infinity *)
Definition below_infinity (v : val) : Prop := match v with VI _ => True | VF f => f <> B754_infinity false | VD f => f <> B754_infinity false end.
Lemma frank_largest prec emax (Hp : Prec_gt_0 prec) (He : Prec_lt_emax prec emax) (P2 : 2 <= prec) (E3 : 3 <= emax) (f : binary_float prec emax) : f <> B754_nan -> f <> B754_infinity false ->
  frank f <= (2 ^ prec - 1) * 2 ^ (emax - prec - (3 - emax - prec)).
Proof.
  intros N1 N2. pose proof (prec_lt_emax prec emax) as PE. assert (P : 0 < (2 ^ prec - 1) * 2 ^ (emax - prec - (3 - emax - prec))).
  { apply Z.mul_pos_pos; [|apply Z.pow_pos_nonneg; lia]. assert (2 ^ 1 < 2 ^ prec) by (apply Z.pow_lt_mono_r; lia). lia. }
  destruct (is_finite f) eqn:F.
  - pose proof (frank_R prec emax ltac:(assumption) f F) as R. pose proof (abs_B2R_le_emax_minus_prec prec emax Hp f) as B. apply le_IZR. apply Rmult_le_reg_r with (bpow radix2 (3 - emax - prec)); [apply bpow_gt_0|].
    rewrite <- R. apply Rle_trans with (1 := Rle_abs _). apply Rle_trans with (1 := B). rewrite mult_IZR, minus_IZR, !(IZR_Zpower radix2) by lia. rewrite Rmult_assoc, <- bpow_plus.
    replace (emax - prec - (3 - emax - prec) + (3 - emax - prec)) with (emax - prec) by ring. rewrite Rmult_minus_distr_r, <- bpow_plus. replace (prec + (emax - prec)) with emax by ring. lra.
  - destruct f as [s|s| |s m e H]; try discriminate F; [|contradiction]. destruct s; [|contradiction]. cbn [frank cond_Zopp]. assert (0 < 2 ^ (emax - (3 - emax - prec))) by (apply Z.pow_pos_nonneg; lia). lia.
Qed.
Lemma rank_largest T v : typed T v -> plain v -> below_infinity v -> rank v <= largest T.
Proof.
  destruct T, v as [z|f|f]; cbn [typed]; try contradiction; intros Tv P B; cbn [rank largest plain below_infinity] in *; try (apply Tv); destruct P as [P _].
  - apply (frank_largest 24 128 _ _ ltac:(lia) ltac:(lia) f P B).
  - apply (frank_largest 53 1024 _ _ ltac:(lia) ltac:(lia) f P B).
Qed.

(** C98. rd_flow_accumulation <in> <out> 1: a raster of doubles of the input's size, projection and georeference with NoData value -1; every cell with data holds the number of the cells
    whose water comes to it times the area of a cell - exactly, if the sides of a cell are integers and the product is at most 2^53 -, the others hold -1; whatever the order in which
    the threads work. *)
Theorem C98_d8 : forall convert now prog writable analysis order stof others fs inp out alg param ds nd z1 z5, fs inp = Some ds -> readable ds -> of_double (ds_type ds) (GetNoDataValue ds) = Ok nd ->
  numbers ds -> (forall x y, in_raster (ds_w ds) (ds_h ds) x y -> below_infinity (ds_cell ds x y)) -> ds_w ds * ds_h ds < 2 ^ 31 -> writable out = true -> stoi alg = Ok 1 ->
  Permutation order (Base.cells (ds_w ds) (ds_h ds)) ->
  nth 1 (geo_of ds) 0%Qc = Q2Qc (inject_Z z1) -> nth 5 (geo_of ds) 0%Qc = Q2Qc (inject_Z z5) -> Z.abs z1 <= 2 ^ 53 -> Z.abs z5 <= 2 ^ 53 -> Z.abs (z1 * z5) <= 2 ^ 53 ->
  exists fs' ds', rd_flow_accumulation convert now prog writable analysis order stof others fs inp out alg param = Ok (0, fs') /\ fs' out = Some ds' /\ (forall f, f <> out -> fs' f = fs f) /\
    ds_type ds' = Float64 /\ ds_w ds' = ds_w ds /\ ds_h ds' = ds_h ds /\ ds_nodata ds' = Some (f64_of_Z (-1)) /\ ds_proj ds' = ds_proj ds /\ ds_geo ds' = Some (geo_of ds) /\ one_line now prog analysis ds' /\
    forall x y, in_raster (ds_w ds) (ds_h ds) x y ->
      (different (ds_cell ds x y) nd = true -> exists U, catchment ds nd (x, y) U /\
         (Z.of_nat (List.length U) * Z.abs (z1 * z5) <= 2 ^ 53 -> holds (ds_cell ds' x y) (IZR (Z.of_nat (List.length U) * Z.abs (z1 * z5))))) /\
      (different (ds_cell ds x y) nd = false -> holds (ds_cell ds' x y) (-1)%R).
Proof.
  intros convert now prog writable analysis order stof others fs inp out alg param ds nd z1 z5 Hf (Wf & HT & Hg & _) Hn NU BI SZ HW Ht ORD G1 G5 B1 B5 B15.
  destruct (opened convert fs inp ds nd Hf Wf HT Hn) as (a0 & l & A0 & A1 & HL & HC).
  unfold rd_flow_accumulation. rewrite Ht. cbn [bind]. change (1 =? 4) with false. change (1 =? 5) with false. change (1 =? 7) with false. change (1 =? 8) with false. change (1 =? 9) with false. cbn [orb bind].
  unfold route. rewrite Hf, HT, A0. cbn [bind]. rewrite A1. cbn [bind g_data]. unfold AppsDepModel.cells. cbn [g_data g_file g_type g_w g_h g_xoff g_yoff g_nd g_geo g_proj g_meta].
  destruct Wf as [W1 W2]. rewrite size_of by lia. cbn [bind]. unfold accumulate. change (1 =? 1) with true. cbv iota. cbn [g_data g_file g_type g_w g_h g_xoff g_yoff g_nd g_geo g_proj g_meta].
  set (e := elevations _ l). set (w := ds_w ds) in *. set (h := ds_h ds) in *.
  assert (EE : forall x y, in_raster w h x y -> e x y = height ds x y) by (intros x y [Hx Hy]; subst e; unfold elevations, height, cell_at; cbn [g_w]; rewrite HC by assumption; reflexivity).
  destruct (FA_D8_counts w h e (rank nd) (largest (ds_type ds)) order) as (A & EA & AC & AN); [lia|lia|exact ORD| |exact SZ|].
  { intros x y I. rewrite EE by exact I. destruct (NU x y I) as [T1 T2]. apply rank_largest; [exact T1|exact T2|apply BI, I]. }
  rewrite EA. cbn [bind]. destruct (area_int (geo_of ds) z1 z5 Hg G1 G5 B1 B5 B15) as (area & EAr & FAr & RAr). rewrite EAr. cbn [bind].
  set (cell := fun x y => VD (scale (f64_of_Z (-1)) area (A (y * w + x)))).
  destruct (saved now prog writable analysis fs Float64 w h (VD (f64_of_Z (-1))) (geo_of ds) (ds_proj ds) EmptyString (window cell 0 0 w h) out eq_refl ltac:(lia) ltac:(lia))
    as (fs' & ds' & S1 & S2 & S3 & S4 & S5 & S6 & S7 & S8 & S9 & S10 & S11); [apply window_length; lia|exact Hg|exact HW|].
  exists fs', ds'. do 10 (split; [assumption|]). intros x y I.
  assert (CV : ds_cell ds' x y = VD (scale (f64_of_Z (-1)) area (A (ix_of w (x, y))))) by (destruct I as [Hx Hy]; rewrite S7, window_nth by assumption; reflexivity). rewrite CV.
  assert (RK : forall x y, in_raster w h x y -> (e x y = rank nd <-> different (ds_cell ds x y) nd = false)).
  { intros a b J. rewrite EE by exact J. unfold height. destruct (NU a b J) as [TY PL]. apply (same_rank (ds_type ds)); [exact TY|eapply of_double_typed; exact Hn|]. destruct (ds_cell ds a b); cbn [plain nan] in *; tauto. }
  assert (DC : forall c, dcell w h e (rank nd) c <-> data_cell ds nd c).
  { intros [a b]. unfold dcell, data_cell. cbn [fst snd]. fold w h. split; intros [J Q]; (split; [exact J|]).
    - destruct (different (ds_cell ds a b) nd) eqn:D; [reflexivity|]. exfalso. apply Q, RK; assumption.
    - intros C. apply RK in C; [|exact J]. congruence. }
  assert (EC : forall c, data_cell ds nd c -> e (fst c) (snd c) = height ds (fst c) (snd c)) by (intros c [J _]; apply EE; exact J).
  assert (TT : forall c d, to w h e (rank nd) c d <-> d8_to ds nd c d).
  { intros c d. unfold to, d8_to. cbv zeta. fold w h. split.
    - intros (D & OE & n & Hn' & T & D' & L & M). apply DC in D. apply DC in D'. rewrite (EC c D), (EC d D') in L. split; [exact D|]. split; [exact OE|]. exists n. split; [exact Hn'|]. split; [exact T|]. split; [exact D'|]. split; [exact L|].
      intros m d' T' D2. specialize (M m d' T' (proj2 (DC d') D2)). rewrite (EC d' D2), (EC d D') in M. exact M.
    - intros (D & OE & n & Hn' & T & D' & L & M). rewrite <- (EC c D), <- (EC d D') in L. split; [apply DC, D|]. split; [exact OE|]. exists n. split; [exact Hn'|]. split; [exact T|]. split; [apply DC, D'|]. split; [exact L|].
      intros m d' T' D2. apply DC in D2. specialize (M m d' T' D2). rewrite (EC d' D2), (EC d D'). exact M. }
  split.
  - intros Q. destruct (AC (x, y)) as (U & [U1 U2] & F1 & F2); [apply DC; split; assumption|]. exists U. split.
    + split; [exact U1|]. intros v. rewrite U2, DC. assert (RT : forall a b, clos_refl_trans _ (to w h e (rank nd)) a b <-> clos_refl_trans _ (d8_to ds nd) a b).
      { intros a b. split; induction 1 as [a b F|a|a b c' _ IH1 _ IH2]; try (apply rt_step; apply TT; exact F); try apply rt_refl; eapply rt_trans; eassumption. }
      rewrite RT. reflexivity.
    + intros LE. apply scale_count; try assumption; try lia. rewrite F2. apply INR_IZR_INZ.
  - intros Q. destruct (AN (x, y) I (proj2 (RK x y I) Q)) as [F1 F2]. apply scale_nodata; assumption.
Qed.
Print Assumptions C98_d8.

(** "Algorithms: 1 to 9" - that a number which is not one of a working algorithm is refused - is false: the program exits with status 0 and writes the area of one cell everywhere, also where
    the DEM has no data. For 7, 8 and 9, which are disabled, it needs the parameter nevertheless. *)
Theorem C98_unknown_refuted : forall convert now prog writable analysis order stof others fs inp out alg param ds nd z1 z5 n, fs inp = Some ds -> readable ds -> of_double (ds_type ds) (GetNoDataValue ds) = Ok nd ->
  ds_w ds * ds_h ds < 2 ^ 31 -> writable out = true -> stoi alg = Ok n -> n < 1 \/ 6 < n -> (7 <= n <= 9 -> exists s p, param = Some s /\ stof s = Ok p) ->
  nth 1 (geo_of ds) 0%Qc = Q2Qc (inject_Z z1) -> nth 5 (geo_of ds) 0%Qc = Q2Qc (inject_Z z5) -> Z.abs z1 <= 2 ^ 53 -> Z.abs z5 <= 2 ^ 53 -> Z.abs (z1 * z5) <= 2 ^ 53 ->
  exists fs' ds', rd_flow_accumulation convert now prog writable analysis order stof others fs inp out alg param = Ok (0, fs') /\ fs' out = Some ds' /\
    ds_w ds' = ds_w ds /\ ds_h ds' = ds_h ds /\ ds_nodata ds' = Some (f64_of_Z (-1)) /\ forall x y, in_raster (ds_w ds) (ds_h ds) x y -> holds (ds_cell ds' x y) (IZR (Z.abs (z1 * z5))).
Proof.
  intros convert now prog writable analysis order stof others fs inp out alg param ds nd z1 z5 n Hf (Wf & HT & Hg & _) Hn SZ HW Ht HB HP G1 G5 B1 B5 B15.
  destruct (opened convert fs inp ds nd Hf Wf HT Hn) as (a0 & l & A0 & A1 & HL & HC). unfold rd_flow_accumulation. rewrite Ht. cbn [bind].
  assert (Q : exists p, (if (n =? 4) || (n =? 5) || (n =? 7) || (n =? 8) || (n =? 9) then match param with None => Ok None | Some s => do p <- stof s; Ok (Some p) end else Ok (Some (f32_of_Z 0))) = Ok (Some p)).
  { destruct (Z.eqb_spec n 4); [lia|]. destruct (Z.eqb_spec n 5); [lia|]. cbn [orb]. destruct ((n =? 7) || (n =? 8) || (n =? 9)) eqn:E; [|eexists; reflexivity].
    rewrite !orb_true_iff, !Z.eqb_eq in E. destruct HP as (s & p & -> & E2); [lia|]. rewrite E2. eexists. reflexivity. }
  destruct Q as (p & Q). rewrite Q. cbn [bind]. unfold route. rewrite Hf, HT, A0. cbn [bind]. rewrite A1. cbn [bind g_data]. unfold AppsDepModel.cells. cbn [g_data g_file g_type g_w g_h g_xoff g_yoff g_nd g_geo g_proj g_meta].
  destruct Wf as [W1 W2]. rewrite size_of by lia. cbn [bind]. unfold accumulate. destruct (Z.eqb_spec n 1); [lia|]. replace ((2 <=? n) && (n <=? 6)) with false by (symmetry; apply andb_false_iff; rewrite !Z.leb_gt; lia).
  cbn [bind]. destruct (area_int (geo_of ds) z1 z5 Hg G1 G5 B1 B5 B15) as (area & EAr & FAr & RAr). rewrite EAr. cbn [bind]. set (cell := fun x y : Z => VD (scale (f64_of_Z (-1)) area (f64_of_Z 1))).
  destruct (saved now prog writable analysis fs Float64 (ds_w ds) (ds_h ds) (VD (f64_of_Z (-1))) (geo_of ds) (ds_proj ds) EmptyString (window cell 0 0 (ds_w ds) (ds_h ds)) out eq_refl ltac:(lia) ltac:(lia))
    as (fs' & ds' & S1 & S2 & S3 & S4 & S5 & S6 & S7 & S8 & S9 & S10 & S11); [apply window_length; lia|exact Hg|exact HW|].
  exists fs', ds'. do 5 (split; [assumption|]). intros x y [Hx Hy]. rewrite S7, window_nth by assumption. subst cell. cbv beta. destruct (f64_int 1 ltac:(lia)) as (O1 & O2 & _).
  replace (Z.abs (z1 * z5)) with (1 * Z.abs (z1 * z5)) by ring. apply scale_count; try assumption; lia.
Qed.
Print Assumptions C98_unknown_refuted.

(** C98. Nothing is written - status -1 - if algorithm 4, 5, 7, 8 or 9 is asked for without its parameter, or the file has a type the program does not know; what is not an integer, a
    parameter that is not a number and a missing file are errors. *)
Theorem C98_args : forall convert now prog writable analysis order stof others fs inp out alg param,
  let run := rd_flow_accumulation convert now prog writable analysis order stof others fs inp out alg in
  (forall n, stoi alg = Ok n -> In n [4; 5; 7; 8; 9] -> run None = Ok (-1, fs)) /\
  (forall n s, stoi alg = Ok n -> In n [4; 5; 7; 8; 9] -> stof s = Thrown -> run (Some s) = Thrown) /\
  (stoi alg = Thrown -> run param = Thrown) /\
  (forall n, stoi alg = Ok n -> ~ In n [4; 5; 7; 8; 9] -> (fs inp = None -> run param = Thrown) /\ (forall ds, fs inp = Some ds -> has_gdal_type (ds_type ds) = false -> run param = Ok (-1, fs))).
Proof.
  intros convert now prog writable analysis order stof others fs inp out alg param run. subst run. unfold rd_flow_accumulation.
  assert (IN : forall n, In n [4; 5; 7; 8; 9] -> (n =? 4) || (n =? 5) || (n =? 7) || (n =? 8) || (n =? 9) = true) by (intros n [<-|[<-|[<-|[<-|[<-|[]]]]]]; reflexivity).
  split; [|split; [|split]].
  - intros n -> I. cbn [bind]. rewrite (IN n I). reflexivity.
  - intros n s -> I E. cbn [bind]. rewrite (IN n I), E. reflexivity.
  - intros ->. reflexivity.
  - intros n -> I. cbn [bind]. replace ((n =? 4) || (n =? 5) || (n =? 7) || (n =? 8) || (n =? 9)) with false.
    + cbn [bind]. unfold route. split; [intros ->; reflexivity|]. intros ds -> ->. reflexivity.
    + symmetry. rewrite !orb_false_iff, !Z.eqb_neq. cbn [In] in I. lia.
Qed.
Print Assumptions C98_args.

(** a 5 by 5 raster of 64 bit floats with a valley and one NoData cell, cells of 3 by -2 *)
Definition ex_fa_geo : list Qc := map (fun z => Q2Qc (inject_Z z)) [100; 3; 0; 200; 0; -2].
Definition ex_fa : dataset := mkDS Float64 5 5 (fun x y => VD (f64_of_Z (ex_z x y))) (Some (f64_of_Z 3)) (Some ex_fa_geo) "EPSG:4326" [].
Definition ex_fa_fs : files := fun n => if String.eqb n "dem.tif" then Some ex_fa else None.
Lemma ex_fa_readable : readable ex_fa. Proof. split; [split; cbn; lia|]. split; [reflexivity|]. split; [reflexivity|]. eexists. exact ex_dem_nd. Qed.
Lemma ex_fa_finite x y : below_infinity (ds_cell ex_fa x y).
Proof.
  cbn [ex_fa ds_cell below_infinity]. pose proof (ex_z_range x y) as R. destruct (f64_int (ex_z x y) ltac:(lia)) as (_ & F2 & _). intros E. rewrite E in F2. discriminate F2.
Qed.
Example C98_case : exists fs' ds', rd_flow_accumulation ex_conv "now" "prog" any_name "c" (Base.cells 5 5) (fun _ => Thrown) (fun _ _ _ => Undef) ex_fa_fs "dem.tif" "out.tif" "1" None = Ok (0, fs') /\
  fs' "out.tif"%string = Some ds' /\ holds (ds_cell ds' 3 1) (-1)%R.
Proof.
  destruct (C98_d8 ex_conv "now" "prog" any_name "c" (Base.cells 5 5) (fun _ => Thrown) (fun _ _ _ => Undef) ex_fa_fs "dem.tif" "out.tif" "1" None ex_fa _ 3 (-2) eq_refl ex_fa_readable ex_dem_nd ex_dem_numbers (fun x y _ => ex_fa_finite x y)
     eq_refl eq_refl eq_refl (Permutation_refl _) eq_refl eq_refl ltac:(lia) ltac:(lia) ltac:(lia)) as (fs' & ds' & A1 & A2 & _ & _ & _ & _ & _ & _ & _ & _ & A).
  exists fs', ds'. split; [exact A1|]. split; [exact A2|]. apply (A 3 1); [cbn; unfold in_raster; cbn; lia|reflexivity].
Qed.
(** the algorithm on the example: the ranks of small numbers are not needed, any integers in the same order will do *)
Definition ex_counts : list Z := match FA_D8 (Base.cells 5 5) 100 5 5 ex_z 3 with Ok A => map (fun i => AppsDepModel.frank (A (Z.of_nat i)) / 2 ^ 1074) (List.seq 0 25) | _ => [] end.
Example C98_case_counts : ex_counts = [1;1;1;1;1; 1;2;1;-1;1; 1;1;1;5;1; 1;1;1;1;1; 1;1;2;1;1].
Proof. vm_compute. reflexivity. Qed.
