(** C88: FillDepressions(dem, epsilon=True) on integer arrays. *)
From Coq Require Import ZArith List Lia Bool String Reals Lra.
From Flocq Require Import Core BinarySingleNaN.
From Verif Require Import Base Res RasterSpec RasterFacts PFModel PyModel PySpec PyProofs3 PyIntModel PropertiesPy PropertiesPF EpsIntModel EpsIntProofs FAFModel FAFNum.
Import ListNotations.
Open Scope Z_scope.
Open Scope list_scope.

(** C88. On an integer raster without negative elevations and without NoData cells, integer Priority-Flood+Epsilon removes no depression and fills no
    cell of one: every cell keeps its drainage level, is raised at most to just below it, and is at that level afterwards if and only if it was
    before. *)
Theorem C88_removes_nothing : forall tb nd t w h e, 0 < w -> 0 < h ->
  (forall x y, in_raster w h x y -> 0 <= e x y) -> (forall x y, in_raster w h x y -> e x y <> nd) ->
  exists r, PriorityFloodEpsilon_int tb nd t w h e = Some r /\
    forall x y L, in_raster w h x y -> drainage_level t w h e x y L ->
      drainage_level t w h r x y L /\ e x y <= r x y <= L /\ (r x y = L <-> e x y = L).
Proof.
  intros tb nd t w h e Hw Hh H0 HD. destruct (epsi_correct tb nd t w h e H0 HD Hw Hh) as [r [E H]]. exists r. split; [exact E|].
  assert (Up : forall x y L, drains t w h e L x y -> r x y <= L).
  { intros x y L D. destruct (H x y (drains_raster _ _ _ _ _ _ _ D)) as [_ [_ [[->|U] _]]]; [eapply drains_here; exact D|]. specialize (U L D). lia. }
  intros x y L I [D M]. split; [split|split].
  - induction D as [x y He Hle|x y x' y' Hr Hle Ha Hd IH].
    + apply drains_edge; [exact He|]. apply Up. apply drains_edge; auto.
    + eapply drains_step; [exact Hr|apply Up; eapply drains_step; eauto|exact Ha|]. clear -Hd Up.
      induction Hd as [x y He Hle|x y x1 y1 Hr Hle Ha Hd IH].
      * apply drains_edge; [exact He|]. apply Up. apply drains_edge; auto.
      * eapply drains_step; [exact Hr|apply Up; eapply drains_step; eauto|exact Ha|exact IH].
  - intros L' D'. apply M. eapply drains_mono; [|exact D']. intros x1 y1 I1. apply H. exact I1.
  - split; [apply H; exact I|apply Up; exact D].
  - destruct (H x y I) as [K1 [_ [K2 _]]]. pose proof (drains_here _ _ _ _ _ _ _ D). pose proof (Up x y L D). split; [|lia]. intros Er. destruct K2 as [K2|U]; [lia|]. specialize (U L D). lia.
Qed.
Print Assumptions C88_removes_nothing.

(** C88. A cell that is raised ends one below a neighbour: the gradient points into the depression. *)
Theorem C88_slopes_inwards : forall tb nd t w h e r, 0 < w -> 0 < h ->
  (forall x y, in_raster w h x y -> 0 <= e x y) -> (forall x y, in_raster w h x y -> e x y <> nd) ->
  PriorityFloodEpsilon_int tb nd t w h e = Some r ->
  forall x y, in_raster w h x y -> r x y <> e x y -> ~ on_edge w h x y /\ exists x' y', in_raster w h x' y' /\ adjacent t x y x' y' /\ r x' y' = r x y + 1.
Proof.
  intros tb nd t w h e r Hw Hh H0 HD E x y I N. destruct (epsi_correct tb nd t w h e H0 HD Hw Hh) as [r' [E' H]]. rewrite E in E'. injection E' as <-.
  destruct (H x y I) as [_ [K1 [_ K2]]]. split; [intros O; auto|auto].
Qed.
Print Assumptions C88_slopes_inwards.

(** C88. "FillDepressions(dem, epsilon=True) on an integer array either raises or returns an array all of whose cells drain" is false: it returns, and
    whenever the array had a cell below its drainage level, that cell still cannot drain without rising. *)
Theorem C88_epsilon_refuted : forall tb (s : state (F (eps_env tb)) (V (eps_env tb))) dem o h w l nd t, raster s dem o h w l nd ->
  (forall v, In v l -> 0 <= v) -> ~ In nd l ->
  exists r s' d, PyModel.FillDepressions dem true false (topology_name t) s = Ret (Some r) s' /\ keeps s s' /\ fresh s s' r /\ shows s' r h w d /\
    forall x y L, in_raster w h x y -> drainage_level t w h (grid_of w l) x y L -> grid_of w l x y < L ->
      drainage_level t w h (grid_of w d) x y L /\ grid_of w d x y < L /\ ~ drains t w h (grid_of w d) (grid_of w d x y) x y.
Proof.
  intros tb s dem o h w l nd t R P N. pose proof R as [Ho [K [D [Hh [Hw [S [St [Sh C]]]]]]]].
  assert (L : Z.of_nat (length l) = h * w) by (destruct Sh as [? [_ [_ [L2 _]]]]; exact L2).
  assert (In0 : forall x y, in_raster w h x y -> In (grid_of w l x y) l).
  { intros x y [Ix Iy]. unfold grid_of. apply nth_In. apply Nat2Z.inj_lt. refine (Z.lt_le_trans _ (h * w) _ _ _); [rewrite Z2Nat.id by nia; nia|]. rewrite <- L. apply Z.le_refl. }
  destruct (C88_removes_nothing tb nd t w h (grid_of w l) Hw Hh) as [g [Eg G]].
  { intros x y I. apply P. apply In0. exact I. }
  { intros x y I Q. apply N. rewrite <- Q. apply In0. exact I. }
  assert (Ee : eng (eps_env tb) (cpp_function (Fill true t)) [] [mkAval (o_dtype o) w h nd l] = EOk (list_of w h g) nd).
  { change (eng_eps tb (fill_function true t) [] [mkAval (o_dtype o) w h nd l] = EOk (list_of w h g) nd).
    unfold eng_eps. cbn [v_w v_h v_nd v_data v_dtype]. destruct t; cbn [fill_function]; cbn [String.eqb Ascii.eqb Bool.eqb]; rewrite Eg; reflexivity. }
  assert (Ll : length (list_of w h g) = length l) by (apply Nat2Z.inj; rewrite (list_of_length w h g Hw Hh); symmetry; exact L).
  destruct (C83_not_in_place (eps_env tb) s (Fill true t) dem o h w l nd (list_of w h g) nd R Ee Ll) as [r [s' [o' [E1 [E2 [E3 [E4 _]]]]]]].
  exists r, s', (list_of w h g). split; [exact E1|]. split; [exact E2|]. split; [exact E3|]. split; [exact E4|].
  assert (Q : forall x y, in_raster w h x y -> grid_of w (list_of w h g) x y = g x y) by (intros x y [Ix Iy]; apply (grid_list w h g x y); lia).
  intros x y Lv I Dl Lt. destruct (G x y Lv I Dl) as [[G1 G2] [G3 G4]]. rewrite (Q x y I).
  assert (X : forall L', drains t w h (grid_of w (list_of w h g)) L' x y <-> drains t w h g L' x y).
  { intros L'. split; apply drains_ext; [exact Q|intros; symmetry; auto]. }
  split; [split; [apply X; exact G1|intros L' H; apply G2; apply X; exact H]|]. split; [lia|]. rewrite X. intros H. specialize (G2 _ H). lia.
Qed.
Print Assumptions C88_epsilon_refuted.

(** C88. The arithmetic of the model is that of doubles: nextafter(c.z, 0.0) in IEEE arithmetic, compared with an integer and converted back. *)
Definition nextafter_to_zero (x : float64) : float64 :=
  if Bltb (B754_zero false) x then Bpred x else if Bltb x (B754_zero false) then Bsucc x else x.

Lemma f64_int z : Z.abs z <= 2 ^ 53 -> B2R (f64_of_Z z) = IZR z /\ is_finite (f64_of_Z z) = true /\ generic_format radix2 fexp64 (IZR z).
Proof.
  intros Hz. assert (G : generic_format radix2 fexp64 (IZR z)).
  { destruct (Z.eq_dec (Z.abs z) (2 ^ 53)) as [Q|Q].
    - assert (Cz : z = 2 ^ 53 \/ z = - 2 ^ 53) by lia. destruct Cz as [->| ->].
      + change (IZR (2 ^ 53)) with (bpow radix2 53). apply generic_format_bpow. unfold FLT_exp. lia.
      + rewrite opp_IZR. apply generic_format_opp. change (IZR (2 ^ 53)) with (bpow radix2 53). apply generic_format_bpow. unfold FLT_exp. lia.
    - apply generic_format_FLT. exists (Float radix2 z 0); [unfold F2R; cbn; lra|change (Z.abs z < 2 ^ 53); lia|cbn; lia]. }
  pose proof (binary_normalize_correct 53 1024 _ _ mode_NE z 0 false) as H. cbv zeta in H. rewrite fexp_eq in H. cbn [round_mode] in H.
  assert (E : F2R (Float radix2 z 0) = IZR z) by (unfold F2R; cbn; lra). rewrite E in H. rewrite round_generic in H by (apply valid_rnd_N || exact G).
  rewrite Rlt_bool_true in H; [destruct H as [H1 [H2 _]]; auto|]. rewrite <- abs_IZR. apply Rle_lt_trans with (IZR (2 ^ 53)); [apply IZR_le; exact Hz|].
  change (IZR (2 ^ 53)) with (bpow radix2 53). apply bpow_lt. lia.
Qed.

Theorem C88_ieee : forall v z, Z.abs v <= 2 ^ 53 -> Z.abs z < 2 ^ 52 ->
  Bleb (f64_of_Z v) (nextafter_to_zero (f64_of_Z z)) = int_below v z /\ Btrunc (nextafter_to_zero (f64_of_Z z)) = int_next z.
Proof.
  intros v z Hv Hz. destruct (f64_int v Hv) as [V1 [V2 _]]. destruct (f64_int z) as [Z1 [Z2 Z3]]; [lia|].
  assert (Zf : is_finite (B754_zero false : float64) = true) by reflexivity.
  unfold nextafter_to_zero. rewrite (Bltb_correct _ _ _ _ Zf Z2), (Bltb_correct _ _ _ _ Z2 Zf), Z1. cbn [B2R].
  assert (B1024 : (IZR (2 ^ 53) < bpow radix2 1024)%R) by (change (IZR (2 ^ 53)) with (bpow radix2 53); apply bpow_lt; lia).
  assert (Bz : (- IZR (2 ^ 53) <= IZR z <= IZR (2 ^ 53))%R) by (rewrite <- opp_IZR; split; apply IZR_le; lia).
  unfold int_below, int_next.
  destruct (Z.ltb_spec 0 z) as [Pz|Pz]; [|destruct (Z.ltb_spec z 0) as [Nz|Nz]].
  - rewrite Rlt_bool_true by (apply IZR_lt; exact Pz). destruct (f64_int (z - 1)) as [_ [_ Y3]]; [lia|].
    pose proof (Bpred_correct _ _ _ _ (f64_of_Z z) Z2) as H. rewrite fexp_eq, Z1 in H.
    assert (L1 : (IZR (z - 1) <= pred radix2 fexp64 (IZR z))%R) by (apply pred_ge_gt; [apply FLT_exp_valid; reflexivity|exact Y3|exact Z3|apply IZR_lt; lia]).
    assert (L2 : (pred radix2 fexp64 (IZR z) < IZR z)%R) by (apply pred_lt_id; apply not_0_IZR; lia).
    assert (L0 : (0 <= IZR (z - 1))%R) by (apply IZR_le; lia).
    rewrite Rlt_bool_true in H by (pose proof (bpow_gt_0 radix2 1024); lra). destruct H as [H1 [H2 _]]. split.
    + rewrite Bleb_correct by auto. rewrite V1, H1. destruct (Z.ltb_spec v z) as [Lv|Lv].
      * apply Rle_bool_true. eapply Rle_trans; [|exact L1]. apply IZR_le. lia.
      * apply Rle_bool_false. eapply Rlt_le_trans; [exact L2|]. apply IZR_le. lia.
    + apply eq_IZR. rewrite Btrunc_correct by apply emax1024. rewrite H1, round_FIX_IZR. f_equal. rewrite Ztrunc_floor by lra. apply Zfloor_imp. split; [exact L1|].
      replace (z - 1 + 1) with z by lia. exact L2.
  - rewrite Rlt_bool_false by (apply IZR_le; lia). rewrite Rlt_bool_true by (apply IZR_lt; exact Nz). destruct (f64_int (z + 1)) as [_ [_ Y3]]; [lia|].
    pose proof (Bsucc_correct _ _ _ _ (f64_of_Z z) Z2) as H. rewrite fexp_eq, Z1 in H.
    assert (L1 : (succ radix2 fexp64 (IZR z) <= IZR (z + 1))%R) by (apply succ_le_lt; [apply FLT_exp_valid; reflexivity|exact Z3|exact Y3|apply IZR_lt; lia]).
    assert (L2 : (IZR z < succ radix2 fexp64 (IZR z))%R) by (apply succ_gt_id; apply not_0_IZR; lia).
    assert (L0 : (IZR (z + 1) <= 0)%R) by (apply IZR_le; lia).
    assert (Lh : (succ radix2 fexp64 (IZR z) <= IZR z + / 2)%R).
    { apply succ_le_lt; [apply FLT_exp_valid; reflexivity|exact Z3| |lra]. apply generic_format_FLT. exists (Float radix2 (2 * z + 1) (-1)); [|change (Z.abs (2 * z + 1) < 2 ^ 53); lia|cbn; lia].
      unfold F2R. cbn [Fnum Fexp]. change (bpow radix2 (-1)) with (/ 2)%R. rewrite plus_IZR, mult_IZR. lra. }
    rewrite Rlt_bool_true in H by (pose proof (bpow_gt_0 radix2 1024); lra). destruct H as [H1 [H2 _]]. split.
    + rewrite Bleb_correct by auto. rewrite V1, H1. destruct (Z.leb_spec v z) as [Lv|Lv].
      * apply Rle_bool_true. eapply Rle_trans; [|apply Rlt_le; exact L2]. apply IZR_le. lia.
      * apply Rle_bool_false. apply Rle_lt_trans with (IZR z + / 2)%R; [exact Lh|]. apply Rlt_le_trans with (IZR (z + 1)); [rewrite plus_IZR; lra|apply IZR_le; lia].
    + apply eq_IZR. rewrite Btrunc_correct by apply emax1024. rewrite H1, round_FIX_IZR. f_equal. rewrite Ztrunc_ceil by lra. apply Zceil_imp. split; [|exact L1].
      replace (z + 1 - 1) with z by lia. exact L2.
  - assert (z = 0) by lia. subst z. rewrite !Rlt_bool_false by lra. split; [|reflexivity]. rewrite Bleb_correct by auto. rewrite V1, Z1. 
    destruct (Z.leb_spec v 0) as [Lv|Lv]; [apply Rle_bool_true; apply IZR_le; exact Lv|apply Rle_bool_false; apply IZR_lt; exact Lv].
Qed.
Print Assumptions C88_ieee.

(** A 5x5 raster, rim 9, interior 0: after FillDepressions(dem, epsilon=True) a pit remains. With negative elevations (not covered by the theorems above) cells are
    raised by whole units and the depression is removed. *)
Example C88_run : option_map (to_rows 5 5) (PriorityFloodEpsilon_int (fun n => n) (-9999) D8 5 5
    (of_rows [[9;9;9;9;9];[9;0;0;0;9];[9;0;0;0;9];[9;0;0;0;9];[9;9;9;9;9]]))
  = Some [[9;9;9;9;9];[9;8;7;6;9];[9;7;7;6;9];[9;6;6;6;9];[9;9;9;9;9]].
Proof. vm_compute. reflexivity. Qed.
Example C88_run_negative : option_map (to_rows 5 5) (PriorityFloodEpsilon_int (fun n => n) (-9999) D8 5 5
    (of_rows [[-5;-5;-5;-5;-5];[-5;-9;-9;-9;-5];[-5;-9;-9;-9;-5];[-5;-9;-9;-9;-5];[-5;-5;-5;-5;-5]]))
  = Some [[-5;-5;-5;-5;-5];[-5;-4;-3;-2;-5];[-5;-3;-3;-2;-5];[-5;-2;-2;-2;-5];[-5;-5;-5;-5;-5]].
Proof. vm_compute. reflexivity. Qed.
Definition eps0 : env := eps_env (fun n => n).
Definition obj8 : obj Empty_set := mkObj KRd 0 0 [3; 3] [3; 1] Int16 (Some (PInt (-1))) GNone EmptyString [].
Definition st8 : state (F eps0) (V eps0) := mkState [[9;9;9;9;1;9;9;7;5]] [obj8].
Example C88_raster8 : raster (E := eps0) st8 0 obj8 3 3 [9;9;9;9;1;9;9;7;5] (-1).
Proof.
  split; [reflexivity|]. split; [reflexivity|]. split; [discriminate|]. split; [lia|]. split; [lia|]. split; [reflexivity|]. split; [reflexivity|].
  split; [|reflexivity]. exists obj8. split; [reflexivity|]. split; [reflexivity|]. split; [reflexivity|].
  intros y x Hy Hx. assert (Cy : y = 0 \/ y = 1 \/ y = 2) by lia. assert (Cx : x = 0 \/ x = 1 \/ x = 2) by lia.
  destruct Cy as [->|[->| ->]]; destruct Cx as [->|[->| ->]]; reflexivity.
Qed.
Example C88_python_run : match PyModel.FillDepressions (E := eps0) 0 true false "D8" st8 with Ret (Some r) s => (r, s_mem s) | _ => (0%nat, []) end =
  (1%nat, [[9;9;9;9;1;9;9;7;5]; [9;9;9;9;4;9;9;7;5]]).
Proof. vm_compute. reflexivity. Qed.
