(** C64-C66: slope, aspect, curvature, stream power and wetness indices. *)
From Coq Require Import ZArith Reals List Lia Lra Bool Permutation.
From Verif Require Import Base RasterSpec RasterFacts AreaSpec TAModel TASpec TAProofs.
Import ListNotations.
Open Scope R_scope.

(** ** C64 *)
Lemma abs_pos g : g <> 0 -> 0 < Rabs g.
Proof. apply Rabs_pos_lt. Qed.
Section Gradient.
  Variables (w h : Z) (e : grid R) (nodata : grid bool) (zscale gt1 gt5 : R) (x y : Z).
  Notation t := (TerrainSetup w h e nodata zscale x y).
  Notation zz := (hz w h e nodata zscale x y).
  Lemma grad_eq : dzdx gt1 t = gx0 (Rabs gt1) zz /\ dzdy gt5 t = gy0 (Rabs gt5) zz.
  Proof.
    destruct (setup_vars w h e nodata zscale x y) as [Ea [Eb [Ec [Ed [Ee [Ef [Eg [Eh Ei]]]]]]]]. unfold dzdx, dzdy, lengthX, lengthY, gx0, gy0.
    rewrite Ea, Eb, Ec, Ed, Ef, Eg, Eh, Ei. split; reflexivity.
  Qed.
  Lemma misfit_ext z z' lx ly k gx gy c : (forall i j, (Z.abs i <= 1)%Z -> (Z.abs j <= 1)%Z -> z i j = z' i j) -> misfit lx ly z k gx gy c = misfit lx ly z' k gx gy c.
  Proof. intros E. unfold misfit. cbv zeta. rewrite !E by lia. reflexivity. Qed.
  Lemma best_iff gx gy : gt1 <> 0 -> gt5 <> 0 -> has_data w h nodata x y -> best_fit w h e nodata zscale (Rabs gt1) (Rabs gt5) x y gx gy <-> gx = dzdx gt1 t /\ gy = dzdy gt5 t.
  Proof.
    intros H1 H5 Hd. apply abs_pos in H1, H5. destruct grad_eq as [-> ->]. split.
    - intros [z [Hz B]]. destruct (B 0 ltac:(lra)) as [c Hc]. apply (misfit_unique (Rabs gt1) (Rabs gt5) zz 0 H1 H5 ltac:(lra) gx gy c).
      assert (X : forall i j, (Z.abs i <= 1)%Z -> (Z.abs j <= 1)%Z -> zz i j = z i j) by (intros i j Hi Hj; symmetry; apply heights_fun; assumption).
      rewrite !(misfit_ext zz z _ _ _ _ _ _ X). apply Hc.
    - intros [-> ->]. exists zz. split; [apply hz_heights; exact Hd|]. intros k Hk. exists (c0 zz k). intros gx' gy' c'. apply misfit_min; assumption.
  Qed.
End Gradient.

(** C64. At every cell with data, the slopes are those of the plane that fits the cell and its neighbours best: rise over run, in
    percent, and as angle. That plane exists and is unique. Cells without data hold the NoData value of the output. *)
Theorem C64_slope : forall w h e nodata zscale gt1 gt5 ond parts x y,
  gt1 <> 0 -> gt5 <> 0 -> Permutation (concat parts) (zrange 0 (Z.to_nat h)) -> in_raster w h x y ->
  (nodata x y = true -> TA_slope_riserun w h e nodata zscale gt1 gt5 ond parts x y = ond /\ TA_slope_percentage w h e nodata zscale gt1 gt5 ond parts x y = ond /\
     TA_slope_radians w h e nodata zscale gt1 gt5 ond parts x y = ond /\ TA_slope_degrees w h e nodata zscale gt1 gt5 ond parts x y = ond) /\
  (nodata x y = false -> exists gx gy s, best_fit w h e nodata zscale (Rabs gt1) (Rabs gt5) x y gx gy /\
     (forall gx' gy', best_fit w h e nodata zscale (Rabs gt1) (Rabs gt5) x y gx' gy' -> gx' = gx /\ gy' = gy) /\
     0 <= s /\ s * s = gx * gx + gy * gy /\
     TA_slope_riserun w h e nodata zscale gt1 gt5 ond parts x y = s /\
     TA_slope_percentage w h e nodata zscale gt1 gt5 ond parts x y = 100 * s /\
     0 <= TA_slope_radians w h e nodata zscale gt1 gt5 ond parts x y < PI / 2 /\ tan (TA_slope_radians w h e nodata zscale gt1 gt5 ond parts x y) = s /\
     TA_slope_degrees w h e nodata zscale gt1 gt5 ond parts x y = TA_slope_radians w h e nodata zscale gt1 gt5 ond parts x y / PI * 180).
Proof.
  intros w h e nodata zscale gt1 gt5 ond parts x y H1 H5 P I.
  unfold TA_slope_riserun, TA_slope_percentage, TA_slope_radians, TA_slope_degrees. rewrite !(processor_ok w h nodata _ ond parts x y P I).
  split; [intros ->; auto|]. intros N. rewrite N. set (t := TerrainSetup w h e nodata zscale x y).
  assert (Hd : has_data w h nodata x y) by (split; assumption).
  exists (dzdx gt1 t), (dzdy gt5 t), (Terrain_Slope_RiseRun w h e nodata zscale gt1 gt5 x y). split; [apply best_iff; auto|]. split; [intros gx' gy' B; apply best_iff in B; auto|].
  unfold Terrain_Slope_Percent, Terrain_Slope_Radian, Terrain_Slope_Degree. fold t. set (s := Terrain_Slope_RiseRun w h e nodata zscale gt1 gt5 x y).
  assert (S0 : 0 <= s) by apply sqrt_pos. split; [exact S0|]. split.
  { unfold s, Terrain_Slope_RiseRun. fold t. apply sqrt_sqrt. pose proof (sq_nonneg (dzdx gt1 t)). pose proof (sq_nonneg (dzdy gt5 t)). lra. }
  split; [reflexivity|]. split; [ring|]. pose proof (atan_bound s). split.
  { split; [|lra]. destruct (Rle_lt_or_eq_dec 0 s S0) as [L|L]; [left; rewrite <- atan_0; apply atan_increasing; exact L|rewrite <- L, atan_0; lra]. }
  split; [apply tan_atan|]. field. pose proof PI_RGT_0. lra.
Qed.
Print Assumptions C64_slope.

(** The aspect is the compass bearing in which the best plane falls. *)
Theorem C64_aspect : forall w h e nodata zscale gt1 gt5 ond parts x y gx gy,
  gt1 <> 0 -> gt5 <> 0 -> Permutation (concat parts) (zrange 0 (Z.to_nat h)) -> has_data w h nodata x y ->
  best_fit w h e nodata zscale (Rabs gt1) (Rabs gt5) x y gx gy ->
  (gx <> 0 \/ gy <> 0 -> bearing (TA_aspect w h e nodata zscale gt1 gt5 ond parts x y) (- gx) gy /\
     forall theta, bearing theta (- gx) gy -> theta = TA_aspect w h e nodata zscale gt1 gt5 ond parts x y) /\
  (gx = 0 /\ gy = 0 -> TA_aspect w h e nodata zscale gt1 gt5 ond parts x y = 270).
Proof.
  intros w h e nodata zscale gt1 gt5 ond parts x y gx gy H1 H5 P Hd B. apply best_iff in B; auto. destruct B as [Ex Ey].
  unfold TA_aspect. rewrite (processor_ok w h nodata _ ond parts x y P (proj1 Hd)), (proj2 Hd).
  change (Terrain_Aspect w h e nodata zscale gt1 gt5 x y) with (to_bearing (atan2 (dzdy gt5 (TerrainSetup w h e nodata zscale x y)) (- dzdx gt1 (TerrainSetup w h e nodata zscale x y)))).
  rewrite <- Ex, <- Ey. split.
  - intros N. assert (K : bearing (to_bearing (atan2 gy (- gx))) (- gx) gy) by (apply to_bearing_ok; destruct N as [N|N]; [right; lra|left; exact N]).
    split; [exact K|]. intros theta T. eapply bearing_unique; eauto.
  - intros [-> ->]. unfold atan2. destruct (Rlt_dec 0 (- 0)); [lra|]. destruct (Rlt_dec (- 0) 0); [lra|]. destruct (Rlt_dec 0 0); [lra|].
    pose proof PI_RGT_0. unfold to_bearing. replace (180 / PI * PI) with 180 by (field; lra). destruct (Rlt_dec 180 0); [lra|]. destruct (Rgt_dec 180 90); lra.
Qed.
Print Assumptions C64_aspect.
(** The documentation promises -1 for flat surfaces. *)
Theorem C64_flat_aspect_refuted : ~ (forall w h e nodata zscale gt1 gt5 ond parts x y,
  gt1 <> 0 -> gt5 <> 0 -> Permutation (concat parts) (zrange 0 (Z.to_nat h)) -> has_data w h nodata x y ->
  best_fit w h e nodata zscale (Rabs gt1) (Rabs gt5) x y 0 0 -> TA_aspect w h e nodata zscale gt1 gt5 ond parts x y = -1).
Proof.
  intros C. assert (Hd : has_data 1 1 (fun _ _ => false) 0 0) by (split; [unfold in_raster; lia|reflexivity]).
  assert (B : best_fit 1 1 (fun _ _ => 7) (fun _ _ => false) 1 (Rabs 1) (Rabs 1) 0 0 0 0).
  { apply best_iff; [lra|lra|exact Hd|]. unfold dzdx, dzdy, TerrainSetup, look. cbn. unfold lengthX, lengthY. rewrite Rabs_R1. split; field. }
  pose proof (C 1%Z 1%Z (fun _ _ => 7) (fun _ _ => false) 1 1 1 (-1) [[0%Z]] 0%Z 0%Z ltac:(lra) ltac:(lra) (Permutation_refl _) Hd B) as X.
  destruct (C64_aspect 1 1 (fun _ _ => 7) (fun _ _ => false) 1 1 1 (-1) [[0%Z]] 0 0 0 0 ltac:(lra) ltac:(lra) (Permutation_refl _) Hd B) as [_ Y]. rewrite Y in X by auto. lra.
Qed.
Print Assumptions C64_flat_aspect_refuted.

(** Hypotheses met, not trivially: the 3 x 3 raster rising 3 per column to the east and 4 per row to the north with square cells:
    slope 5. *)
Example C64_met : best_fit 3 3 (fun x y => 3 * IZR x - 4 * IZR y) (fun _ _ => false) 1 (Rabs 1) (Rabs (-1)) 1 1 3 (-4) /\
  TA_slope_riserun 3 3 (fun x y => 3 * IZR x - 4 * IZR y) (fun _ _ => false) 1 1 (-1) (-9) [[2; 0]; [1]]%Z 1%Z 1%Z = 5.
Proof.
  assert (Hd : has_data 3 3 (fun _ _ => false) 1 1) by (split; [unfold in_raster; lia|reflexivity]).
  assert (P : Permutation (concat [[2; 0]; [1]]%Z) (zrange 0 (Z.to_nat 3))) by (cbn; apply Permutation_trans with [0; 2; 1]%Z; [apply perm_swap|apply perm_skip, perm_swap]).
  assert (B : best_fit 3 3 (fun x y => 3 * IZR x - 4 * IZR y) (fun _ _ => false) 1 (Rabs 1) (Rabs (-1)) 1 1 3 (-4)).
  { apply best_iff; [lra|lra|exact Hd|]. unfold dzdx, dzdy, TerrainSetup, look. cbn. unfold lengthX, lengthY. rewrite Rabs_R1, Rabs_left by lra. split; field. }
  split; [exact B|]. destruct (C64_slope 3 3 (fun x y => 3 * IZR x - 4 * IZR y) (fun _ _ => false) 1 1 (-1) (-9) [[2; 0]; [1]]%Z 1 1 ltac:(lra) ltac:(lra) P (proj1 Hd)) as [_ X].
  destruct (X eq_refl) as [gx [gy [s [_ [U [S0 [S2 [S3 _]]]]]]]]. destruct (U 3 (-4) B) as [<- <-]. rewrite S3. assert (Y : (s - 5) * (s + 5) = 0) by lra. apply Rmult_integral in Y. lra.
Qed.

(** ** C65 *)
(** C65. Square cells: take the polynomial of Zevenbergen and Thorne through the nine heights. The curvature is -100 times the sum of the
    second derivatives east and north; where the surface is inclined, the profile curvature is 100 times the second derivative
    up the slope, and the planform curvature -100 times that along the contour; where it is level, both are 0. *)
Theorem C65_curvature : forall w h e nodata zscale gt1 gt5 ond parts x y,
  gt1 <> 0 -> Rabs gt5 = Rabs gt1 -> Permutation (concat parts) (zrange 0 (Z.to_nat h)) -> in_raster w h x y ->
  (nodata x y = true -> TA_curvature w h e nodata zscale gt1 ond parts x y = ond /\ TA_profile_curvature w h e nodata zscale gt1 ond parts x y = ond /\ TA_planform_curvature w h e nodata zscale gt1 ond parts x y = ond) /\
  (nodata x y = false -> (exists p, through w h e nodata zscale (Rabs gt1) (Rabs gt5) x y p) /\
   forall p, through w h e nodata zscale (Rabs gt1) (Rabs gt5) x y p ->
     (exists s1 r1 s2 r2, bends (fun t => peval p t 0) s1 r1 /\ bends (fun t => peval p 0 t) s2 r2 /\ TA_curvature w h e nodata zscale gt1 ond parts x y = -100 * (r1 + r2) /\
       (s1 = 0 /\ s2 = 0 -> TA_profile_curvature w h e nodata zscale gt1 ond parts x y = 0 /\ TA_planform_curvature w h e nodata zscale gt1 ond parts x y = 0) /\
       (forall u v s, unit_vector u v -> 0 < s -> s1 = s * u -> s2 = s * v ->
          bends (fun t => peval p (t * u) (t * v)) s (TA_profile_curvature w h e nodata zscale gt1 ond parts x y / 100) /\
          bends (fun t => peval p (- t * v) (t * u)) 0 (- TA_planform_curvature w h e nodata zscale gt1 ond parts x y / 100)) /\
       (s1 <> 0 \/ s2 <> 0 -> TA_curvature w h e nodata zscale gt1 ond parts x y = TA_planform_curvature w h e nodata zscale gt1 ond parts x y - TA_profile_curvature w h e nodata zscale gt1 ond parts x y))).
Proof.
  intros w h e nodata zscale gt1 gt5 ond parts x y H1 Sq P I. apply abs_pos in H1.
  unfold TA_curvature, TA_profile_curvature, TA_planform_curvature. rewrite !(processor_ok w h nodata _ ond parts x y P I).
  split; [intros ->; auto|]. intros N. rewrite N. assert (Hd : has_data w h nodata x y) by (split; assumption).
  split; [apply through_exists; auto|]. intros p T. destruct (through_coef w h e nodata zscale gt1 gt5 x y H1 Sq Hd p T) as [ED [EE [EF [EG EH]]]].
  unfold Terrain_Curvature, Terrain_Profile_Curvature, Terrain_Planform_Curvature. set (q := TerrainCurvatureSetup w h e nodata zscale gt1 x y) in *. rewrite <- ED, <- EE, <- EF, <- EG, <- EH. clear q ED EE EF EG EH T.
  exists (pG p), (2 * pD p), (pH p), (2 * pE p).
  split. { apply bends_quartic with (pI p) 0 0. intros t. unfold peval. field. }
  split. { apply bends_quartic with (pI p) 0 0. intros t. unfold peval. field. }
  split; [ring|].
  assert (PROF : forall Q : R -> Prop, (pG p = 0 /\ pH p = 0 -> Q 0) -> (pG p <> 0 \/ pH p <> 0 -> Q (2 * (pD p * pG p * pG p + pE p * pH p * pH p + pF p * pG p * pH p) / (pG p * pG p + pH p * pH p) * 100)) ->
    Q (if Req_EM_T (pG p) 0 then if Req_EM_T (pH p) 0 then 0 else 2 * (pD p * pG p * pG p + pE p * pH p * pH p + pF p * pG p * pH p) / (pG p * pG p + pH p * pH p) * 100 else 2 * (pD p * pG p * pG p + pE p * pH p * pH p + pF p * pG p * pH p) / (pG p * pG p + pH p * pH p) * 100)).
  { intros Q A B. destruct (Req_EM_T (pG p) 0); [destruct (Req_EM_T (pH p) 0)|]; auto. }
  assert (PLAN : forall Q : R -> Prop, (pG p = 0 /\ pH p = 0 -> Q 0) -> (pG p <> 0 \/ pH p <> 0 -> Q (-2 * (pD p * pH p * pH p + pE p * pG p * pG p - pF p * pG p * pH p) / (pG p * pG p + pH p * pH p) * 100)) ->
    Q (if Req_EM_T (pG p) 0 then if Req_EM_T (pH p) 0 then 0 else -2 * (pD p * pH p * pH p + pE p * pG p * pG p - pF p * pG p * pH p) / (pG p * pG p + pH p * pH p) * 100 else -2 * (pD p * pH p * pH p + pE p * pG p * pG p - pF p * pG p * pH p) / (pG p * pG p + pH p * pH p) * 100)).
  { intros Q A B. destruct (Req_EM_T (pG p) 0); [destruct (Req_EM_T (pH p) 0)|]; auto. }
  assert (NZ : pG p <> 0 \/ pH p <> 0 -> pG p * pG p + pH p * pH p <> 0).
  { intros Q X. pose proof (sq_nonneg (pG p)). pose proof (sq_nonneg (pH p)). assert (A : pG p * pG p = 0) by lra. assert (B : pH p * pH p = 0) by lra. apply Rmult_integral in A, B. lra. }
  split; [|split].
  - intros [-> ->]. destruct (Req_EM_T 0 0) as [_|X]; [auto|lra].
  - intros u v s U Hs G H. unfold unit_vector in U.
    assert (D : pG p <> 0 \/ pH p <> 0).
    { destruct (Req_EM_T (pG p) 0) as [X|X]; [|auto]. right. intros Y. rewrite G in X. rewrite H in Y. apply Rmult_integral in X, Y. assert (u = 0) by lra. assert (v = 0) by lra. subst. lra. }
    assert (SS : pG p * pG p + pH p * pH p = s * s) by (rewrite G, H; replace (s * u * (s * u) + s * v * (s * v)) with (s * s * (u * u + v * v)) by ring; rewrite U; ring).
    split; [apply PROF; [lra|]|apply PLAN; [lra|]]; intros _; rewrite SS.
    + apply bends_quartic with (pI p) (pB p * u ^ 2 * v + pC p * u * v ^ 2) (pA p * u ^ 2 * v ^ 2). intros t. unfold peval. rewrite G, H.
      replace (s * t) with (s * (u * u + v * v) * t) by (rewrite U; ring). field. lra.
    + apply bends_quartic with (pI p) (pB p * v ^ 2 * u - pC p * v * u ^ 2) (pA p * u ^ 2 * v ^ 2). intros t. unfold peval. rewrite G, H. field. lra.
  - intros D. assert (X := NZ D). destruct (Req_EM_T (pG p) 0) as [Z|Z]; [destruct (Req_EM_T (pH p) 0) as [Z'|Z']|]; [exfalso; lra|field; exact X|field; exact X].
Qed.
Print Assumptions C65_curvature.
(** Examples for the refutations: a 3 x 3 raster, one part *)
Lemma rows3 : Permutation (concat [[0; 1; 2]]%Z) (zrange 0 (Z.to_nat 3)).
Proof. apply Permutation_refl. Qed.
Lemma centre3 : in_raster 3 3 1 1.
Proof. unfold in_raster; lia. Qed.
(** The documentation: curvature is the difference of planform and profile curvature. Not on a peak. *)
Theorem C65_peak_refuted : ~ (forall w h e nodata zscale gt1 gt5 ond parts x y,
  gt1 <> 0 -> Rabs gt5 = Rabs gt1 -> Permutation (concat parts) (zrange 0 (Z.to_nat h)) -> has_data w h nodata x y ->
  TA_curvature w h e nodata zscale gt1 ond parts x y = TA_planform_curvature w h e nodata zscale gt1 ond parts x y - TA_profile_curvature w h e nodata zscale gt1 ond parts x y).
Proof.
  intros C. specialize (C 3%Z 3%Z (fun x y => if ((x =? 1) && (y =? 1))%Z then 1 else 0) (fun _ _ => false) 1 1 1 (-1) [[0; 1; 2]]%Z 1%Z 1%Z ltac:(lra) eq_refl rows3 (conj centre3 eq_refl)).
  unfold TA_curvature, TA_profile_curvature, TA_planform_curvature in C. rewrite !(processor_ok 3 3 _ _ _ _ 1 1 rows3 centre3) in C.
  unfold Terrain_Curvature, Terrain_Planform_Curvature, Terrain_Profile_Curvature, TerrainCurvatureSetup, TerrainSetup, look in C. cbn in C. unfold lengthX in C. rewrite Rabs_R1 in C.
  repeat match goal with H : context [Req_EM_T ?a ?b] |- _ => destruct (Req_EM_T a b) as [?|N]; [|exfalso; apply N; field] end. field_simplify in C. lra.
Qed.
Print Assumptions C65_peak_refuted.
(** With the default NoData value -1 of the output, a data cell's curvature can be taken for NoData. *)
Theorem C65_nodata_refuted : ~ (forall w h e nodata zscale gt1 gt5 parts x y,
  gt1 <> 0 -> Rabs gt5 = Rabs gt1 -> Permutation (concat parts) (zrange 0 (Z.to_nat h)) -> has_data w h nodata x y ->
  TA_curvature w h e nodata zscale gt1 (-1) parts x y <> -1).
Proof.
  intros C. apply (C 3%Z 3%Z (fun x y => if ((x =? 2) && (y =? 1))%Z then / 100 else 0) (fun _ _ => false) 1 1 1 [[0; 1; 2]]%Z 1%Z 1%Z ltac:(lra) eq_refl rows3 (conj centre3 eq_refl)).
  unfold TA_curvature. rewrite !(processor_ok 3 3 _ _ _ _ 1 1 rows3 centre3).
  unfold Terrain_Curvature, TerrainCurvatureSetup, TerrainSetup, look. cbn. unfold lengthX. rewrite Rabs_R1. field.
Qed.
Print Assumptions C65_nodata_refuted.
(** Slope and aspect are never negative, so that -1 marks exactly the cells without data. *)
Theorem C64_nodata : forall w h e nodata zscale gt1 gt5 ond parts x y,
  gt1 <> 0 -> gt5 <> 0 -> Permutation (concat parts) (zrange 0 (Z.to_nat h)) -> in_raster w h x y -> ond < 0 ->
  (TA_slope_riserun w h e nodata zscale gt1 gt5 ond parts x y = ond <-> nodata x y = true) /\
  (TA_aspect w h e nodata zscale gt1 gt5 ond parts x y = ond <-> nodata x y = true).
Proof.
  intros w h e nodata zscale gt1 gt5 ond parts x y H1 H5 P I O. destruct (C64_slope w h e nodata zscale gt1 gt5 ond parts x y H1 H5 P I) as [A B]. split.
  - split; [|intros N; apply A; exact N]. intros E. destruct (nodata x y) eqn:N; [reflexivity|]. destruct (B eq_refl) as [gx [gy [s [_ [_ [S0 [_ [S _]]]]]]]]. lra.
  - split; [|intros N; unfold TA_aspect; rewrite (processor_ok w h nodata _ ond parts x y P I), N; reflexivity]. intros E. destruct (nodata x y) eqn:N; [reflexivity|].
    destruct (B eq_refl) as [gx [gy [s [F _]]]]. destruct (C64_aspect w h e nodata zscale gt1 gt5 ond parts x y gx gy H1 H5 P (conj I N) F) as [U V].
    destruct (Req_EM_T gx 0) as [Zx|Zx]; [destruct (Req_EM_T gy 0) as [Zy|Zy]|].
    + rewrite (V (conj Zx Zy)) in E. lra.
    + destruct (U (or_intror Zy)) as [[K _] _]. lra.
    + destruct (U (or_introl Zx)) as [[K _] _]. lra.
Qed.
Print Assumptions C64_nodata.
(** With rectangular cells (the program warns) the second derivative to the north is wrong. *)
Theorem C65_rectangular_refuted : ~ (forall w h e nodata zscale gt1 gt5 ond parts x y p s1 r1 s2 r2,
  gt1 <> 0 -> gt5 <> 0 -> Permutation (concat parts) (zrange 0 (Z.to_nat h)) -> has_data w h nodata x y ->
  through w h e nodata zscale (Rabs gt1) (Rabs gt5) x y p -> bends (fun t => peval p t 0) s1 r1 -> bends (fun t => peval p 0 t) s2 r2 ->
  TA_curvature w h e nodata zscale gt1 ond parts x y = -100 * (r1 + r2)).
Proof.
  intros C. specialize (C 3%Z 3%Z (fun x y => if (y =? 1)%Z then 0 else 4) (fun _ _ => false) 1 1 2 (-1) [[0; 1; 2]]%Z 1%Z 1%Z (mkPoly 0 0 0 0 1 0 0 0 0) 0 0 0 2 ltac:(lra) ltac:(lra) rows3 (conj centre3 eq_refl)).
  assert (X : TA_curvature 3 3 (fun x y => if (y =? 1)%Z then 0 else 4) (fun _ _ => false) 1 1 (-1) [[0; 1; 2]]%Z 1%Z 1%Z = -800).
  { unfold TA_curvature. rewrite !(processor_ok 3 3 _ _ _ _ 1 1 rows3 centre3). unfold Terrain_Curvature, TerrainCurvatureSetup, TerrainSetup, look. cbn. unfold lengthX. rewrite Rabs_R1. field. }
  rewrite X in C. assert (Y : -800 = -100 * (0 + 2)); [|lra]. apply C.
  - exists (hz 3 3 (fun x y => if (y =? 1)%Z then 0 else 4) (fun _ _ => false) 1 1 1). split; [apply hz_heights; split; [apply centre3|reflexivity]|].
    intros i j Hi Hj. rewrite Rabs_R1, Rabs_right by lra.
    assert (i = -1 \/ i = 0 \/ i = 1)%Z as [-> | [-> | ->]] by lia; assert (j = -1 \/ j = 0 \/ j = 1)%Z as [-> | [-> | ->]] by lia; unfold peval, hz, look; cbn; ring.
  - apply bends_quartic with 0 0 0. intros t. unfold peval. cbn [pA pB pC pD pE pF pG pH pI]. field.
  - apply bends_quartic with 0 0 0. intros t. unfold peval. cbn [pA pB pC pD pE pF pG pH pI]. field.
Qed.
Print Assumptions C65_rectangular_refuted.

(** ** C66 *)
Lemma index_ok (f : R -> R -> R) w h acc slope a0 s0 order : Permutation order (cells w h) ->
  exists out, index_loop w h w h acc slope a0 s0 f order = Some out /\ forall x y, in_raster w h x y ->
    (acc x y = a0 \/ slope x y = s0 -> out x y = -1) /\ (acc x y <> a0 -> slope x y <> s0 -> out x y = f (acc x y) (slope x y)).
Proof.
  intros P. unfold index_loop. rewrite !Z.eqb_refl. cbn [negb orb]. eexists. split; [reflexivity|]. intros x y I.
  set (v := fun x y => if Req_EM_T (acc x y) a0 then -1 else if Req_EM_T (slope x y) s0 then -1 else f (acc x y) (slope x y)).
  pose proof (cells_fold (fun _ _ => false) v 0 order (fun _ _ => 0) x y) as E. unfold val in E. cbn [fst snd] in E.
  assert (J : In (x, y) order) by (eapply Permutation_in; [symmetry; exact P|]; apply cells_In; exact I).
  destruct (in_dec _ (x, y) order) as [_|N] in E; [|contradiction]. unfold v in E at 2.
  change (fold_left _ order (fun _ _ => 0) x y) with (fold_left (fun (out : grid R) c => gset out (fst c) (snd c) (v (fst c) (snd c))) order (fun _ _ => 0) x y). rewrite E.
  destruct (Req_EM_T (acc x y) a0), (Req_EM_T (slope x y) s0); split; try tauto.
Qed.
(** C66. Stream power index: the logarithm of specific area times (slope + 0.001); wetness index: of their quotient. A cell is NoData (-1)
    if one of the inputs is. Rasters of different size are refused. *)
Theorem C66_indices : forall w h acc slope a0 s0 area order, 0 < area -> Permutation order (cells w h) ->
  exists spi cti, TA_SPI w h w h acc slope a0 s0 area order = Some spi /\ TA_CTI w h w h acc slope a0 s0 area order = Some cti /\
  forall x y, in_raster w h x y ->
    (acc x y = a0 \/ slope x y = s0 -> spi x y = -1 /\ cti x y = -1) /\
    (acc x y <> a0 -> slope x y <> s0 -> 0 < acc x y -> 0 <= slope x y ->
       exp (spi x y) = acc x y / area * (slope x y + / 1000) /\ exp (cti x y) = acc x y / area / (slope x y + / 1000)).
Proof.
  intros w h acc slope a0 s0 area order HA P. unfold TA_SPI, TA_CTI.
  destruct (index_ok (fun a s => ln (a / area * (s + / 1000))) w h acc slope a0 s0 order P) as [spi [E1 S1]].
  destruct (index_ok (fun a s => ln (a / area / (s + / 1000))) w h acc slope a0 s0 order P) as [cti [E2 S2]].
  exists spi, cti. split; [exact E1|]. split; [exact E2|]. intros x y I. destruct (S1 x y I) as [A1 B1], (S2 x y I) as [A2 B2]. split; [auto|].
  intros N1 N2 PA PS. rewrite (B1 N1 N2), (B2 N1 N2). assert (Q : 0 < acc x y / area) by (apply Rdiv_lt_0_compat; assumption).
  split; apply exp_ln; [apply Rmult_lt_0_compat|apply Rdiv_lt_0_compat]; lra.
Qed.
Print Assumptions C66_indices.
(** They grow with the area; the power grows and the wetness falls with the slope. *)
Theorem C66_monotone : forall w h acc slope a0 s0 area order spi cti x y x' y', 0 < area -> Permutation order (cells w h) ->
  TA_SPI w h w h acc slope a0 s0 area order = Some spi -> TA_CTI w h w h acc slope a0 s0 area order = Some cti ->
  in_raster w h x y -> in_raster w h x' y' -> acc x y <> a0 -> acc x' y' <> a0 -> slope x y <> s0 -> slope x' y' <> s0 ->
  0 < acc x y -> 0 <= slope x y ->
  acc x y <= acc x' y' ->
  (slope x y <= slope x' y' -> spi x y <= spi x' y') /\ (0 <= slope x' y' <= slope x y -> cti x y <= cti x' y').
Proof.
  intros w h acc slope a0 s0 area order spi cti x y x' y' HA P E1 E2 I I' N1 N1' N2 N2' PA PS LA.
  destruct (C66_indices w h acc slope a0 s0 area order HA P) as [spi' [cti' [F1 [F2 S]]]]. rewrite E1 in F1. rewrite E2 in F2. injection F1 as <-. injection F2 as <-.
  destruct (proj2 (S x y I) N1 N2 PA PS) as [X1 X2].
  assert (MON : forall a b, exp a <= exp b -> a <= b) by (intros a b [L|L]; [left; apply exp_lt_inv; exact L|right; apply exp_inv; exact L]).
  assert (Q : 0 < acc x y / area) by (apply Rdiv_lt_0_compat; assumption).
  assert (Q' : acc x y / area <= acc x' y' / area) by (apply Rmult_le_compat_r; [left; apply Rinv_0_lt_compat; exact HA|exact LA]).
  split; intros LS; destruct (proj2 (S x' y' I') N1' N2' ltac:(lra) ltac:(lra)) as [Y1 Y2]; apply MON.
  - rewrite X1, Y1. apply Rmult_le_compat; lra.
  - rewrite X2, Y2. unfold Rdiv at 1 3. apply Rmult_le_compat; [lra|left; apply Rinv_0_lt_compat; lra|exact Q'|apply Rinv_le_contravar; lra].
Qed.
Print Assumptions C66_monotone.
Theorem C66_sizes : forall w h w' h' acc slope a0 s0 area order, w <> w' \/ h <> h' ->
  TA_SPI w h w' h' acc slope a0 s0 area order = None /\ TA_CTI w h w' h' acc slope a0 s0 area order = None.
Proof.
  intros w h w' h' acc slope a0 s0 area order D. unfold TA_SPI, TA_CTI, index_loop.
  assert (E : negb (w =? w')%Z || negb (h =? h')%Z = true) by (apply orb_true_iff; rewrite !negb_true_iff, !Z.eqb_neq; exact D). rewrite E. auto.
Qed.
Print Assumptions C66_sizes.
(** "Log(x) can't take this value of real inputs" (the NoData value -1): it can. *)
Theorem C66_nodata_refuted : ~ (forall w h acc slope a0 s0 area order spi x y, 0 < area -> Permutation order (cells w h) ->
  TA_SPI w h w h acc slope a0 s0 area order = Some spi -> in_raster w h x y -> acc x y <> a0 -> slope x y <> s0 -> 0 < acc x y -> 0 <= slope x y -> spi x y <> -1).
Proof.
  intros C. set (s := exp (-1) - / 1000).
  assert (B : / 1000 < exp (-1)).
  { assert (X : exp 1 <= 3) by apply exp_le_3. replace (-1) with (Ropp 1) by lra. rewrite exp_Ropp. assert (0 < exp 1) by apply exp_pos. apply Rinv_lt_contravar; [|lra]. apply Rmult_lt_0_compat; lra. }
  destruct (C66_indices 1 1 (fun _ _ => 1) (fun _ _ => s) (-1) (-1) 1 (cells 1 1) ltac:(lra) (Permutation_refl _)) as [spi [cti [E1 [E2 S]]]].
  assert (I : in_raster 1 1 0 0) by (unfold in_raster; lia).
  assert (N : s <> -1) by (unfold s; lra). assert (P : 0 <= s) by (unfold s; lra).
  apply (C 1%Z 1%Z (fun _ _ => 1) (fun _ _ => s) (-1) (-1) 1 (cells 1 1) spi 0%Z 0%Z ltac:(lra) (Permutation_refl _) E1 I ltac:(lra) N ltac:(lra) P).
  destruct (proj2 (S 0%Z 0%Z I) ltac:(lra) N ltac:(lra) P) as [X _]. apply exp_inv. rewrite X. unfold s. field.
Qed.
Print Assumptions C66_nodata_refuted.
