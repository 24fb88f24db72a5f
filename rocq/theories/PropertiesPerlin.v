(** C92: Perlin terrain. *)
From Coq Require Import ZArith List Lia Bool Reals Lra Permutation.
From Flocq Require Import Core BinarySingleNaN.
From Verif Require Import Base Res FAFModel FAFNum PropertiesEpsInt GDALProofs PerlinModel.
Open Scope Z_scope.
Open Scope list_scope.

(** what the shuffle makes: each of 0..255 once *)
Definition is_perm (perm : list Z) : Prop := length perm = 256%nat /\ forall v, In v perm -> 0 <= v < 256.

Lemma rd_table perm i : is_perm perm -> 0 <= i < 512 -> exists v, rd (table perm) i = Ok v /\ 0 <= v < 256.
Proof.
  intros [L P] Hi. destruct (rd_in (table perm) i) as (v & E1 & E2); [unfold table; rewrite app_length, L; lia|].
  exists v. split; [exact E1|]. apply P. unfold ix in E2. destruct (Z.ltb_spec i 0); [lia|]. apply nth_error_In in E2. unfold table in E2. apply in_app_or in E2. tauto.
Qed.
Lemma land255 z : 0 <= Z.land z 255 < 256.
Proof. change 255 with (Z.ones 8). rewrite Z.land_ones by lia. change 256 with (2 ^ 8). apply Z.mod_pos_bound. lia. Qed.

Ltac reads Pm := repeat match goal with |- context [rd (table ?p) ?i] =>
   let v := fresh "v" in let E := fresh "E" in let B := fresh "B" in destruct (rd_table p i Pm) as (v & E & B); [lia|]; rewrite E; cbn [bind]; clear E end.

Section Any.
  Variable A : arith.
  (** a height is [shape] of the coordinates in the unit cube and eight table values *)
  Definition shape (x y z : num A) (h1 h2 h3 h4 h5 h6 h7 h8 : Z) : num A :=
    let u := fade A x in let v := fade A y in let w := fade A z in
    let x1 := sub A x (ofint A 1) in let y1 := sub A y (ofint A 1) in let z1 := sub A z (ofint A 1) in
    quo A (add A (lerp A w (lerp A v (lerp A u (grad A h1 x y z) (grad A h2 x1 y z)) (lerp A u (grad A h3 x y1 z) (grad A h4 x1 y1 z)))
                    (lerp A v (lerp A u (grad A h5 x y z1) (grad A h6 x1 y z1)) (lerp A u (grad A h7 x y1 z1) (grad A h8 x1 y1 z1)))) (ofint A 1)) (ofint A 2).
  Lemma noise_shape perm x y z ix iy iz : is_perm perm -> toint A (flr A x) = Ok ix -> toint A (flr A y) = Ok iy -> toint A (flr A z) = Ok iz ->
    exists h1 h2 h3 h4 h5 h6 h7 h8, noise A (table perm) x y z = Ok (shape (sub A x (flr A x)) (sub A y (flr A y)) (sub A z (flr A z)) h1 h2 h3 h4 h5 h6 h7 h8).
  Proof.
    intros Pm X Y Z. unfold noise. rewrite X, Y, Z. cbn [bind]. pose proof (land255 ix). pose proof (land255 iy). pose proof (land255 iz).
    set (a := Z.land ix 255) in *. set (b := Z.land iy 255) in *. set (c := Z.land iz 255) in *. cbv zeta. reads Pm. do 8 eexists. reflexivity.
  Qed.

  Lemma row_ok (f : Z -> res (num A)) y l : (forall x, In x l -> exists v, f x = Ok v) -> NoDup l -> forall g,
    exists g', forM l (fun x arr => do v <- f x; Ok (gset arr x y v)) g = Ok g' /\ (forall x, In x l -> f x = Ok (g' x y)) /\ (forall x b, ~ (In x l /\ b = y) -> g' x b = g x b).
  Proof.
    induction l as [|x0 l IH]; intros Hf ND g; cbn [forM].
    - exists g. split; [reflexivity|]. split; [intros x []|reflexivity].
    - inversion ND as [|? ? N1 N2]; subst. destruct (Hf x0 (or_introl eq_refl)) as [v0 E0]. rewrite E0. cbn [bind].
      destruct (IH (fun x H => Hf x (or_intror H)) N2 (gset g x0 y v0)) as (g' & G1 & G2 & G3). exists g'. split; [exact G1|]. split.
      + intros x [<-|Hx]; [|apply G2; exact Hx]. rewrite E0. f_equal. rewrite G3 by tauto. unfold gset. rewrite !Z.eqb_refl. reflexivity.
      + intros x b N. rewrite G3 by (intros [K ->]; apply N; split; [right; exact K|reflexivity]). unfold gset.
        destruct (Z.eqb_spec x x0); [|reflexivity]. destruct (Z.eqb_spec b y); [|reflexivity]. subst. exfalso. apply N. split; [left; reflexivity|reflexivity].
  Qed.
  Lemma rows_ok (f : Z -> Z -> res (num A)) lx l : (forall x y, In x lx -> In y l -> exists v, f x y = Ok v) -> NoDup lx -> NoDup l -> forall g,
    exists g', forM l (fun y arr => forM lx (fun x arr => do v <- f x y; Ok (gset arr x y v)) arr) g = Ok g' /\
      (forall x y, In x lx -> In y l -> f x y = Ok (g' x y)) /\ (forall x y, ~ (In x lx /\ In y l) -> g' x y = g x y).
  Proof.
    induction l as [|y0 l IH]; intros Hf NX ND g; cbn [forM].
    - exists g. split; [reflexivity|]. split; [intros x y _ []|reflexivity].
    - inversion ND as [|? ? N1 N2]; subst. destruct (row_ok (fun x => f x y0) y0 lx (fun x H => Hf x y0 H (or_introl eq_refl)) NX g) as (g1 & R1 & R2 & R3). cbv beta in R1. rewrite R1. cbn [bind].
      destruct (IH (fun x y H K => Hf x y H (or_intror K)) NX N2 g1) as (g' & G1 & G2 & G3). exists g'. split; [exact G1|]. split.
      + intros x y Hx [<-|Hy]; [|apply G2; assumption]. rewrite (R2 x Hx). rewrite G3 by tauto. reflexivity.
      + intros x y N. rewrite G3 by (intros [K1 K2]; apply N; split; [exact K1|right; exact K2]). apply R3. intros [K1 ->]. apply N. split; [exact K1|left; reflexivity].
  Qed.
End Any.
Lemma zrange_nodup a n : NoDup (zrange a n).
Proof. revert a. induction n as [|n IH]; intros a; cbn; constructor; [|apply IH]. intros H. apply zrange_In in H. lia. Qed.

(** ** Intervals of doubles *)
Definition within (a b : Z) (x : float64) : Prop := is_finite x = true /\ (IZR a <= B2R x <= IZR b)%R.
Definition rnd (x : R) : R := round radix2 (FLT_exp (-1074) 53) ZnearestE x.
Lemma big_int a : Z.abs a <= 2 ^ 53 -> generic_format radix2 (FLT_exp (-1074) 53) (IZR a).
Proof. intros H. exact (proj2 (proj2 (f64_int a H))). Qed.
Lemma rnd_within a b x : Z.abs a <= 2 ^ 53 -> Z.abs b <= 2 ^ 53 -> (IZR a <= x <= IZR b)%R -> (IZR a <= rnd x <= IZR b)%R /\ (Rabs (rnd x) < bpow radix2 1024)%R.
Proof.
  intros Ha Hb [L U]. assert (V : Valid_exp (FLT_exp (-1074) 53)) by (apply FLT_exp_valid; unfold Prec_gt_0; lia).
  assert (B : (IZR a <= rnd x <= IZR b)%R).
  { split; [apply round_ge_generic|apply round_le_generic]; try exact V; try apply valid_rnd_N; try (apply big_int; assumption); assumption. }
  split; [exact B|]. apply Rle_lt_trans with (bpow radix2 53); [|apply bpow_lt; lia]. change (bpow radix2 53) with (IZR (2 ^ 53)).
  apply Rabs_le. rewrite <- opp_IZR. split; [apply Rle_trans with (IZR a); [apply IZR_le; lia|apply B]|apply Rle_trans with (IZR b); [apply B|apply IZR_le; lia]].
Qed.
Lemma plus_within (a b : Z) (x y : float64) : is_finite x = true -> is_finite y = true -> Z.abs a <= 2 ^ 53 -> Z.abs b <= 2 ^ 53 ->
  (IZR a <= B2R x + B2R y <= IZR b)%R -> within a b (Bplus mode_NE x y).
Proof.
  intros Fx Fy Ha Hb I. pose proof (Bplus_correct 53 1024 _ _ mode_NE x y Fx Fy) as H. destruct (rnd_within a b _ Ha Hb I) as [R1 R2].
  cbn [round_mode] in H. rewrite fexp_eq in H. change (round radix2 fexp64 ZnearestE) with rnd in H. rewrite Rlt_bool_true in H by exact R2. destruct H as (H1 & H2 & _).
  split; [exact H2|]. rewrite H1. exact R1.
Qed.
Lemma minus_within (a b : Z) (x y : float64) : is_finite x = true -> is_finite y = true -> Z.abs a <= 2 ^ 53 -> Z.abs b <= 2 ^ 53 ->
  (IZR a <= B2R x - B2R y <= IZR b)%R -> within a b (Bminus mode_NE x y).
Proof.
  intros Fx Fy Ha Hb I. pose proof (Bminus_correct 53 1024 _ _ mode_NE x y Fx Fy) as H. destruct (rnd_within a b _ Ha Hb I) as [R1 R2].
  cbn [round_mode] in H. rewrite fexp_eq in H. change (round radix2 fexp64 ZnearestE) with rnd in H. rewrite Rlt_bool_true in H by exact R2. destruct H as (H1 & H2 & _).
  split; [exact H2|]. rewrite H1. exact R1.
Qed.
Lemma mult_within (a b : Z) (x y : float64) : is_finite x = true -> is_finite y = true -> Z.abs a <= 2 ^ 53 -> Z.abs b <= 2 ^ 53 ->
  (IZR a <= B2R x * B2R y <= IZR b)%R -> within a b (Bmult mode_NE x y).
Proof.
  intros Fx Fy Ha Hb I. pose proof (Bmult_correct 53 1024 _ _ mode_NE x y) as H. destruct (rnd_within a b _ Ha Hb I) as [R1 R2].
  cbn [round_mode] in H. rewrite fexp_eq in H. change (round radix2 fexp64 ZnearestE) with rnd in H. rewrite Rlt_bool_true in H by exact R2. destruct H as (H1 & H2 & _).
  rewrite Fx, Fy in H2. split; [exact H2|]. rewrite H1. exact R1.
Qed.
Lemma div_within (a b : Z) (x y : float64) : is_finite x = true -> B2R y <> 0%R -> Z.abs a <= 2 ^ 53 -> Z.abs b <= 2 ^ 53 ->
  (IZR a <= B2R x / B2R y <= IZR b)%R -> within a b (Bdiv mode_NE x y).
Proof.
  intros Fx Ny Ha Hb I. pose proof (Bdiv_correct 53 1024 _ _ mode_NE x y Ny) as H. destruct (rnd_within a b _ Ha Hb I) as [R1 R2].
  cbn [round_mode] in H. rewrite fexp_eq in H. change (round radix2 fexp64 ZnearestE) with rnd in H. rewrite Rlt_bool_true in H by exact R2. destruct H as (H1 & H2 & _).
  rewrite Fx in H2. split; [exact H2|]. rewrite H1. exact R1.
Qed.
Lemma int_within z : Z.abs z <= 2 ^ 53 -> within z z (f64_of_Z z) /\ B2R (f64_of_Z z) = IZR z.
Proof. intros H. destruct (f64_int z H) as (E & F & _). split; [split; [exact F|rewrite E; lra]|exact E]. Qed.

(** fade of a number in [0,1] *)
Lemma fade_within t : within 0 1 t -> within (-5) 10 (fade IEEE t).
Proof.
  intros [Ft [L U]]. unfold fade, IEEE. cbn [num add sub mul ofint].
  destruct (int_within 6 ltac:(lia)) as [[F6 _] E6]. destruct (int_within 15 ltac:(lia)) as [[F15 _] E15]. destruct (int_within 10 ltac:(lia)) as [[F10 _] E10].
  destruct (mult_within 0 1 t t Ft Ft) as [F1 B1]; [lia|lia|nra|].
  destruct (mult_within 0 1 (Bmult mode_NE t t) t F1 Ft) as [F2 B2]; [lia|lia|nra|].
  destruct (mult_within 0 6 t (f64_of_Z 6) Ft F6) as [F3 B3]; [lia|lia|rewrite E6; lra|].
  destruct (minus_within (-15) (-9) (Bmult mode_NE t (f64_of_Z 6)) (f64_of_Z 15) F3 F15) as [F4 B4]; [lia|lia|rewrite E15; lra|].
  set (q := Bminus mode_NE _ _) in *.
  destruct (mult_within (-15) 0 t q Ft F4) as [F5 B5]; [lia|lia|nra|].
  destruct (plus_within (-5) 10 (Bmult mode_NE t q) (f64_of_Z 10) F5 F10) as [F7 B7]; [lia|lia|rewrite E10; lra|].
  apply mult_within; [assumption|assumption|lia|lia|nra].
Qed.
Lemma lerp_within M t a b : 0 <= M <= 2 ^ 40 -> within (-5) 10 t -> within (- M) M a -> within (- M) M b -> within (- (21 * M)) (21 * M) (lerp IEEE t a b).
Proof.
  intros HM [Ft Bt] [Fa Ba] [Fb Bb]. rewrite opp_IZR in Ba, Bb. unfold lerp, IEEE. cbn [num add sub mul].
  assert (P : (0 <= IZR M)%R) by (apply IZR_le; lia).
  destruct (minus_within (- (2 * M)) (2 * M) b a Fb Fa) as [F1 B1]; [lia|lia|rewrite opp_IZR, mult_IZR; lra|]. rewrite opp_IZR, mult_IZR in B1. set (q := Bminus mode_NE b a) in *.
  destruct (mult_within (- (20 * M)) (20 * M) t q Ft F1) as [F2 B2]; [lia|lia|rewrite opp_IZR, mult_IZR; nra|]. rewrite opp_IZR, mult_IZR in B2.
  apply plus_within; [assumption|assumption|lia|lia|]. rewrite opp_IZR, mult_IZR. lra.
Qed.
Lemma opp_within x : within (-1) 1 x -> within (-1) 1 (Bopp x).
Proof. intros [F B]. split; [rewrite is_finite_Bopp; exact F|rewrite B2R_Bopp; lra]. Qed.
Lemma grad_within h x y z : within (-1) 1 x -> within (-1) 1 y -> within (-1) 1 z -> within (-2) 2 (grad IEEE h x y z).
Proof.
  intros X Y Z. unfold grad. cbv zeta. cbn [num add neg IEEE].
  assert (G : forall u v, within (-1) 1 u -> within (-1) 1 v -> within (-2) 2 (Bplus mode_NE u v)).
  { intros u v [Fu Bu] [Fv Bv]. apply plus_within; [assumption|assumption|lia|lia|lra]. }
  apply G; repeat match goal with |- context [if ?b then _ else _] => destruct b end; try assumption; apply opp_within; assumption.
Qed.
Lemma weaken a b a' b' x : a' <= a -> b <= b' -> within a b x -> within a' b' x.
Proof. intros Ha Hb [F [L U]]. split; [exact F|]. apply IZR_le in Ha, Hb. lra. Qed.
Lemma shape_within x y z h1 h2 h3 h4 h5 h6 h7 h8 : within 0 1 x -> within 0 1 y -> within 0 1 z -> within (-9262) 9262 (shape IEEE x y z h1 h2 h3 h4 h5 h6 h7 h8).
Proof.
  intros X Y Z. unfold shape. cbv zeta.
  pose proof (fade_within x X) as FX. pose proof (fade_within y Y) as FY. pose proof (fade_within z Z) as FZ.
  assert (M1 : forall t, within 0 1 t -> within (-1) 1 (sub IEEE t (ofint IEEE 1))).
  { intros t [Ft Bt]. cbn [IEEE num sub ofint]. destruct (int_within 1 ltac:(lia)) as [[F1 _] E1]. apply minus_within; [assumption|assumption|lia|lia|rewrite E1; lra]. }
  pose proof (M1 x X) as X1. pose proof (M1 y Y) as Y1. pose proof (M1 z Z) as Z1.
  apply (weaken 0 1 (-1) 1) in X, Y, Z; try lia.
  set (x1 := sub IEEE x _) in *. set (y1 := sub IEEE y _) in *. set (z1 := sub IEEE z _) in *.
  assert (G : within (-18522) 18522 (lerp IEEE (fade IEEE z)
     (lerp IEEE (fade IEEE y) (lerp IEEE (fade IEEE x) (grad IEEE h1 x y z) (grad IEEE h2 x1 y z)) (lerp IEEE (fade IEEE x) (grad IEEE h3 x y1 z) (grad IEEE h4 x1 y1 z)))
     (lerp IEEE (fade IEEE y) (lerp IEEE (fade IEEE x) (grad IEEE h5 x y z1) (grad IEEE h6 x1 y z1)) (lerp IEEE (fade IEEE x) (grad IEEE h7 x y1 z1) (grad IEEE h8 x1 y1 z1))))).
  { apply (lerp_within 882); [lia|exact FZ| |]; apply (lerp_within 42); try lia; try exact FY; apply (lerp_within 2); try lia; try exact FX; apply grad_within; assumption. }
  set (g := lerp IEEE (fade IEEE z) _ _) in *. clearbody g. destruct G as [Fg Bg]. cbn [IEEE num add quo ofint].
  destruct (int_within 1 ltac:(lia)) as [[F1 _] E1]. destruct (int_within 2 ltac:(lia)) as [[F2 _] E2].
  destruct (plus_within (-18521) 18523 g (f64_of_Z 1) Fg F1) as [F3 B3]; [lia|lia|rewrite E1; lra|].
  apply div_within; [exact F3|rewrite E2; lra|lia|lia|]. rewrite E2. lra.
Qed.

(** a coordinate: 10*x/size *)
Lemma coord x n : 0 <= x < n -> n <= 214748364 -> within 0 10 (Bdiv mode_NE (f64_of_Z (10 * x)) (f64_of_Z n)).
Proof.
  intros Hx Hn. destruct (int_within (10 * x) ltac:(lia)) as [[F1 _] E1]. destruct (int_within n ltac:(lia)) as [_ E2].
  assert (P : (0 < IZR n)%R) by (apply IZR_lt; lia). apply div_within; [exact F1|rewrite E2; lra|lia|lia|]. rewrite E1, E2, mult_IZR.
  assert (Q : (0 <= IZR x <= IZR n)%R) by (split; apply IZR_le; lia). split.
  - apply Rmult_le_pos; [nra|]. left. apply Rinv_0_lt_compat. exact P.
  - apply (Rmult_le_reg_r (IZR n)); [exact P|]. unfold Rdiv. rewrite Rmult_assoc, Rinv_l by lra. nra.
Qed.
Lemma floor_ok (x : float64) b : 0 <= b < 2 ^ 31 -> within 0 b x -> exists i, toint IEEE (flr IEEE x) = Ok i /\ within 0 1 (sub IEEE x (flr IEEE x)).
Proof.
  intros Hb [F [L U]]. cbn [IEEE toint flr sub]. destruct (Bnearbyint_correct 53 1024 emax1024 mode_DN x) as (E & G & _). rewrite F in G. cbn [round_mode] in E. rewrite round_FIX_IZR in E.
  set (f := Bnearbyint mode_DN x) in *. rewrite G.
  assert (T : Btrunc f = Zfloor (B2R x)). { pose proof (Btrunc_correct 53 1024 emax1024 f) as T. rewrite E in T. rewrite round_FIX_IZR, Ztrunc_IZR in T. apply eq_IZR. exact T. }
  rewrite T. assert (B : 0 <= Zfloor (B2R x) <= b).
  { split; [apply Zfloor_lub; exact L|]. apply le_IZR. apply Rle_trans with (B2R x); [apply Zfloor_lb|exact U]. }
  exists (Zfloor (B2R x)). split.
  - unfold int_. destruct (Z.leb_spec (- 2 ^ 31) (Zfloor (B2R x))); [|lia]. destruct (Z.ltb_spec (Zfloor (B2R x)) (2 ^ 31)); [reflexivity|lia].
  - apply minus_within; [assumption|assumption|lia|lia|]. rewrite E. pose proof (Zfloor_lb (B2R x)). pose proof (Zfloor_ub (B2R x)). lra.
Qed.
Lemma c08_val : within 0 1 (c08 IEEE).
Proof.
  cbn [IEEE c08]. pose proof (binary_normalize_correct 53 1024 _ _ mode_NE 3602879701896397 (-52) false) as H. cbv zeta in H.
  cbn [round_mode] in H. rewrite fexp_eq in H. change (round radix2 fexp64 ZnearestE) with rnd in H.
  assert (B : (0 <= F2R (Float radix2 3602879701896397 (-52)) <= 1)%R).
  { unfold F2R. cbn [Fnum Fexp]. split; [apply Rmult_le_pos; [lra|apply bpow_ge_0]|]. rewrite <- (Rinv_r (bpow radix2 52)) by (apply Rgt_not_eq, bpow_gt_0).
    rewrite <- bpow_opp. apply Rmult_le_compat_r; [apply bpow_ge_0|]. change (bpow radix2 52) with (IZR (2 ^ 52)). apply IZR_le. lia. }
  destruct (rnd_within 0 1 _ ltac:(lia) ltac:(lia) B) as [R1 R2]. rewrite Rlt_bool_true in H by exact R2. destruct H as (H1 & H2 & _). split; [exact H2|]. rewrite H1. exact R1.
Qed.

Lemma height_ok perm n x y : is_perm perm -> n <= 214748364 -> 0 <= x < n -> 0 <= y < n ->
  exists v, height_at IEEE (table perm) n x y = Ok v /\ within (-9262) 9262 v.
Proof.
  intros Pm Hn Hx Hy. unfold height_at.
  assert (I : forall k, 0 <= k < n -> int_ (10 * k) = Ok (10 * k)).
  { intros k Hk. unfold int_. destruct (Z.leb_spec (- 2 ^ 31) (10 * k)); [|lia]. destruct (Z.ltb_spec (10 * k) (2 ^ 31)); [reflexivity|lia]. }
  rewrite !I by assumption. cbn [bind].
  destruct (floor_ok _ 10 ltac:(lia) (coord x n Hx Hn)) as (i1 & I1 & W1). destruct (floor_ok _ 10 ltac:(lia) (coord y n Hy Hn)) as (i2 & I2 & W2).
  destruct (floor_ok _ 1 ltac:(lia) c08_val) as (i3 & I3 & W3).
  destruct (noise_shape IEEE perm _ _ _ i1 i2 i3 Pm I1 I2 I3) as (h1 & h2 & h3 & h4 & h5 & h6 & h7 & h8 & E). eexists. split; [exact E|]. apply shape_within; assumption.
Qed.

(** C92. Square rasters of less than 2^31/10 columns: generating terrain never reads outside the table, writes every cell and no other; the height of cell (x,y) is the
    noise function at (10x/w, 10y/h, 0.8); all heights are finite numbers between -9262 and 9262, so no cell gets the usual NoData value -9999. Other rasters: an exception, nothing written. *)
Theorem C92_terrain : forall perm w h arr, is_perm perm -> 0 <= w <= 214748364 ->
  (w <> h -> generate_perlin_terrain IEEE perm w h arr = Thrown) /\
  (w = h -> exists g, generate_perlin_terrain IEEE perm w h arr = Ok g /\
     (forall x y, 0 <= x < w -> 0 <= y < h -> is_finite (g x y) = true /\ (-9262 <= B2R (g x y) <= 9262)%R /\ Beqb (g x y) (f64_of_Z (-9999)) = false) /\
     (forall x y, 0 <= x < w -> 0 <= y < h ->
        noise IEEE (table perm) (Bdiv mode_NE (f64_of_Z (10 * x)) (f64_of_Z w)) (Bdiv mode_NE (f64_of_Z (10 * y)) (f64_of_Z h)) (c08 IEEE) = Ok (g x y)) /\
     (forall x y, ~ (0 <= x < w /\ 0 <= y < h) -> g x y = arr x y) /\
     (forall arr' g', generate_perlin_terrain IEEE perm w h arr' = Ok g' -> forall x y, 0 <= x < w -> 0 <= y < h -> g' x y = g x y)).
Proof.
  intros perm w h arr Pm Hw. unfold generate_perlin_terrain. split; [intros N; destruct (Z.eqb_spec w h); [contradiction|reflexivity]|].
  intros <-. rewrite Z.eqb_refl. cbn [negb].
  assert (H : forall x y, In x (zrange 0 (Z.to_nat w)) -> In y (zrange 0 (Z.to_nat w)) -> exists v, height_at IEEE (table perm) w x y = Ok v /\ within (-9262) 9262 v).
  { intros x y Hx Hy. apply zrange_In in Hx, Hy. apply height_ok; [exact Pm|lia|lia|lia]. }
  assert (H' : forall x y, In x (zrange 0 (Z.to_nat w)) -> In y (zrange 0 (Z.to_nat w)) -> exists v, height_at IEEE (table perm) w x y = Ok v).
  { intros x y Hx Hy. destruct (H x y Hx Hy) as (v & E & _). eauto. }
  destruct (rows_ok IEEE (fun x y => height_at IEEE (table perm) w x y) _ _ H' (zrange_nodup _ _) (zrange_nodup _ _) arr) as (g & G1 & G2 & G3).
  exists g. split; [exact G1|].
  assert (I : forall x, 0 <= x < w -> In x (zrange 0 (Z.to_nat w))) by (intros x Hx; apply zrange_In; lia).
  split; [|split; [|split]].
  - intros x y Hx Hy. destruct (H x y (I x Hx) (I y Hy)) as (v & E & F & B). pose proof (G2 x y (I x Hx) (I y Hy)) as E2. cbv beta in E2. rewrite E in E2. injection E2 as <-.
    split; [exact F|]. split; [exact B|]. destruct (f64_int (-9999) ltac:(lia)) as (E9 & F9 & _). rewrite Beqb_correct by assumption. rewrite E9. apply Req_bool_false. lra.
  - intros x y Hx Hy. pose proof (G2 x y (I x Hx) (I y Hy)) as E2. cbv beta in E2. unfold height_at in E2.
    assert (J : forall k, 0 <= k < w -> int_ (10 * k) = Ok (10 * k)).
    { intros k Hk. unfold int_. destruct (Z.leb_spec (- 2 ^ 31) (10 * k)); [|lia]. destruct (Z.ltb_spec (10 * k) (2 ^ 31)); [reflexivity|lia]. }
    rewrite !J in E2 by assumption. cbn [bind] in E2. exact E2.
  - intros x y N. apply G3. intros [Hx Hy]. apply zrange_In in Hx, Hy. lia.
  - intros arr' g' Eg x y Hx Hy.
    destruct (rows_ok IEEE (fun x y => height_at IEEE (table perm) w x y) _ _ H' (zrange_nodup _ _) (zrange_nodup _ _) arr') as (g2 & K1 & K2 & _).
    cbv beta in K1. rewrite K1 in Eg. injection Eg as <-. pose proof (G2 x y (I x Hx) (I y Hy)) as A1. pose proof (K2 x y (I x Hx) (I y Hy)) as A2. cbv beta in A1, A2. congruence.
Qed.
Print Assumptions C92_terrain.

(** C92. Resolution: refining the raster k times keeps the heights of the cells they share, bit for bit. *)
Lemma coord_scale k x n : 1 <= k -> 0 <= x < n -> k * n <= 214748364 ->
  Bdiv mode_NE (f64_of_Z (10 * (k * x))) (f64_of_Z (k * n)) = Bdiv mode_NE (f64_of_Z (10 * x)) (f64_of_Z n).
Proof.
  intros Hk Hx Hn. assert (n <= 214748364) by nia. assert (0 <= k * x < k * n) by nia.
  destruct (int_within (10 * (k * x)) ltac:(lia)) as [[F1 _] E1]. destruct (int_within (k * n) ltac:(lia)) as [[F2 _] E2].
  destruct (int_within (10 * x) ltac:(lia)) as [[F3 _] E3]. destruct (int_within n ltac:(lia)) as [[F4 _] E4].
  destruct (coord (k * x) (k * n) ltac:(lia) Hn) as [C1 _]. destruct (coord x n ltac:(lia) ltac:(lia)) as [C2 _].
  assert (S : forall z, 0 <= z <= 2 ^ 53 -> Bsign (f64_of_Z z) = false).
  { intros z Hz. unfold f64_of_Z. pose proof (binary_normalize_correct 53 1024 _ _ mode_NE z 0 false) as B. cbv zeta in B.
    assert (G : F2R (Float radix2 z 0) = IZR z) by (unfold F2R; cbn; ring). rewrite G in B. cbn [round_mode] in B. rewrite fexp_eq in B. change (round radix2 fexp64 ZnearestE) with rnd in B.
    destruct (rnd_within z z (IZR z)) as [R1 R2]; [lia|lia|lra|]. rewrite Rlt_bool_true in B by exact R2. destruct B as (_ & _ & B). rewrite B.
    destruct (Rcompare_spec (IZR z) 0) as [L|L|L]; try reflexivity. apply lt_IZR in L. lia. }
  assert (P : (0 < IZR n)%R) by (apply IZR_lt; lia). assert (K : (0 < IZR k)%R) by (apply IZR_lt; lia).
  assert (Q : (B2R (f64_of_Z (10 * (k * x))) / B2R (f64_of_Z (k * n)) = B2R (f64_of_Z (10 * x)) / B2R (f64_of_Z n))%R).
  { rewrite E1, E2, E3, E4, !mult_IZR. field. split; lra. }
  assert (N2 : B2R (f64_of_Z (k * n)) <> 0%R) by (rewrite E2, mult_IZR; nra). assert (N4 : B2R (f64_of_Z n) <> 0%R) by (rewrite E4; lra).
  pose proof (Bdiv_correct 53 1024 _ _ mode_NE (f64_of_Z (10 * (k * x))) _ N2) as D1. pose proof (Bdiv_correct 53 1024 _ _ mode_NE (f64_of_Z (10 * x)) _ N4) as D2.
  rewrite Q in D1. cbn [round_mode] in D1, D2. rewrite fexp_eq in D1, D2. change (round radix2 fexp64 ZnearestE) with rnd in D1, D2.
  assert (L : (Rabs (rnd (B2R (f64_of_Z (10 * x)) / B2R (f64_of_Z n))) < bpow radix2 1024)%R).
  { apply (rnd_within 0 10); [lia|lia|]. rewrite E3, E4, mult_IZR. assert (Y : (0 <= IZR x <= IZR n)%R) by (split; apply IZR_le; lia). split.
    - apply Rmult_le_pos; [nra|]. left. apply Rinv_0_lt_compat. exact P.
    - apply (Rmult_le_reg_r (IZR n)); [exact P|]. unfold Rdiv. rewrite Rmult_assoc, Rinv_l by lra. nra. }
  rewrite Rlt_bool_true in D1, D2 by exact L. destruct D1 as (A1 & A2 & A3), D2 as (B1 & B2 & B3).
  assert (NN : forall z : float64, is_finite z = true -> is_nan z = false) by (intros [| | |]; cbn; congruence).
  apply B2R_Bsign_inj; [exact C1|exact C2|congruence|]. rewrite A3 by (apply NN; exact C1). rewrite B3 by (apply NN; exact C2). rewrite !S by lia. reflexivity.
Qed.
Lemma generate_cell perm m a b : is_perm perm -> 0 <= m <= 214748364 -> generate_perlin_terrain IEEE perm m m a = Ok b ->
  forall u v, 0 <= u < m -> 0 <= v < m -> height_at IEEE (table perm) m u v = Ok (b u v).
Proof.
  intros Pm Hm E u v Hu Hv. unfold generate_perlin_terrain in E. rewrite Z.eqb_refl in E. cbn [negb] in E.
    assert (H' : forall x y, In x (zrange 0 (Z.to_nat m)) -> In y (zrange 0 (Z.to_nat m)) -> exists v, height_at IEEE (table perm) m x y = Ok v).
    { intros x0 y0 Hx0 Hy0. apply zrange_In in Hx0, Hy0. destruct (height_ok perm m x0 y0 Pm ltac:(lia) ltac:(lia) ltac:(lia)) as (v0 & E0 & _). eauto. }
    destruct (rows_ok IEEE (fun x y => height_at IEEE (table perm) m x y) _ _ H' (zrange_nodup _ _) (zrange_nodup _ _) a) as (b2 & K1 & K2 & _).
    cbv beta in K1. rewrite K1 in E. injection E as <-. apply (K2 u v); apply zrange_In; lia.
Qed.
Theorem C92_resolution : forall perm n k arr arr' g g', is_perm perm -> 1 <= k -> 1 <= n -> k * n <= 214748364 ->
  generate_perlin_terrain IEEE perm n n arr = Ok g -> generate_perlin_terrain IEEE perm (k * n) (k * n) arr' = Ok g' ->
  forall x y, 0 <= x < n -> 0 <= y < n -> g' (k * x) (k * y) = g x y.
Proof.
  intros perm n k arr arr' g g' Pm Hk Hn Hb Eg Eg' x y Hx Hy.
  pose proof (fun m a b => generate_cell perm m a b Pm) as V.
  pose proof (V n arr g ltac:(nia) Eg x y Hx Hy) as A1. pose proof (V (k * n) arr' g' ltac:(nia) Eg' (k * x) (k * y) ltac:(nia) ltac:(nia)) as A2.
  unfold height_at in A1, A2.
  assert (I : forall j, 0 <= j <= 214748364 -> int_ (10 * j) = Ok (10 * j)).
  { intros j Hj. unfold int_. destruct (Z.leb_spec (- 2 ^ 31) (10 * j)); [|lia]. destruct (Z.ltb_spec (10 * j) (2 ^ 31)); [reflexivity|lia]. }
  assert (n <= 214748364) by nia. rewrite !I in A1 by lia. rewrite !I in A2 by nia. cbn [bind] in A1, A2. cbn [IEEE quo ofint] in A1, A2. rewrite !coord_scale in A2 by lia. rewrite A1 in A2. injection A2 as A2. symmetry. exact A2.
Qed.
Print Assumptions C92_resolution.

(** ** Exact arithmetic *)
Open Scope R_scope.
Definition fd (t : R) : R := t * t * t * (t * (t * 6 - 15) + 10).
Lemma fade_R t : fade REAL t = fd t. Proof. reflexivity. Qed.
Lemma fd_range t : 0 <= t <= 1 -> 0 <= fd t <= 1.
Proof.
  intros H. unfold fd. assert (A : 0 <= t * t * t) by (apply Rmult_le_pos; [apply Rmult_le_pos|]; lra). assert (B : 0 < t * (t * 6 - 15) + 10) by nra. split.
  - apply Rmult_le_pos; lra.
  - assert (C : 1 - t * t * t * (t * (t * 6 - 15) + 10) = (1 - t) * (1 - t) * (1 - t) * (6 * t * t + 3 * t + 1)) by ring.
    assert (D : 0 <= (1 - t) * (1 - t) * (1 - t) * (6 * t * t + 3 * t + 1)); [|lra]. apply Rmult_le_pos; [apply Rmult_le_pos; [apply Rmult_le_pos|]; lra|nra].
Qed.
(** mean distance to the two ends, weighted by the fade curve *)
Definition mid (t : R) : R := (1 - fd t) * t + fd t * (1 - t).
Lemma mid_half t : 0 <= t <= 1 -> 0 <= mid t <= / 2.
Proof.
  intros H. pose proof (fd_range t H) as F. split; [unfold mid; assert (0 <= (1 - fd t) * t) by (apply Rmult_le_pos; lra); assert (0 <= fd t * (1 - t)) by (apply Rmult_le_pos; lra); lra|].
  assert (E : / 2 - mid t = / 2 * ((1 - 2 * t) * (1 - 2 * t) * (1 + 2 * t + 4 * t * t - 12 * t * t * t + 6 * t * t * t * t))) by (unfold mid, fd; field).
  assert (Q : 0 <= 1 + 2 * t + 4 * t * t - 12 * t * t * t + 6 * t * t * t * t).
  { replace (1 + 2 * t + 4 * t * t - 12 * t * t * t + 6 * t * t * t * t) with (1 + 2 * t * (1 - t) + 6 * ((t * (1 - t)) * (t * (1 - t)))) by ring. assert (0 <= t * (1 - t)) by (apply Rmult_le_pos; lra). nra. }
  assert (S : 0 <= (1 - 2 * t) * (1 - 2 * t) * (1 + 2 * t + 4 * t * t - 12 * t * t * t + 6 * t * t * t * t)) by (apply Rmult_le_pos; [apply Rle_0_sqr|exact Q]). lra.
Qed.
Lemma lerp_R u a b p q s : 0 <= u <= 1 -> Rabs a <= p + s -> Rabs b <= q + s -> Rabs (lerp REAL u a b) <= (1 - u) * p + u * q + s.
Proof.
  intros Hu Ha Hb. unfold lerp. cbn [REAL add sub mul num]. replace (a + u * (b - a)) with ((1 - u) * a + u * b) by ring.
  eapply Rle_trans; [apply Rabs_triang|]. rewrite !Rabs_mult, (Rabs_pos_eq (1 - u)), (Rabs_pos_eq u) by lra. nra.
Qed.
Lemma grad_R h x y z : Rabs (grad REAL h x y z) <= Rabs x + (Rabs y + Rabs z).
Proof.
  unfold grad. cbv zeta. cbn [REAL add neg num].
  assert (N : forall (b : bool) t, Rabs (if b then t else - t) = Rabs t) by (intros [|] t; [reflexivity|apply Rabs_Ropp]).
  eapply Rle_trans; [apply Rabs_triang|]. rewrite !N. pose proof (Rabs_pos x). pose proof (Rabs_pos y). pose proof (Rabs_pos z). set (k := Z.land h 15).
  destruct (k <? 8)%Z eqn:E8.
  - destruct (k <? 4)%Z eqn:E4; [lra|]. destruct ((k =? 12) || (k =? 14))%Z eqn:E12; [|lra]. exfalso. apply Z.ltb_lt in E8. apply orb_true_iff in E12. rewrite !Z.eqb_eq in E12. lia.
  - destruct (k <? 4)%Z eqn:E4; [exfalso; apply Z.ltb_lt in E4; apply Z.ltb_ge in E8; lia|]. destruct ((k =? 12) || (k =? 14))%Z; lra.
Qed.
Lemma shape_R x y z h1 h2 h3 h4 h5 h6 h7 h8 : 0 <= x <= 1 -> 0 <= y <= 1 -> 0 <= z <= 1 ->
  Rabs (shape REAL x y z h1 h2 h3 h4 h5 h6 h7 h8 - / 2) <= (mid x + mid y + mid z) / 2.
Proof.
  intros X Y Z. unfold shape. cbv zeta. cbn [REAL num add sub quo ofint]. rewrite !fade_R.
  assert (D : forall t, 0 <= t <= 1 -> Rabs t = t /\ Rabs (t - 1) = 1 - t) by (intros t Ht; split; [apply Rabs_pos_eq; lra|rewrite Rabs_left1 by lra; ring]).
  destruct (D x X) as [X0 X1]. destruct (D y Y) as [Y0 Y1]. destruct (D z Z) as [Z0 Z1].
  assert (L1 : forall ha hb y' z', Rabs (lerp REAL (fd x) (grad REAL ha x y' z') (grad REAL hb (x - 1) y' z')) <= mid x + (Rabs y' + Rabs z')).
  { intros ha hb y' z'. eapply Rle_trans; [apply (lerp_R _ _ _ x (1 - x) (Rabs y' + Rabs z')); [apply fd_range; exact X| |]|unfold mid; lra].
    - eapply Rle_trans; [apply grad_R|]. rewrite X0. lra.
    - eapply Rle_trans; [apply grad_R|]. rewrite X1. lra. }
  assert (L2 : forall ha hb hc hd z', Rabs (lerp REAL (fd y) (lerp REAL (fd x) (grad REAL ha x y z') (grad REAL hb (x - 1) y z')) (lerp REAL (fd x) (grad REAL hc x (y - 1) z') (grad REAL hd (x - 1) (y - 1) z')))
     <= mid y + (mid x + Rabs z')).
  { intros. eapply Rle_trans; [apply (lerp_R _ _ _ y (1 - y) (mid x + Rabs z')); [apply fd_range; exact Y| |]|unfold mid at 2; unfold mid; lra].
    - eapply Rle_trans; [apply L1|]. rewrite Y0. lra.
    - eapply Rle_trans; [apply L1|]. rewrite Y1. lra. }
  set (g := lerp REAL (fd z) _ _).
  assert (G : Rabs g <= mid z + (mid x + mid y)).
  { eapply Rle_trans; [apply (lerp_R _ _ _ z (1 - z) (mid x + mid y)); [apply fd_range; exact Z| |]|unfold mid; lra].
    - eapply Rle_trans; [apply L2|]. rewrite Z0. lra.
    - eapply Rle_trans; [apply L2|]. rewrite Z1. lra. }
  replace ((g + 1) / 2 - / 2) with (g / 2) by field. unfold Rdiv. rewrite Rabs_mult, (Rabs_pos_eq (/ 2)) by lra. lra.
Qed.

(** C92. In exact arithmetic every height is between -0.1174 and 1.1174 (0.8 as third coordinate; between -1/4 and 5/4 whatever that is). *)
Theorem C92_range : forall perm (n x y : Z) v, is_perm perm -> (n <= 214748364)%Z -> (0 <= x < n)%Z -> (0 <= y < n)%Z -> height_at REAL (table perm) n x y = Ok v ->
  - 1174 / 10000 <= v <= 1 + 1174 / 10000.
Proof.
  intros perm n x y v Pm Hn Hx Hy H. unfold height_at in H. destruct (int_ (10 * x)) as [a| |] eqn:Ea; cbn [bind] in H; try discriminate. destruct (int_ (10 * y)) as [b| |] eqn:Eb; cbn [bind] in H; try discriminate.
  set (X := quo REAL (ofint REAL a) (ofint REAL n)) in H. set (Y := quo REAL (ofint REAL b) (ofint REAL n)) in H.
  destruct (toint REAL (flr REAL X)) as [i| |] eqn:Ei; [|unfold noise in H; rewrite Ei in H; discriminate|unfold noise in H; rewrite Ei in H; discriminate].
  destruct (toint REAL (flr REAL Y)) as [j| |] eqn:Ej; [|unfold noise in H; rewrite Ei, Ej in H; discriminate|unfold noise in H; rewrite Ei, Ej in H; discriminate].
  assert (Z0 : Zfloor (4 / 5) = 0%Z) by (apply Zfloor_imp; cbn; lra).
  assert (Ek : toint REAL (flr REAL (c08 REAL)) = Ok 0%Z) by (cbn [REAL toint flr c08]; rewrite Zfloor_IZR, Z0; reflexivity).
  destruct (noise_shape REAL perm X Y (c08 REAL) i j 0 Pm Ei Ej Ek) as (h1 & h2 & h3 & h4 & h5 & h6 & h7 & h8 & E). rewrite E in H. clear E.
  assert (U : forall t, 0 <= sub REAL t (flr REAL t) <= 1) by (intros t; cbn [REAL sub flr]; pose proof (Zfloor_lb t); pose proof (Zfloor_ub t); lra).
  pose proof (shape_R _ _ _ h1 h2 h3 h4 h5 h6 h7 h8 (U X) (U Y) (U (c08 REAL))) as B. pose proof (mid_half _ (U X)) as MX. pose proof (mid_half _ (U Y)) as MY.
  assert (MZ : mid (sub REAL (c08 REAL) (flr REAL (c08 REAL))) = 234752 / 1000000) by (cbn [REAL sub flr c08]; rewrite Z0; unfold mid, fd; field).
  rewrite MZ in B. remember (shape REAL _ _ _ _ _ _ _ _ _ _ _) as s eqn:Es. clear Es. injection H as <-. apply Rabs_le_inv in B. lra.
Qed.
Print Assumptions C92_range.
Open Scope Z_scope.

(** "Heights are between 0 and 1" is false: a permutation for which cell (1,1) of a 20 x 20 raster is above 1, in IEEE arithmetic. *)
Definition ex_fixed : list (Z * Z) := [(0,10); (1,20); (10,30); (11,40); (20,50); (21,60); (30,84); (50,85); (40,100); (60,101); (31,112); (51,113); (41,114); (61,115)].
Definition ex_rest : list Z := filter (fun v => negb (existsb (fun kv => snd kv =? v) ex_fixed)) (zrange 0 256).
Fixpoint ex_fill (i : Z) (n : nat) (rest : list Z) : list Z :=
  match n with
  | O => []
  | S k => match find (fun kv => fst kv =? i) ex_fixed with
           | Some kv => snd kv :: ex_fill (i + 1) k rest
           | None => match rest with v :: r => v :: ex_fill (i + 1) k r | [] => [] end
           end
  end.
Definition ex_perm : list Z := ex_fill 0 256 ex_rest.
Lemma ex_is_perm : is_perm ex_perm.
Proof.
  split; [vm_compute; reflexivity|]. assert (H : forallb (fun v => (0 <=? v) && (v <? 256)) ex_perm = true) by (vm_compute; reflexivity).
  intros v Hv. rewrite forallb_forall in H. specialize (H v Hv). apply andb_prop in H. destruct H as [H1 H2]. apply Z.leb_le in H1. apply Z.ltb_lt in H2. lia.
Qed.
Lemma ex_permutation : Permutation ex_perm (zrange 0 256).
Proof.
  apply Permutation_sym. apply NoDup_Permutation_bis.
  - apply zrange_nodup.
  - vm_compute. lia.
  - assert (H : forallb (fun v => existsb (Z.eqb v) ex_perm) (zrange 0 256) = true) by (vm_compute; reflexivity). intros v Hv. rewrite forallb_forall in H. specialize (H v Hv).
    apply existsb_exists in H. destruct H as (u & Hu & E). apply Z.eqb_eq in E. subst u. exact Hu.
Qed.
Definition ex_height : float64 := match height_at IEEE (table ex_perm) 20 1 1 with Ok v => v | _ => B754_nan end.
Lemma ex_height_ok : height_at IEEE (table ex_perm) 20 1 1 = Ok ex_height /\ Bltb (f64_of_Z 1) ex_height = true.
Proof.
  destruct (height_ok ex_perm 20 1 1 ex_is_perm) as (v & E & _); [lia|lia|lia|]. split; [unfold ex_height; rewrite E; reflexivity|]. vm_compute. reflexivity.
Qed.
Lemma Ok_inj {T} (a b : T) : Ok a = Ok b -> a = b. Proof. congruence. Qed.
Lemma ex_height_ok' : exists v, height_at IEEE (table ex_perm) 20 1 1 = Ok v /\ Bltb (f64_of_Z 1) v = true.
Proof. exists ex_height. exact ex_height_ok. Qed.
Theorem C92_unit_range_refuted : exists perm, Permutation perm (zrange 0 256) /\ exists g, generate_perlin_terrain IEEE perm 20 20 (fun _ _ => B754_zero false) = Ok g /\
  Bltb (f64_of_Z 1) (g 1 1) = true.
Proof.
  exists ex_perm. split; [exact ex_permutation|].
  destruct (proj2 (C92_terrain ex_perm 20 20 (fun _ _ => B754_zero false) ex_is_perm ltac:(lia)) eq_refl) as (g & G & _). exists g. split; [exact G|].
  pose proof (generate_cell ex_perm 20 _ g ex_is_perm ltac:(lia) G 1 1 ltac:(lia) ltac:(lia)) as E. destruct ex_height_ok' as (e & X1 & X2).
  pose proof (Ok_inj _ _ (eq_trans (eq_sym X1) E)) as Y. clear E X1 G. rewrite Y in X2. exact X2.
Qed.
Print Assumptions C92_unit_range_refuted.
