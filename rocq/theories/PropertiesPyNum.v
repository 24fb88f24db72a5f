(** C86: the NoData value on its way from Python to C++ and back. *)
From Coq Require Import ZArith List Lia Bool String Reals Lra.
From Flocq Require Import Core BinarySingleNaN.
From Verif Require Import Base Res FAFModel FAFNum PyModel PySpec PyIntModel PyNumModel PropertiesPy.
Open Scope Z_scope.
Open Scope list_scope.

(** the nearest float (ties to even), and being exactly a float, for real numbers *)
Definition nearest32 (r : R) : R := round radix2 (FLT_exp (-149) 24) ZnearestE r.
Definition is_float32 (r : R) : Prop := generic_format radix2 (FLT_exp (-149) 24) r.
Definition int_type (d : dtype) : Prop := d <> Float32 /\ d <> Float64 /\ d <> Other.

Lemma f32_of_f64_spec (x : float64) : is_finite x = true ->
  ((Rabs (nearest32 (B2R x)) < bpow radix2 128)%R -> B2R (f32_of_f64 x) = nearest32 (B2R x) /\ is_finite (f32_of_f64 x) = true) /\
  ((bpow radix2 128 <= Rabs (nearest32 (B2R x)))%R -> exists s, f32_of_f64 x = B754_infinity s).
Proof.
  destruct x as [s|s| |s m e Hb] eqn:Ex; try discriminate; intros _.
  - cbn [f32_of_f64 B2R]. unfold nearest32. rewrite round_0 by apply valid_rnd_N. rewrite Rabs_R0. split; [auto|]. intros H. exfalso. pose proof (bpow_gt_0 radix2 128). lra.
  - cbn [f32_of_f64]. pose proof (binary_normalize_correct 24 128 _ _ mode_NE (if s then Zneg m else Zpos m) e s) as H. cbv zeta in H.
    assert (E : F2R (Float radix2 (if s then Zneg m else Zpos m) e) = B2R (B754_finite s m e Hb : float64)) by (destruct s; reflexivity).
    rewrite E in H. rewrite fexp32_eq in H. cbn [round_mode] in H. fold (nearest32 (B2R (B754_finite s m e Hb : float64))) in H. split; intros L.
    + rewrite Rlt_bool_true in H by exact L. destruct H as [H1 [H2 _]]. auto.
    + rewrite Rlt_bool_false in H by exact L. unfold binary_overflow in H. cbn in H.
      set (z := binary_normalize _ _ _ _ _ _ _ _) in *. destruct z as [s'|s'| |s' m' e' Hb']; cbn in H; try discriminate. eauto.
Qed.

Lemma isND_float64 (v : float64) (f : float32) : is_finite v = true -> is_finite f = true ->
  (isNoData (VD v) (VD (f64_of_f32 f)) = true <-> B2R v = B2R f).
Proof.
  intros Fv Ff. destruct (f64_of_f32_ok f Ff) as [E1 E2]. cbn [isNoData]. rewrite Beqb_correct by auto. rewrite E1. destruct (Req_bool_spec (B2R v) (B2R f)); split; auto; discriminate.
Qed.

(** C86. Integer arrays, NoData given as an int: a cell is NoData exactly if it equals the given value modulo the number of values of the type.
    So it is the given value if that is one the type has; otherwise exactly one legitimate value is taken for NoData. *)
Theorem C86_integer : forall d z, int_type d -> - 2 ^ 63 <= z < 2 ^ 64 ->
  exists nd, setNoData d (PInt z) = Ok nd /\
    (forall v, dmin d <= v <= dmax d -> (isNoData (VI v) nd = true <-> (v - z) mod dcount d = 0)) /\
    (dmin d <= z <= dmax d -> forall v, isNoData (VI v) nd = true <-> v = z) /\
    (~ dmin d <= z <= dmax d -> exists v, dmin d <= v <= dmax d /\ v <> z /\ isNoData (VI v) nd = true).
Proof.
  intros d z [N1 [N2 N3]] [Z1 Z2]. assert (E : setNoData d (PInt z) = Ok (VI (wrap_to d z))).
  { unfold setNoData. rewrite (proj2 (Z.leb_le _ _) Z1), (proj2 (Z.ltb_lt _ _) Z2). cbn [andb]. destruct d; try reflexivity; congruence. }
  assert (P : 0 < dcount d) by (destruct d; reflexivity).
  exists (VI (wrap_to d z)). split; [exact E|]. unfold isNoData, wrap_to, dmax. pose proof (Z.mod_pos_bound (z - dmin d) (dcount d) P) as M. split; [|split].
  - intros v Hv. rewrite Z.eqb_eq. split; intros H.
    + replace (v - z) with ((z - dmin d) mod dcount d - (z - dmin d)) by lia. rewrite Zminus_mod_idemp_l. rewrite Z.sub_diag. apply Z.mod_0_l. lia.
    + assert (Q : (v - dmin d) mod dcount d = (z - dmin d) mod dcount d).
      { apply Z.mod_divide in H; [|lia]. destruct H as [k H]. replace (v - dmin d) with (z - dmin d + k * dcount d) by lia. apply Z.mod_add. lia. }
      rewrite <- Q. rewrite Z.mod_small by lia. lia.
  - intros Hz v. rewrite Z.eqb_eq. rewrite Z.mod_small by lia. lia.
  - intros Hz. exists (dmin d + (z - dmin d) mod dcount d). rewrite Z.eqb_refl. split; [lia|]. split; [lia|reflexivity].
Qed.
Print Assumptions C86_integer.

(** C86. Without a NoData value the code uses -9999. "Then no cell of a uint8 array is NoData" is false: 241 is. Likewise -15 for int8, 55537 for
    uint16. *)
Theorem C86_default_refuted :
  (exists nd, setNoData Uint8 (PInt (-9999)) = Ok nd /\ forall v, isNoData (VI v) nd = true <-> v = 241) /\
  (exists nd, setNoData Int8 (PInt (-9999)) = Ok nd /\ forall v, isNoData (VI v) nd = true <-> v = -15) /\
  (exists nd, setNoData Uint16 (PInt (-9999)) = Ok nd /\ forall v, isNoData (VI v) nd = true <-> v = 55537).
Proof. repeat (split; [eexists; split; [reflexivity|]; intros v; cbn [isNoData]; rewrite Z.eqb_eq; reflexivity|]). eexists; split; [reflexivity|]; intros v; cbn [isNoData]; rewrite Z.eqb_eq; reflexivity. Qed.
Print Assumptions C86_default_refuted.

(** C86. Integer arrays, NoData given as a Python float (as LoadGDAL does) with an integer value: right if the value is one the type has and is
    exactly a float. Undefined if the nearest float is not a value of the type. *)
Theorem C86_integer_float : forall d (x : float64) n, int_type d -> is_finite x = true -> B2R x = IZR n ->
  (dmin d <= n <= dmax d -> is_float32 (IZR n) -> exists nd, setNoData d (PFloat x) = Ok nd /\ forall v, isNoData (VI v) nd = true <-> v = n) /\
  (forall m, nearest32 (IZR n) = IZR m -> (Rabs (IZR m) < bpow radix2 128)%R -> dmin d <= m <= dmax d -> exists nd, setNoData d (PFloat x) = Ok nd /\ forall v, isNoData (VI v) nd = true <-> v = m) /\
  (forall m, nearest32 (IZR n) = IZR m -> (Rabs (IZR m) < bpow radix2 128)%R -> ~ dmin d <= m <= dmax d -> setNoData d (PFloat x) = Undef).
Proof.
  intros d x n [N1 [N2 N3]] Fx Ex.
  assert (G : forall m, nearest32 (IZR n) = IZR m -> (Rabs (IZR m) < bpow radix2 128)%R ->
    setNoData d (PFloat x) = if (dmin d <=? m) && (m <=? dmax d) then Ok (VI m) else Undef).
  { intros m Em Lm. destruct (f32_of_f64_spec x Fx) as [H _]. rewrite Ex, Em in H. destruct (H Lm) as [H1 H2].
    assert (T : Btrunc (f32_of_f64 x) = m).
    { apply eq_IZR. rewrite Btrunc_correct by apply emax128. rewrite H1, round_FIX_IZR. rewrite Ztrunc_IZR. reflexivity. }
    unfold setNoData, cast_float. rewrite H2, T. destruct d; try congruence; reflexivity. }
  assert (G2 : forall m, nearest32 (IZR n) = IZR m -> (Rabs (IZR m) < bpow radix2 128)%R -> dmin d <= m <= dmax d -> exists nd, setNoData d (PFloat x) = Ok nd /\ forall v, isNoData (VI v) nd = true <-> v = m).
  { intros m Em Lm [L1 L2]. rewrite (G m Em Lm), (proj2 (Z.leb_le _ _) L1), (proj2 (Z.leb_le _ _) L2). cbn [andb]. eexists. split; [reflexivity|]. intros v. cbn [isNoData]. apply Z.eqb_eq. }
  split; [|split; [exact G2|]].
  - intros L Rn. apply G2; [apply round_generic; [apply valid_rnd_N|exact Rn]| |exact L].
    rewrite <- abs_IZR. change (bpow radix2 128) with (IZR (2 ^ 128)). apply IZR_lt.
    assert (- 2 ^ 63 <= dmin d /\ dmax d < 2 ^ 64) by (destruct d; unfold dmax; cbn; lia). change (2 ^ 128) with 340282366920938463463374607431768211456. lia.
  - intros m Em Lm L. rewrite (G m Em Lm). destruct (Z.leb_spec (dmin d) m); destruct (Z.leb_spec m (dmax d)); try reflexivity. exfalso. apply L. lia.
Qed.
Print Assumptions C86_integer_float.

(** C86. int32 with NoData 2147483647.0 is undefined behaviour; with -2147483647.0 another value is taken for NoData, and uint8 with -9999.0 is
    undefined. *)
Theorem C86_int32_refuted :
  setNoData Int32 (PFloat (f64_of_Z 2147483647)) = Undef /\ setNoData Int32 (PFloat (f64_of_Z (-2147483647))) = Ok (VI (-2147483648)) /\
  setNoData Uint8 (PFloat (f64_of_Z (-9999))) = Undef.
Proof. vm_compute. auto. Qed.
Print Assumptions C86_int32_refuted.

(** C86. float32 arrays, NoData given as a Python float: the cells that hold the nearest float are NoData, and no others. *)
Theorem C86_float32 : forall (x : float64), is_finite x = true -> (Rabs (nearest32 (B2R x)) < bpow radix2 128)%R ->
  exists nd, setNoData Float32 (PFloat x) = Ok nd /\ forall v : float32, is_finite v = true -> (isNoData (VF v) nd = true <-> B2R v = nearest32 (B2R x)).
Proof.
  intros x Fx L. destruct (f32_of_f64_spec x Fx) as [H _]. destruct (H L) as [H1 H2]. exists (VF (f32_of_f64 x)). split; [reflexivity|].
  intros v Fv. cbn [isNoData]. rewrite Beqb_correct by auto. rewrite H1. destruct (Req_bool_spec (B2R v) (nearest32 (B2R x))); split; auto; discriminate.
Qed.
Print Assumptions C86_float32.

(** C86. float64 arrays: the NoData value passes through a float. The cells that hold the given value are NoData if and only if it is exactly a float;
    if it is too big for a float no cell is NoData. *)
Theorem C86_float64 : forall (x : float64), is_finite x = true ->
  exists nd, setNoData Float64 (PFloat x) = Ok nd /\
    (isNoData (VD x) nd = true <-> is_float32 (B2R x) /\ (Rabs (B2R x) < bpow radix2 128)%R) /\
    (forall v : float64, is_finite v = true -> (Rabs (nearest32 (B2R x)) < bpow radix2 128)%R -> (isNoData (VD v) nd = true <-> B2R v = nearest32 (B2R x))) /\
    (forall v : float64, is_finite v = true -> (bpow radix2 128 <= Rabs (nearest32 (B2R x)))%R -> isNoData (VD v) nd = false).
Proof.
  intros x Fx. destruct (f32_of_f64_spec x Fx) as [H1 H2]. exists (VD (f64_of_f32 (f32_of_f64 x))). split; [reflexivity|].
  assert (A : forall v : float64, is_finite v = true -> (Rabs (nearest32 (B2R x)) < bpow radix2 128)%R -> (isNoData (VD v) (VD (f64_of_f32 (f32_of_f64 x))) = true <-> B2R v = nearest32 (B2R x))).
  { intros v Fv L. destruct (H1 L) as [E Ff]. rewrite isND_float64 by auto. rewrite E. reflexivity. }
  assert (B : forall v : float64, is_finite v = true -> (bpow radix2 128 <= Rabs (nearest32 (B2R x)))%R -> isNoData (VD v) (VD (f64_of_f32 (f32_of_f64 x))) = false).
  { intros v Fv L. destruct (H2 L) as [s ->]. cbn [f64_of_f32 isNoData]. destruct v as [s'|s'| |s' m e Hb]; try discriminate; destruct s; try destruct s'; reflexivity. }
  split; [|split; [exact A|exact B]]. split.
  - intros I. destruct (Rlt_or_le (Rabs (nearest32 (B2R x))) (bpow radix2 128)) as [L|L]; [|rewrite (B x Fx L) in I; discriminate].
    apply (A x Fx L) in I. rewrite I. split; [|exact L]. unfold is_float32, nearest32. apply generic_format_round; [apply FLT_exp_valid; reflexivity|apply valid_rnd_N].
  - intros [R L]. assert (Eq : nearest32 (B2R x) = B2R x) by (apply round_generic; [apply valid_rnd_N|exact R]). apply A; [exact Fx|rewrite Eq; exact L|symmetry; exact Eq].
Qed.
Print Assumptions C86_float64.

(** C86. With no_data=-9999.9 on a float64 array, and with the smallest double (a common NoData value of float64 files), cells that hold the NoData
    value are not treated as NoData. *)
Definition m99999 : float64 := Bdiv mode_NE (f64_of_Z (-99999)) (f64_of_Z 10).
Definition dbl_min : float64 := f64_of_Z (- ((2 ^ 53 - 1) * 2 ^ 971)).
Theorem C86_float64_refuted : forall x, x = m99999 \/ x = dbl_min ->
  is_finite x = true /\ exists nd, setNoData Float64 (PFloat x) = Ok nd /\ isNoData (VD x) nd = false.
Proof. intros x [-> | ->]; (split; [vm_compute; reflexivity|]; eexists; split; [reflexivity|]; vm_compute; reflexivity). Qed.
Print Assumptions C86_float64_refuted.

(** C86. no_data=NaN: no cell is NoData, not even the NaN cells; for an integer array it is undefined. *)
Theorem C86_nan :
  (exists nd, setNoData Float32 (PFloat B754_nan) = Ok nd /\ forall v, isNoData v nd = false) /\
  (exists nd, setNoData Float64 (PFloat B754_nan) = Ok nd /\ forall v, isNoData v nd = false) /\
  (forall d, int_type d -> setNoData d (PFloat B754_nan) = Undef).
Proof.
  split; [|split].
  - eexists. split; [reflexivity|]. intros [z|f|f]; cbn; try reflexivity; destruct f; reflexivity.
  - eexists. split; [reflexivity|]. intros [z|f|f]; cbn; try reflexivity; destruct f; reflexivity.
  - intros d [N1 [N2 N3]]. destruct d; try congruence; reflexivity.
Qed.
Print Assumptions C86_nan.

(** C86. What the no_data attribute is after FillDepressions, BreachDepressions or ResolveFlats (in_place=False): the value C++ used, so for a float64 array
    no longer the value the user gave, unless that is exactly a float. *)
Theorem C86_attribute : forall en (s : state float64 val) op dem o h w l x nd d,
  raster (E := num_env en) s dem o h w l nd -> o_dtype o = Float64 -> o_nodata o = Some (PFloat x) -> is_finite x = true ->
  en (cpp_function op) [] [mkAval (o_dtype o) w h nd l] = EOk d nd -> length d = length l ->
  exists r s' o' y, run (E := num_env en) op dem false s = Ret (Some r) s' /\ object (E := num_env en) s' r = Some o' /\ o_nodata o' = Some (PFloat y) /\
    ((Rabs (nearest32 (B2R x)) < bpow radix2 128)%R -> B2R y = nearest32 (B2R x)) /\
    (B2R y = B2R x /\ is_finite y = true <-> is_float32 (B2R x) /\ (Rabs (B2R x) < bpow radix2 128)%R).
Proof.
  intros en s op dem o h w l x nd d R D N Fx Eg L.
  destruct (C83_not_in_place (num_env en) s op dem o h w l nd d nd R Eg L) as [r [s' [o' [Q1 [_ [_ [_ [_ [Q2 [_ [_ [_ [_ Q3]]]]]]]]]]]]].
  assert (En : nd = VD (f64_of_f32 (f32_of_f64 x))).
  { destruct R as [_ [_ [_ [_ [_ [_ [_ [_ C]]]]]]]]. rewrite D, N in C. cbn in C. congruence. }
  exists r, s', o', (f64_of_f32 (f32_of_f64 x)). split; [exact Q1|]. split; [exact Q2|]. split; [rewrite Q3, D, En; reflexivity|].
  destruct (f32_of_f64_spec x Fx) as [H1 H2]. split.
  - intros Lx. destruct (H1 Lx) as [E Ff]. destruct (f64_of_f32_ok _ Ff) as [E1 _]. congruence.
  - split.
    + intros [E Fy]. destruct (Rlt_or_le (Rabs (nearest32 (B2R x))) (bpow radix2 128)) as [Lx|Lx].
      * destruct (H1 Lx) as [E2 Ff]. destruct (f64_of_f32_ok _ Ff) as [E1 _]. assert (Eq : B2R x = nearest32 (B2R x)) by congruence.
        rewrite Eq. split; [|exact Lx]. unfold is_float32, nearest32. apply generic_format_round; [apply FLT_exp_valid; reflexivity|apply valid_rnd_N].
      * destruct (H2 Lx) as [sg Ei]. rewrite Ei in Fy. discriminate.
    + intros [Rx Lx]. assert (Eq : nearest32 (B2R x) = B2R x) by (apply round_generic; [apply valid_rnd_N|exact Rx]). rewrite Eq in H1.
      destruct (H1 Lx) as [E2 Ff]. destruct (f64_of_f32_ok _ Ff) as [E1 E3]. split; [congruence|exact E3].
Qed.
Print Assumptions C86_attribute.

(** A 1x2 float64 array with no_data=-9999.9 whose first cell is NoData, and a C++ function that changes nothing. *)
Definition e_id : env := num_env (fun _ _ arrs => match arrs with [a] => EOk (v_data a) (v_nd a) | _ => EUndef end).
Definition s_id : state (F e_id) (V e_id) :=
  mkState [[VD m99999; VD (f64_of_Z 5)]] [mkObj KRd 0 0 [1; 2] [2; 1] Float64 (Some (PFloat m99999)) GNone EmptyString []].
Example C86_example : exists o nd, raster (E := e_id) s_id 0 o 1 2 [VD m99999; VD (f64_of_Z 5)] nd /\ o_dtype o = Float64 /\ o_nodata o = Some (PFloat m99999) /\
  isNoData (VD m99999) nd = false.
Proof.
  exists (mkObj KRd 0 0 [1; 2] [2; 1] Float64 (Some (PFloat m99999)) GNone EmptyString []), (VD (f64_of_f32 (f32_of_f64 m99999))).
  split; [|split; [reflexivity|split; [reflexivity|vm_compute; reflexivity]]].
  split; [reflexivity|]. split; [reflexivity|]. split; [discriminate|]. split; [lia|]. split; [lia|]. split; [reflexivity|]. split; [reflexivity|]. split; [|reflexivity].
  eexists. split; [reflexivity|]. split; [reflexivity|]. split; [reflexivity|]. intros y x Hy Hx. assert (y = 0) by lia. assert (Cx : x = 0 \/ x = 1) by lia. subst y.
  destruct Cx as [->| ->]; reflexivity.
Qed.
