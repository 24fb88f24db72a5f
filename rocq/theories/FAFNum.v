(** Rounding facts: exactness on small integers and relative error of sums of non-negative terms. *)
From Coq Require Import ZArith List Lia Bool Reals Lra Permutation.
From Flocq Require Import Core BinarySingleNaN Relative Plus_error.
From Verif Require Import FAFModel.
Open Scope R_scope.

Notation fexp64 := (FLT_exp (-1074) 53).
Notation rnd64 := (round radix2 fexp64 ZnearestE).
Definition u : R := bpow radix2 (-53).

Lemma fexp_eq : SpecFloat.fexp 53 1024 = fexp64. Proof. reflexivity. Qed.
Lemma fexp32_eq : SpecFloat.fexp 24 128 = FLT_exp (-149) 24. Proof. reflexivity. Qed.

Lemma f64_format (x : float64) : generic_format radix2 fexp64 (B2R x).
Proof. rewrite <- fexp_eq. apply generic_format_B2R. Qed.
Lemma f32_format (x : float32) : generic_format radix2 (FLT_exp (-149) 24) (B2R x).
Proof. rewrite <- fexp32_eq. apply generic_format_B2R. Qed.

Lemma f32_is_f64 x : generic_format radix2 (FLT_exp (-149) 24) x -> generic_format radix2 fexp64 x.
Proof.
  apply generic_inclusion_mag. intros _. unfold FLT_exp. lia.
Qed.

Lemma f32_bound (x : float32) : Rabs (B2R x) < bpow radix2 128.
Proof. apply abs_B2R_lt_emax. Qed.

Lemma f64_of_f32_ok (x : float32) : is_finite x = true -> B2R (f64_of_f32 x) = B2R x /\ is_finite (f64_of_f32 x) = true.
Proof.
  destruct x as [s|s| |s m e Hb] eqn:Ex; try discriminate; [intros _; split; reflexivity|]. intros _. cbn [f64_of_f32].
  pose proof (binary_normalize_correct 53 1024 _ _ mode_NE (if s then Zneg m else Zpos m) e s) as H. cbv zeta in H.
  assert (E : F2R (Float radix2 (if s then Zneg m else Zpos m) e) = B2R (B754_finite s m e Hb : float32)) by (destruct s; reflexivity).
  rewrite E in H. rewrite fexp_eq in H. cbn [round_mode] in H.
  assert (G : rnd64 (B2R (B754_finite s m e Hb : float32)) = B2R (B754_finite s m e Hb : float32)).
  { apply round_generic; [apply valid_rnd_N|]. apply f32_is_f64, f32_format. }
  rewrite G in H. rewrite Rlt_bool_true in H.
  - destruct H as [H1 [H2 _]]. auto.
  - eapply Rlt_trans; [apply f32_bound|]. apply bpow_lt. lia.
Qed.

Lemma B2R_0 : B2R (f32_of_Z 0) = 0. Proof. reflexivity. Qed.
Lemma fin_0 : is_finite (f32_of_Z 0) = true. Proof. reflexivity. Qed.
Lemma posf_iff x : is_finite x = true -> posf x = true <-> 0 < B2R x.
Proof.
  intros F. unfold posf. rewrite Bltb_correct, B2R_0 by auto using fin_0.
  destruct (Rlt_bool_spec 0 (B2R x)) as [H|H]; split; intros K; try discriminate; auto. lra.
Qed.
Lemma nonposf_ok x : is_finite x = true -> nonposf x = negb (posf x).
Proof.
  intros F. unfold nonposf, posf. rewrite Bltb_correct, Bleb_correct, B2R_0 by auto using fin_0.
  destruct (Rle_bool_spec (B2R x) 0), (Rlt_bool_spec 0 (B2R x)); try reflexivity; lra.
Qed.
Lemma nd_iff x : is_finite x = true -> Beqb x (f32_of_Z (-2)) = true <-> B2R x = -2.
Proof.
  intros F. rewrite Beqb_correct; [|auto|reflexivity].
  assert (E : B2R (f32_of_Z (-2)) = -2).
  { unfold f32_of_Z. pose proof (binary_normalize_correct 24 128 _ _ mode_NE (-2) 0 false) as H. cbv zeta in H.
    assert (E : F2R (Float radix2 (-2) 0) = -2) by (unfold F2R; cbn; lra). rewrite E in H. rewrite fexp32_eq in H.
    assert (G : round radix2 (FLT_exp (-149) 24) (round_mode mode_NE) (-2) = -2).
    { apply round_generic; [apply valid_rnd_N|]. apply generic_format_FLT. exists (Float radix2 (-2) 0); cbn; [symmetry; exact E|lia|lia]. }
    rewrite G in H. rewrite Rlt_bool_true in H; [apply H|]. rewrite Rabs_left by lra. replace (- -2) with (bpow radix2 1) by (cbn; lra). apply bpow_lt. lia. }
  rewrite E. destruct (Req_bool_spec (B2R x) (-2)); split; auto; discriminate.
Qed.
Lemma f32_min (x : float32) : is_finite x = true -> 0 < B2R x -> bpow radix2 (-149) <= B2R x.
Proof.
  intros F H. pose proof (f32_format x) as G. destruct x as [s|s| |s m e Hb]; try (cbn in H; lra).
  cbn [B2R] in *. unfold F2R in *. cbn [Fnum Fexp] in *.
  assert (Hs : s = false). { destruct s; [|auto]. cbn in H. pose proof (bpow_gt_0 radix2 e). assert (IZR (Z.neg m) < 0) by (apply IZR_lt; lia). nra. }
  subst s. cbn [cond_Zopp] in *.
  assert (He : (-149 <= e)%Z).
  { pose proof Hb as Hb'. clear -Hb'. rename Hb' into Hb. unfold SpecFloat.bounded, SpecFloat.canonical_mantissa in Hb. apply andb_prop in Hb. destruct Hb as [Hb _]. apply Zeq_bool_eq in Hb.
    unfold SpecFloat.fexp, SpecFloat.emin in Hb. lia. }
  apply Rle_trans with (1 * bpow radix2 e).
  - rewrite Rmult_1_l. apply bpow_le. auto.
  - apply Rmult_le_compat_r; [apply bpow_ge_0|]. apply IZR_le. lia.
Qed.

(** ** exact operations *)
Lemma int_format n : (Z.abs n < 2 ^ 53)%Z -> generic_format radix2 fexp64 (IZR n).
Proof.
  intros H. apply generic_format_FLT. exists (Float radix2 n 0); cbn [Fnum Fexp]; [unfold F2R; cbn; lra|exact H|lia].
Qed.

Lemma plus_exact (a b : float64) : is_finite a = true -> is_finite b = true -> generic_format radix2 fexp64 (B2R a + B2R b) ->
  Rabs (B2R a + B2R b) < bpow radix2 1024 -> B2R (Bplus mode_NE a b) = B2R a + B2R b /\ is_finite (Bplus mode_NE a b) = true.
Proof.
  intros Fa Fb G L. pose proof (Bplus_correct 53 1024 _ _ mode_NE a b Fa Fb) as H. rewrite fexp_eq in H. cbn [round_mode] in H.
  rewrite (round_generic radix2 fexp64 ZnearestE _ G) in H. rewrite Rlt_bool_true in H by auto. tauto.
Qed.
Lemma mult_exact (a b : float64) : is_finite a = true -> is_finite b = true -> generic_format radix2 fexp64 (B2R a * B2R b) ->
  Rabs (B2R a * B2R b) < bpow radix2 1024 -> B2R (Bmult mode_NE a b) = B2R a * B2R b /\ is_finite (Bmult mode_NE a b) = true.
Proof.
  intros Fa Fb G L. pose proof (Bmult_correct 53 1024 _ _ mode_NE a b) as H. rewrite fexp_eq in H. cbn [round_mode] in H.
  rewrite (round_generic radix2 fexp64 ZnearestE _ G) in H. rewrite Rlt_bool_true in H by auto. rewrite Fa, Fb in H. tauto.
Qed.

(** ** operations with a relative error *)
Lemma u_eq : u_ro radix2 53 = u.
Proof. unfold u_ro, u. rewrite bpow_plus. change (bpow radix2 1) with 2. change (bpow radix2 (- (53))) with (bpow radix2 (-53)). field. Qed.
Lemma u_pos : 0 < u. Proof. apply bpow_gt_0. Qed.
Lemma u_small : u <= /2. Proof. unfold u. change (/2) with (bpow radix2 (-1)). apply bpow_le. lia. Qed.

Lemma plus_err (a b : float64) : is_finite a = true -> is_finite b = true -> Rabs (B2R a + B2R b) <= bpow radix2 1000 ->
  exists d, Rabs d <= u /\ B2R (Bplus mode_NE a b) = (B2R a + B2R b) * (1 + d) /\ is_finite (Bplus mode_NE a b) = true.
Proof.
  intros Fa Fb L. pose proof (Bplus_correct 53 1024 _ _ mode_NE a b Fa Fb) as H. rewrite fexp_eq in H. cbn [round_mode] in H.
  destruct (FLT_plus_error_N_ex radix2 (-1074) 53 (fun x => negb (Z.even x)) (B2R a) (B2R b) (f64_format a) (f64_format b)) as [d [Hd E]].
  assert (Hd' : Rabs d <= u). { eapply Rle_trans; [exact Hd|]. rewrite <- u_eq. apply u_rod1pu_ro_le_u_ro. }
  rewrite E in H. exists d. rewrite Rlt_bool_true in H; [tauto|]. rewrite Rabs_mult.
  apply Rle_lt_trans with (bpow radix2 1000 * 2).
  - apply Rmult_le_compat; auto using Rabs_pos. pose proof u_small. apply Rabs_le_inv in Hd'. apply Rabs_le. lra.
  - change 2 with (bpow radix2 1). rewrite <- bpow_plus. apply bpow_lt. lia.
Qed.
Lemma mult_err (a b : float64) : is_finite a = true -> is_finite b = true ->
  B2R a * B2R b = 0 \/ bpow radix2 (-1000) <= Rabs (B2R a * B2R b) <= bpow radix2 1000 ->
  exists d, Rabs d <= u /\ B2R (Bmult mode_NE a b) = (B2R a * B2R b) * (1 + d) /\ is_finite (Bmult mode_NE a b) = true.
Proof.
  intros Fa Fb [Z|[L1 L2]].
  - destruct (mult_exact a b Fa Fb) as [E F]; [rewrite Z; apply generic_format_0|rewrite Z, Rabs_R0; apply bpow_gt_0|].
    exists 0. rewrite Rabs_R0. split; [apply Rlt_le, u_pos|]. split; [rewrite E; ring|auto].
  - pose proof (Bmult_correct 53 1024 _ _ mode_NE a b) as H. rewrite fexp_eq in H. cbn [round_mode] in H. rewrite Fa, Fb in H.
    destruct (relative_error_N_FLT_ex radix2 (-1074) 53 ltac:(lia) (fun x => negb (Z.even x)) (B2R a * B2R b)) as [d [Hd E]].
    { eapply Rle_trans; [|exact L1]. apply bpow_le. lia. }
    assert (Hd' : Rabs d <= u). { fold (u_ro radix2 53) in Hd. rewrite u_eq in Hd. exact Hd. }
    rewrite E in H. exists d. rewrite Rlt_bool_true in H; [tauto|]. rewrite Rabs_mult.
    apply Rle_lt_trans with (bpow radix2 1000 * 2).
    + apply Rmult_le_compat; auto using Rabs_pos. pose proof u_small. apply Rabs_le_inv in Hd'. apply Rabs_le. lra.
    + change 2 with (bpow radix2 1). rewrite <- bpow_plus. apply bpow_lt. lia.
Qed.

(** [y] approximates [x] to within [k] roundings *)
Definition near (k : nat) (x y : R) : Prop := (1 - u) ^ k * x <= y <= (1 + u) ^ k * x.

Lemma near_0 x : near 0 x x. Proof. unfold near. cbn. lra. Qed.
Lemma near_zero k y : near k 0 y -> y = 0. Proof. unfold near. intros [A B]. lra. Qed.
Lemma near_S k x y : 0 <= x -> near k x y -> near (S k) x y.
Proof.
  intros Hx [A B]. pose proof u_pos. pose proof u_small.
  assert (0 <= (1 - u) ^ k) by (apply pow_le; lra). assert (0 <= (1 + u) ^ k) by (apply pow_le; lra).
  unfold near. cbn [pow]. split.
  - eapply Rle_trans; [|exact A]. apply Rmult_le_compat_r; [auto|]. rewrite <- (Rmult_1_l ((1-u)^k)) at 2. apply Rmult_le_compat_r; lra.
  - eapply Rle_trans; [exact B|]. apply Rmult_le_compat_r; [auto|]. rewrite <- (Rmult_1_l ((1+u)^k)) at 1. apply Rmult_le_compat_r; lra.
Qed.
Lemma near_le k k' x y : (k <= k')%nat -> 0 <= x -> near k x y -> near k' x y.
Proof. intros H Hx N. induction H; [auto|]. apply near_S; auto. Qed.
Lemma near_plus k x y x' y' : near k x y -> near k x' y' -> near k (x + x') (y + y').
Proof. unfold near. intros [A B] [C D]. split; rewrite Rmult_plus_distr_l; lra. Qed.
Lemma near_scale k c x y : 0 <= c -> near k x y -> near k (c * x) (c * y).
Proof.
  unfold near. intros Hc [A B]. split.
  - replace ((1 - u) ^ k * (c * x)) with (c * ((1 - u) ^ k * x)) by ring. apply Rmult_le_compat_l; auto.
  - replace ((1 + u) ^ k * (c * x)) with (c * ((1 + u) ^ k * x)) by ring. apply Rmult_le_compat_l; auto.
Qed.
Lemma near_pos k x y : 0 <= x -> near k x y -> 0 <= y.
Proof.
  intros Hx [A _]. eapply Rle_trans; [|exact A]. apply Rmult_le_pos; [|auto]. apply pow_le. pose proof u_small. lra.
Qed.
Lemma near_round k x y d : 0 <= x -> near k x y -> Rabs d <= u -> near (S k) x (y * (1 + d)).
Proof.
  intros Hx N Hd. pose proof (near_pos _ _ _ Hx N) as Hy. destruct N as [A B]. apply Rabs_le_inv in Hd. pose proof u_small. pose proof u_pos.
  unfold near. cbn [pow]. split.
  - apply Rle_trans with (y * (1 - u)).
    + rewrite Rmult_assoc, Rmult_comm. apply Rmult_le_compat_r; lra.
    + apply Rmult_le_compat_l; lra.
  - apply Rle_trans with (y * (1 + u)).
    + apply Rmult_le_compat_l; lra.
    + rewrite Rmult_assoc, (Rmult_comm y). apply Rmult_le_compat_l; lra.
Qed.

Lemma pow_lower k : 1 - INR k * u <= (1 - u) ^ k.
Proof.
  pose proof u_pos. pose proof u_small. induction k as [|k IH]; [cbn; lra|]. rewrite S_INR. cbn [pow].
  assert (0 <= (1 - u) ^ k) by (apply pow_le; lra). assert ((1 - u) ^ k <= 1).
  { pose proof (pow_incr (1 - u) 1 k ltac:(lra)) as P. rewrite pow1 in P. exact P. }
  assert (u * (1 - u) ^ k <= u * 1) by (apply Rmult_le_compat_l; lra). lra.
Qed.
Lemma pow_upper k : INR k * u <= /2 -> (1 + u) ^ k <= 1 + 2 * (INR k * u).
Proof.
  pose proof u_pos. induction k as [|k IH]; [cbn; lra|]. rewrite S_INR. cbn [pow]. intros H1.
  assert (K : INR k * u <= /2) by lra. specialize (IH K). pose proof (pos_INR k). assert (0 <= INR k * u) by nra. set (t := INR k * u) in *.
  apply Rle_trans with ((1 + u) * (1 + 2 * t)); [apply Rmult_le_compat_l; lra|]. replace ((INR k + 1) * u) with (t + u) by (unfold t; ring). assert (t * u <= /2 * u) by (apply Rmult_le_compat_r; lra). lra.
Qed.
Lemma near_double k x y : INR k * u <= /2 -> 0 <= x -> near k x y -> /2 * x <= y <= 2 * x.
Proof.
  intros H Hx [A B]. pose proof (pow_lower k). pose proof (pow_upper k H). split.
  - eapply Rle_trans; [|exact A]. apply Rmult_le_compat_r; [auto|lra].
  - eapply Rle_trans; [exact B|]. apply Rmult_le_compat_r; [auto|lra].
Qed.
Lemma near_error k x y : INR k * u <= /2 -> 0 <= x -> near k x y -> Rabs (y - x) <= 2 * (INR k * u) * x.
Proof.
  intros H Hx [A B]. pose proof (pow_lower k) as L. pose proof (pow_upper k H) as U. pose proof (pos_INR k). pose proof u_pos.
  assert (0 <= INR k * u) by nra. apply Rabs_le. split.
  - assert ((1 - INR k * u) * x <= (1 - u) ^ k * x) by (apply Rmult_le_compat_r; auto). nra.
  - assert ((1 + u) ^ k * x <= (1 + 2 * (INR k * u)) * x) by (apply Rmult_le_compat_r; auto). nra.
Qed.

Definition rsum (l : list R) : R := fold_right Rplus 0 l.
Lemma rsum_nonneg l : (forall x, In x l -> 0 <= x) -> 0 <= rsum l.
Proof. induction l as [|a l IH]; intros H; cbn; [lra|]. assert (0 <= a) by (apply H; left; auto). assert (0 <= rsum l) by (apply IH; intros; apply H; right; auto). unfold rsum in *. lra. Qed.
Lemma rsum_perm l l' : Permutation l l' -> rsum l = rsum l'.
Proof. induction 1; unfold rsum in *; cbn; lra. Qed.
