(** D-infinity flow directions. *)
From Coq Require Import ZArith Reals List Bool Permutation Lra Lia Psatz.
From Verif Require Import Base Res RasterSpec RasterFacts FlowModel FlowSpec FlowProofs TAModel TAProofs DinfModel DinfSpec.
Import ListNotations.
Open Scope R_scope.

(** * One facet *)
Lemma datan2_11 : datan2 1 1 = PI / 4.
Proof.
  unfold datan2. destruct (Req_EM_T 1 0); [lra|]. unfold atan2. destruct (Rlt_dec 0 1); [|lra].
  replace (1 / 1) with 1 by field. apply atan_1.
Qed.
Lemma sqrt2_pos : 0 < sqrt 2.
Proof. apply sqrt_lt_R0. lra. Qed.
Lemma sqrt2_sq : sqrt 2 * sqrt 2 = 2.
Proof. apply sqrt_sqrt. lra. Qed.
Lemma cos_pi4 : cos (PI / 4) = 1 / sqrt 2.
Proof. apply cos_PI4. Qed.
Lemma sin_pi4 : sin (PI / 4) = 1 / sqrt 2.
Proof. apply sin_PI4. Qed.

Lemma sq_nonneg a : 0 <= a * a.
Proof. assert (H := Rle_0_sqr a). exact H. Qed.
Lemma cauchy a b s1 s2 : a * s1 + b * s2 <= sqrt (s1 * s1 + s2 * s2) * sqrt (a * a + b * b).
Proof.
  assert (A := sq_nonneg a). assert (B := sq_nonneg b). assert (C := sq_nonneg s1). assert (D := sq_nonneg s2).
  rewrite <- sqrt_mult by lra. apply Rle_trans with (Rabs (a * s1 + b * s2)); [apply Rle_abs|].
  rewrite <- sqrt_Rsqr_abs. apply sqrt_le_1_alt. unfold Rsqr.
  assert (E := sq_nonneg (a * s2 - b * s1)). nra.
Qed.
Lemma facet_ok e0 e1 e2 r s : facet e0 e1 e2 = (r, s) ->
  0 <= r <= PI / 4 /\ s = (e0 - e1) * cos r + (e1 - e2) * sin r /\
  (forall a b, b <= a -> 0 <= b -> a * (e0 - e1) + b * (e1 - e2) <= Rmax s 0 * sqrt (a * a + b * b)).
Proof.
  unfold facet. rewrite datan2_11. set (s1 := e0 - e1). set (s2 := e1 - e2).
  assert (HPI := PI_RGT_0).
  replace (s1 / 1) with s1 by field. replace (s2 / 1) with s2 by field.
  assert (Sq : forall a b, 0 <= sqrt (a * a + b * b)) by (intros; apply sqrt_pos).
  assert (Sa : forall a b, 0 <= a -> a <= sqrt (a * a + b * b)).
  { intros a b Ha. rewrite <- (sqrt_square a) at 1 by exact Ha. apply sqrt_le_1_alt. nra. }
  destruct (Req_EM_T s1 0) as [Z1|N1]; [destruct (Req_EM_T s2 0) as [Z2|N2]|].
  { (* level *)
    assert (E : datan2 s2 s1 = 0) by (unfold datan2; destruct (Req_EM_T s2 0); [|contradiction]; destruct (Req_EM_T s1 0); [reflexivity|contradiction]).
    rewrite E. destruct (Rlt_dec 0 0); [lra|]. destruct (Rgt_dec 0 (PI / 4)); [lra|]. intros [= <- <-].
    rewrite Z1, Z2. replace (0 * 0 + 0 * 0) with 0 by ring. rewrite sqrt_0.
    split; [lra|]. split; [ring|]. intros a b H1 H2. assert (M := Rmax_r 0 0). assert (S := Sq a b). nra. }
  all: assert (NZ : s2 <> 0 \/ s1 <> 0) by tauto;
    assert (E : datan2 s2 s1 = atan2 s2 s1) by (unfold datan2; destruct (Req_EM_T s2 0); [|reflexivity]; destruct (Req_EM_T s1 0); [tauto|reflexivity]);
    rewrite E; destruct (atan2_polar s2 s1 NZ) as [rho [Hr [E1 E2]]]; assert (RG := atan2_range s2 s1);
    set (phi := atan2 s2 s1) in *; clear E;
    (destruct (Rlt_dec phi 0) as [L|L]; [|destruct (Rgt_dec phi (PI / 4)) as [G|G]]); intros [= <- <-].
  all: try (assert (S2 : s2 < 0) by (rewrite E2; assert (sin phi < 0) by (apply sin_lt_0_var; lra); nra);
    split; [lra|]; split; [rewrite cos_0, sin_0; ring|];
    intros a b H1 H2; assert (M1 := Rmax_l s1 0); assert (M2 := Rmax_r s1 0); assert (SA := Sa a b ltac:(lra));
    assert (a * s1 + b * s2 <= a * s1) by nra;
    assert (a * s1 <= Rmax s1 0 * a) by nra; nra).
  all: try (assert (S12 : s1 <= s2)
      by (rewrite E1, E2; assert (K : 0 <= sin (phi - PI / 4)) by (apply sin_ge_0; lra);
          rewrite sin_minus, cos_pi4, sin_pi4 in K; assert (S2 := sqrt2_pos);
          assert (0 <= sin phi - cos phi) by
            (replace (sin phi * (1 / sqrt 2) - cos phi * (1 / sqrt 2)) with ((sin phi - cos phi) / sqrt 2) in K by (field; lra);
             apply (Rmult_le_compat_r (sqrt 2)) in K; [|lra]; rewrite Rmult_0_l in K;
             replace ((sin phi - cos phi) / sqrt 2 * sqrt 2) with (sin phi - cos phi) in K by (field; lra); lra); nra);
    replace (1 * 1 + 1 * 1) with 2 by ring; replace (e0 - e2) with (s1 + s2) by (unfold s1, s2; ring);
    split; [lra|]; split; [rewrite cos_pi4, sin_pi4; field; assert (S2 := sqrt2_pos); lra|];
    intros a b H1 H2; set (S := (s1 + s2) / sqrt 2);
    assert (S2 := sqrt2_pos); assert (SS := sqrt2_sq);
    assert (M1 := Rmax_l S 0); assert (M2 := Rmax_r S 0);
    assert (D : (a + b) / sqrt 2 <= sqrt (a * a + b * b))
      by (apply Rsqr_incr_0_var; [|apply Sq]; rewrite Rsqr_sqrt by nra; unfold Rsqr;
          replace ((a + b) / sqrt 2 * ((a + b) / sqrt 2)) with ((a + b) * (a + b) / (sqrt 2 * sqrt 2)) by (field; lra);
          rewrite SS; assert (0 <= (a - b) * (a - b)) by nra; nra);
    assert (ES : s1 + s2 = S * sqrt 2) by (unfold S; field; lra);
    assert (F : a * s1 + b * s2 <= (s1 + s2) * (a + b) / 2) by nra;
    assert (F2 : (s1 + s2) * (a + b) / 2 = S * ((a + b) / sqrt 2))
      by (rewrite ES; apply (Rmult_eq_reg_l (sqrt 2)); [|lra]; 
          replace (sqrt 2 * (S * sqrt 2 * (a + b) / 2)) with (S * (a + b) * (sqrt 2 * sqrt 2) / 2) by field;
          rewrite SS; field; lra);
    assert (F3 : 0 <= (a + b) / sqrt 2) by (apply Rmult_le_pos; [lra|left; apply Rinv_0_lt_compat; lra]);
    rewrite F2 in F; nra).
  all: assert (SR : sqrt (s1 * s1 + s2 * s2) = rho)
      by (rewrite E1, E2; replace (rho * cos phi * (rho * cos phi) + rho * sin phi * (rho * sin phi)) with (rho * rho * (Rsqr (sin phi) + Rsqr (cos phi))) by (unfold Rsqr; ring);
          rewrite sin2_cos2, Rmult_1_r; apply sqrt_square; lra);
    rewrite SR; split; [lra|]; split;
    [ assert (K := sin2_cos2 phi); unfold Rsqr in K; rewrite E1, E2;
      replace (rho * cos phi * cos phi + rho * sin phi * sin phi) with (rho * (sin phi * sin phi + cos phi * cos phi)) by ring; rewrite K; ring
    | intros a b H1 H2; rewrite Rmax_left by lra; rewrite <- SR; apply cauchy ].
Qed.

(** * The eight facets *)
Definition off1 (n : Z) : Z * Z := (nth (Z.to_nat n) dx_e1 0%Z, nth (Z.to_nat n) dy_e1 0%Z).
Definition off2 (n : Z) : Z * Z := (nth (Z.to_nat n) dx_e2 0%Z, nth (Z.to_nat n) dy_e2 0%Z).
Lemma facet_cases (n : Z) : (0 <= n < 8)%Z -> In n [0; 1; 2; 3; 4; 5; 6; 7]%Z.
Proof. intros H. cbn. lia. Qed.
Ltac each H := apply facet_cases in H; cbn in H; repeat (destruct H as [<-|H]); [..|destruct H].

Ltac offs := repeat match goal with
  | |- context [off1 ?k] => let v := eval vm_compute in (off1 k) in change (off1 k) with v
  | |- context [off2 ?k] => let v := eval vm_compute in (off2 k) in change (off2 k) with v
  end; cbn [fst snd].
Lemma triangle_of n : (0 <= n < 8)%Z -> triangle (off1 n) (off2 n).
Proof. intros H. each H; vm_compute; repeat split. Qed.
Lemma small_cases a : (-1 <= a <= 1)%Z -> a = (-1)%Z \/ a = 0%Z \/ a = 1%Z.
Proof. lia. Qed.
Lemma triangle_facet p q : triangle p q -> exists n, (0 <= n < 8)%Z /\ p = off1 n /\ q = off2 n.
Proof.
  destruct p as [a b], q as [c d]. unfold triangle. cbn [fst snd]. intros [H1 [H2 [H3 H4]]].
  assert (A := small_cases a ltac:(lia)). assert (B := small_cases b ltac:(lia)).
  assert (C := small_cases c ltac:(lia)). assert (D := small_cases d ltac:(lia)).
  destruct A as [->|[->| ->]], B as [->|[->| ->]], C as [->|[->| ->]], D as [->|[->| ->]]; cbn in H1, H2, H3, H4; try lia;
    first [ exists 0%Z; split; [lia|split; reflexivity] | exists 1%Z; split; [lia|split; reflexivity] | exists 2%Z; split; [lia|split; reflexivity]
          | exists 3%Z; split; [lia|split; reflexivity] | exists 4%Z; split; [lia|split; reflexivity] | exists 5%Z; split; [lia|split; reflexivity]
          | exists 6%Z; split; [lia|split; reflexivity] | exists 7%Z; split; [lia|split; reflexivity] ].
Qed.
Lemma dist_eq n u v : (0 <= n < 8)%Z -> dist (off1 n) (off2 n) u v = sqrt ((u + v) * (u + v) + v * v).
Proof. intros H. unfold dist. f_equal. each H; offs; ring. Qed.

Section cell.
  Variables (w h : Z) (e : grid R) (x y : Z).
  Definition e1of n := e (x + fst (off1 n))%Z (y + snd (off1 n))%Z.
  Definition e2of n := e (x + fst (off2 n))%Z (y + snd (off2 n))%Z.
  Definition Fc (n : Z) : R * R := facet (e x y) (e1of n) (e2of n).
  Lemma drop_eq n u v : drop e x y (off1 n) (off2 n) u v = (u + v) * (e x y - e1of n) + v * (e1of n - e2of n).
  Proof. unfold drop, e1of, e2of. ring. Qed.
  Lemma drop_le n u v : (0 <= n < 8)%Z -> 0 <= u -> 0 <= v ->
    drop e x y (off1 n) (off2 n) u v <= Rmax (snd (Fc n)) 0 * dist (off1 n) (off2 n) u v.
  Proof.
    intros Hn Hu Hv. rewrite drop_eq, dist_eq by exact Hn. destruct (Fc n) as [r s] eqn:E.
    destruct (facet_ok _ _ _ _ _ E) as [_ [_ H]]. apply H; lra.
  Qed.

  Hypothesis inner : forall i j, (-1 <= i <= 1)%Z -> (-1 <= j <= 1)%Z -> in_raster w h (x + i) (y + j).
  Lemma step_pure n nm sm rm : (0 <= n < 8)%Z ->
    facet_step w h e x y n (nm, sm, rm) = Ok (if Rgt_dec (snd (Fc n)) sm then (n, snd (Fc n), fst (Fc n)) else (nm, sm, rm)).
  Proof.
    intros Hn. unfold facet_step.
    assert (T : rd dx_e1 n = Ok (fst (off1 n)) /\ rd dy_e1 n = Ok (snd (off1 n)) /\
                rd dx_e2 n = Ok (fst (off2 n)) /\ rd dy_e2 n = Ok (snd (off2 n))).
    { each Hn; repeat split; reflexivity. }
    destruct T as [-> [-> [-> ->]]]. cbn [bind].
    assert (B : (-1 <= fst (off1 n) <= 1 /\ -1 <= snd (off1 n) <= 1 /\ -1 <= fst (off2 n) <= 1 /\ -1 <= snd (off2 n) <= 1)%Z).
    { each Hn; offs; lia. }
    destruct B as [B1 [B2 [B3 B4]]].
    assert (H0 := inner 0 0 ltac:(lia) ltac:(lia)). rewrite !Z.add_0_r in H0.
    rewrite (gat_ok w h e x y H0), (gat_ok w h e _ _ (inner _ _ B1 B2)), (gat_ok w h e _ _ (inner _ _ B3 B4)). cbn [bind].
    fold (e1of n). fold (e2of n). unfold Fc. destruct (facet (e x y) (e1of n) (e2of n)) as [r s]. cbn [fst snd].
    destruct (Rgt_dec s sm); reflexivity.
  Qed.

  Definition finv (k : nat) (st : Z * R * R) : Prop :=
    let '(nm, sm, rm) := st in
    (forall n, (0 <= n < Z.of_nat k)%Z -> snd (Fc n) <= sm) /\
    ((nm = (-1)%Z /\ sm = 0) \/
     ((0 <= nm < Z.of_nat k)%Z /\ 0 < sm /\ Fc nm = (rm, sm) /\ forall n, (0 <= n < nm)%Z -> snd (Fc n) < sm)).
  Lemma floop k : (k <= 8)%nat -> exists st, forM (zrange 0 k) (facet_step w h e x y) ((-1)%Z, 0, 0) = Ok st /\ finv k st.
  Proof.
    induction k as [|k IH]; intros Hk.
    - exists ((-1)%Z, 0, 0). split; [reflexivity|]. unfold finv. split; [intros; lia|]. left. split; reflexivity.
    - destruct IH as [[[nm sm] rm] [E [H1 H2]]]; [lia|].
      assert (Z : zrange 0 (S k) = zrange 0 k ++ [Z.of_nat k]).
      { replace (S k) with (k + 1)%nat by lia. rewrite zrange_app. reflexivity. }
      rewrite Z, forM_app, E. cbn [bind forM]. rewrite step_pure by lia. cbn [bind].
      destruct (Fc (Z.of_nat k)) as [r s] eqn:EF. cbn [fst snd].
      eexists. split; [reflexivity|].
      destruct (Rgt_dec s sm) as [G|G]; unfold finv.
      + split.
        * intros n Hn. destruct (Z.eq_dec n (Z.of_nat k)) as [->|]; [rewrite EF; cbn [snd]; lra|]. specialize (H1 n ltac:(lia)). lra.
        * right. split; [lia|]. split; [destruct H2 as [[_ ->]|[_ [P _]]]; lra|]. split; [exact EF|].
          intros n Hn. specialize (H1 n ltac:(lia)). lra.
      + split.
        * intros n Hn. destruct (Z.eq_dec n (Z.of_nat k)) as [->|]; [rewrite EF; cbn [snd]; lra|]. apply H1. lia.
        * destruct H2 as [H2|[A [B [C D]]]]; [left; exact H2|right]. split; [lia|]. auto.
  Qed.
End cell.
