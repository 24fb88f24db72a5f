(** Proofs about the terrain attributes. *)
From Coq Require Import ZArith Reals List Lia Lra Bool Permutation.
From Verif Require Import Base RasterSpec RasterFacts AreaSpec TAModel TASpec.
Import ListNotations.
Open Scope R_scope.

Lemma sq_nonneg a : 0 <= a * a.
Proof. apply Rle_0_sqr. Qed.

(** ** Heights *)
Section Cell.
  Variables (w h : Z) (e : grid R) (nodata : grid bool) (zscale : R) (x y : Z).
  Notation lk := (look w h e nodata x y).
  Lemma look_height x' y' : height w h e nodata zscale x y x' y' (zscale * lk x' y').
  Proof.
    unfold height, look, has_data. destruct (inGrid w h x' y') eqn:G; cbn [andb]; [|split; [intros [X _]; apply in_raster_iff in X; congruence|reflexivity]].
    apply in_raster_iff in G. destruct (nodata x' y') eqn:N; cbn [negb]; split; try reflexivity; [intros [_ X]; discriminate X|]. intros X. exfalso. apply X. auto.
  Qed.
  Lemma height_fun x' y' a b : height w h e nodata zscale x y x' y' a -> height w h e nodata zscale x y x' y' b -> a = b.
  Proof.
    intros [A B] [A' B']. assert (D : has_data w h nodata x' y' \/ ~ has_data w h nodata x' y').
    { unfold has_data. assert (in_raster w h x' y' \/ ~ in_raster w h x' y') by (unfold in_raster; lia). destruct (nodata x' y'); [right; intros [_ X]; discriminate X|]. tauto. }
    destruct D as [D|D]; [rewrite (A D), (A' D)|rewrite (B D), (B' D)]; reflexivity.
  Qed.
  Hypothesis Hd : has_data w h nodata x y.
  Definition hz (i j : Z) : R := if ((i =? 0) && (j =? 0))%Z then zscale * e x y else zscale * lk (x + i) (y + j).
  Lemma hz_heights : heights w h e nodata zscale x y hz.
  Proof.
    intros i j _ _. unfold hz. destruct ((i =? 0) && (j =? 0))%Z eqn:E; [|apply look_height]. apply andb_true_iff in E. destruct E as [E1 E2]. apply Z.eqb_eq in E1, E2. subst.
    rewrite !Z.add_0_r. split; [reflexivity|]. intros N. contradiction.
  Qed.
  Lemma heights_fun z i j : heights w h e nodata zscale x y z -> (Z.abs i <= 1)%Z -> (Z.abs j <= 1)%Z -> z i j = hz i j.
  Proof. intros H Hi Hj. eapply height_fun; [apply H; auto|apply hz_heights; auto]. Qed.
  Notation t := (TerrainSetup w h e nodata zscale x y).
  Lemma setup_vars : va t = hz (-1) (-1) /\ vb t = hz 0 (-1) /\ vc t = hz 1 (-1) /\ vd t = hz (-1) 0 /\ ve t = hz 0 0 /\ vf t = hz 1 0 /\
    vg t = hz (-1) 1 /\ vh t = hz 0 1 /\ vi t = hz 1 1.
  Proof.
    unfold TerrainSetup, hz. cbn [va vb vc vd ve vf vg vh vi Z.eqb andb]. rewrite !Z.add_0_r. unfold Z.sub. cbn [Z.opp]. repeat split; reflexivity.
  Qed.
End Cell.

(** ** The best plane *)
Section Plane.
  Variables (lx ly : R) (z : Z -> Z -> R) (k : R).
  Hypothesis Hx : 0 < lx. Hypothesis Hy : 0 < ly. Hypothesis Hk : 0 <= k.
  Definition gx0 : R := ((z 1%Z (-1)%Z + 2 * z 1%Z 0%Z + z 1%Z 1%Z) - (z (-1)%Z (-1)%Z + 2 * z (-1)%Z 0%Z + z (-1)%Z 1%Z)) / 8 / lx.
  Definition gy0 : R := ((z (-1)%Z 1%Z + 2 * z 0%Z 1%Z + z 1%Z 1%Z) - (z (-1)%Z (-1)%Z + 2 * z 0%Z (-1)%Z + z 1%Z (-1)%Z)) / 8 / ly.
  Definition c0 : R := (z (-1)%Z (-1)%Z + 2 * z 0%Z (-1)%Z + z 1%Z (-1)%Z + 2 * z (-1)%Z 0%Z + k * z 0%Z 0%Z + 2 * z 1%Z 0%Z + z (-1)%Z 1%Z + 2 * z 0%Z 1%Z + z 1%Z 1%Z) / (12 + k).
  Lemma misfit_eq gx gy c : misfit lx ly z k gx gy c =
    misfit lx ly z k gx0 gy0 c0 + 8 * ((lx * (gx - gx0)) * (lx * (gx - gx0))) + 8 * ((ly * (gy - gy0)) * (ly * (gy - gy0))) + (12 + k) * ((c - c0) * (c - c0)).
  Proof.
    unfold misfit. cbv zeta. unfold gx0, gy0, c0. field. repeat split; lra.
  Qed.
  Lemma misfit_min gx gy c : misfit lx ly z k gx0 gy0 c0 <= misfit lx ly z k gx gy c.
  Proof.
    rewrite (misfit_eq gx gy c). pose proof (sq_nonneg (lx * (gx - gx0))). pose proof (sq_nonneg (ly * (gy - gy0))). pose proof (sq_nonneg (c - c0)).
    assert (0 <= (12 + k) * ((c - c0) * (c - c0))) by (apply Rmult_le_pos; lra). lra.
  Qed.
  Lemma misfit_unique gx gy c : misfit lx ly z k gx gy c <= misfit lx ly z k gx0 gy0 c0 -> gx = gx0 /\ gy = gy0.
  Proof.
    rewrite (misfit_eq gx gy c). pose proof (sq_nonneg (lx * (gx - gx0))) as A. pose proof (sq_nonneg (ly * (gy - gy0))) as B. pose proof (sq_nonneg (c - c0)).
    assert (0 <= (12 + k) * ((c - c0) * (c - c0))) by (apply Rmult_le_pos; lra). intros X.
    assert (A0 : (lx * (gx - gx0)) * (lx * (gx - gx0)) = 0) by lra. assert (B0 : (ly * (gy - gy0)) * (ly * (gy - gy0)) = 0) by lra.
    apply Rmult_integral in A0, B0. split.
    - assert (Y : lx * (gx - gx0) = 0) by tauto. apply Rmult_integral in Y. lra.
    - assert (Y : ly * (gy - gy0) = 0) by tauto. apply Rmult_integral in Y. lra.
  Qed.
End Plane.

(** ** atan2 *)
Lemma atan2_polar a b : (a <> 0 \/ b <> 0) -> exists r, 0 < r /\ b = r * cos (atan2 a b) /\ a = r * sin (atan2 a b).
Proof.
  intros N. assert (P : forall q, 0 < sqrt (1 + q * q) /\ sqrt (1 + q * q) * cos (atan q) = 1 /\ sqrt (1 + q * q) * sin (atan q) = q).
  { intros q. assert (S : 0 < sqrt (1 + q * q)) by (apply sqrt_lt_R0; pose proof (sq_nonneg q); lra). rewrite cos_atan, sin_atan. unfold Rsqr. split; [exact S|]. split; field; lra. }
  unfold atan2. destruct (Rlt_dec 0 b) as [B|B]; [|destruct (Rlt_dec b 0) as [B'|B']].
  - destruct (P (a / b)) as [P1 [P2 P3]]. exists (b * sqrt (1 + a / b * (a / b))). split; [apply Rmult_lt_0_compat; assumption|]. rewrite !Rmult_assoc, P2, P3. split; field; lra.
  - destruct (P (a / b)) as [P1 [P2 P3]]. exists (- b * sqrt (1 + a / b * (a / b))). split; [apply Rmult_lt_0_compat; lra|].
    destruct (Rle_dec 0 a); [rewrite neg_cos, neg_sin|].
    + rewrite <- !Ropp_mult_distr_r, !Rmult_assoc, P2, P3. split; field; lra.
    + replace (atan (a / b) - PI) with (- (PI - atan (a / b))) by ring. rewrite cos_neg, sin_neg. replace (PI - atan (a / b)) with (- atan (a / b) + PI) by ring. rewrite neg_cos, neg_sin, cos_neg, sin_neg.
      rewrite !Ropp_involutive, <- !Ropp_mult_distr_r, !Rmult_assoc, P2, P3. split; field; lra.
  - assert (b = 0) by lra. subst b. destruct (Rlt_dec 0 a); [exists a; rewrite cos_PI2, sin_PI2; lra|]. destruct (Rlt_dec a 0); [exists (- a); rewrite cos_neg, sin_neg, cos_PI2, sin_PI2; lra|]. exfalso. lra.
Qed.
Lemma atan2_range a b : - PI < atan2 a b <= PI.
Proof.
  pose proof PI_RGT_0. unfold atan2. destruct (Rlt_dec 0 b) as [B|B]; [pose proof (atan_bound (a / b)); lra|]. destruct (Rlt_dec b 0) as [B'|B'].
  - pose proof (atan_bound (a / b)). pose proof (Rinv_lt_0_compat b B') as IB. destruct (Rle_dec 0 a).
    2: { assert (0 < atan (a / b)); [|lra]. rewrite <- atan_0. apply atan_increasing. unfold Rdiv. nra. }
    split; [lra|].
    assert (atan (a / b) <= 0); [|lra]. destruct (Rle_lt_or_eq_dec 0 a r) as [L|L].
    + left. rewrite <- atan_0. apply atan_increasing. unfold Rdiv. nra.
    + subst a. unfold Rdiv. rewrite Rmult_0_l, atan_0. lra.
  - destruct (Rlt_dec 0 a); [lra|]. destruct (Rlt_dec a 0); lra.
Qed.

(** the code's conversion of the mathematical angle to a bearing *)
Definition to_bearing (phi : R) : R :=
  if Rlt_dec (180 / PI * phi) 0 then 90 - 180 / PI * phi
  else if Rgt_dec (180 / PI * phi) 90 then 360 - 180 / PI * phi + 90 else 90 - 180 / PI * phi.
Lemma to_bearing_ok a b : (a <> 0 \/ b <> 0) -> bearing (to_bearing (atan2 a b)) b a.
Proof.
  intros N. destruct (atan2_polar a b N) as [r [Hr [Eb Ea]]]. pose proof (atan2_range a b) as RG. pose proof PI_RGT_0 as HP. set (phi := atan2 a b) in *.
  assert (D : 180 / PI * phi * PI = 180 * phi) by (field; lra).
  assert (B1 : -180 < 180 / PI * phi <= 180).
  { split.
    - apply Rmult_lt_reg_r with PI; [exact HP|]. rewrite D. nra.
    - apply Rmult_le_reg_r with PI; [exact HP|]. rewrite D. nra. }
  assert (TR : forall th, th = 90 - 180 / PI * phi \/ th = 450 - 180 / PI * phi -> b = r * sin (th * PI / 180) /\ a = r * cos (th * PI / 180)).
  { intros th [-> | ->].
    - replace ((90 - 180 / PI * phi) * PI / 180) with (PI / 2 - phi) by (field; lra). rewrite sin_shift, cos_shift. auto.
    - replace ((450 - 180 / PI * phi) * PI / 180) with ((PI / 2 - phi) + 2 * INR 1 * PI) by (cbn; field; lra). rewrite sin_period, cos_period, sin_shift, cos_shift. auto. }
  unfold to_bearing. set (q := 180 / PI * phi) in *. destruct (Rlt_dec q 0) as [A|A]; [|destruct (Rgt_dec q 90) as [B|B]]; (split; [lra|exists r; split; [exact Hr|]; apply TR; lra]).
Qed.

(** a bearing is unique *)
Lemma bearing_unique a b t1 t2 : bearing t1 a b -> bearing t2 a b -> t1 = t2.
Proof.
  intros [R1 [r [Hr [E1 E2]]]] [R2 [r' [Hr' [E1' E2']]]]. pose proof PI_RGT_0 as HP.
  set (u := t1 * PI / 180) in *. set (v := t2 * PI / 180) in *.
  assert (RR : r = r').
  { assert (X : r * r = r' * r').
    { transitivity (a * a + b * b).
      - rewrite E1, E2. pose proof (sin2_cos2 u) as Y. unfold Rsqr in Y. replace (r * sin u * (r * sin u) + r * cos u * (r * cos u)) with (r * r * (sin u * sin u + cos u * cos u)) by ring. rewrite Y. ring.
      - rewrite E1', E2'. pose proof (sin2_cos2 v) as Y. unfold Rsqr in Y. replace (r' * sin v * (r' * sin v) + r' * cos v * (r' * cos v)) with (r' * r' * (sin v * sin v + cos v * cos v)) by ring. rewrite Y. ring. }
    assert (Y : (r - r') * (r + r') = 0) by lra. apply Rmult_integral in Y. lra. }
  subst r'. assert (S : sin u = sin v) by (apply Rmult_eq_reg_l with r; lra). assert (C : cos u = cos v) by (apply Rmult_eq_reg_l with r; lra).
  assert (Z : cos (u - v) = 1).
  { rewrite cos_minus, S, C. pose proof (sin2_cos2 v) as Y. unfold Rsqr in Y. lra. }
  assert (BU : 0 <= u < 2 * PI) by (unfold u; split; nra). assert (BV : 0 <= v < 2 * PI) by (unfold v; split; nra).
  assert (EQ : u = v).
  { destruct (Rtotal_order u v) as [L|[L|L]]; [|exact L|].
    - exfalso. assert (Z' : cos (v - u) = 1) by (rewrite <- Z, <- cos_neg; f_equal; ring).
      assert (H : sin ((v - u) / 2) = 0). { replace (v - u) with (2 * ((v - u) / 2)) in Z' by field. rewrite cos_2a_sin in Z'. assert (sin ((v - u) / 2) * sin ((v - u) / 2) = 0) by lra. apply Rmult_integral in H. tauto. }
      assert (0 < sin ((v - u) / 2)) by (apply sin_gt_0; lra). lra.
    - exfalso. assert (H : sin ((u - v) / 2) = 0). { replace (u - v) with (2 * ((u - v) / 2)) in Z by field. rewrite cos_2a_sin in Z. assert (sin ((u - v) / 2) * sin ((u - v) / 2) = 0) by lra. apply Rmult_integral in H. tauto. }
      assert (0 < sin ((u - v) / 2)) by (apply sin_gt_0; lra). lra. }
  unfold u, v in EQ. assert (X : t1 * PI = t2 * PI) by lra. apply Rmult_eq_reg_r in X; lra.
Qed.

(** ** TerrainProcessor *)
Section Processor.
  Variables (w h : Z) (nodata : grid bool) (func : Z -> Z -> R) (ond : R).
  Definition val x y : R := if nodata x y then ond else func x y.
  Lemma cells_fold (l : list (Z * Z)) : forall out x y,
    fold_left (fun (out : grid R) c => gset out (fst c) (snd c) (val (fst c) (snd c))) l out x y = if in_dec (fun a b : Z * Z => ltac:(decide equality; apply Z.eq_dec)) (x, y) l then val x y else out x y.
  Proof.
    induction l as [|[a b] l IH]; intros out x y; cbn [fold_left]; [reflexivity|]. rewrite IH. cbn [fst snd].
    destruct (in_dec _ (x, y) l) as [I|I]; destruct (in_dec _ (x, y) ((a, b) :: l)) as [J|J]; try reflexivity.
    - exfalso. apply J. right. exact I.
    - destruct J as [J|J]; [injection J as -> ->; apply gset_same|contradiction].
    - apply gset_other. intros X. apply J. left. congruence.
  Qed.
  Lemma processor_flat parts : TerrainProcessor w nodata func ond parts =
    fold_left (fun (out : grid R) c => gset out (fst c) (snd c) (val (fst c) (snd c))) (flat_map (fun y => map (fun x => (x, y)) (zrange 0 (Z.to_nat w))) (concat parts)) (fun _ _ => 0).
  Proof.
    unfold TerrainProcessor. generalize (fun _ _ : Z => 0). induction parts as [|rows parts IH]; intros out; cbn [concat fold_left]; [reflexivity|].
    rewrite flat_map_app, fold_left_app. rewrite IH. f_equal. clear IH. revert out. induction rows as [|y rows IH]; intros out; cbn [flat_map fold_left]; [reflexivity|].
    rewrite fold_left_app, IH. f_equal. generalize (zrange 0 (Z.to_nat w)). intros xs. revert out. induction xs as [|x xs IHx]; intros out; cbn [map fold_left]; [reflexivity|]. apply IHx.
  Qed.
  Lemma processor_ok parts x y : Permutation (concat parts) (zrange 0 (Z.to_nat h)) -> in_raster w h x y -> TerrainProcessor w nodata func ond parts x y = if nodata x y then ond else func x y.
  Proof.
    intros P [Hx Hy]. rewrite processor_flat, cells_fold. destruct (in_dec _ _ _) as [_|N]; [reflexivity|]. exfalso. apply N. apply in_flat_map. exists y. split.
    - eapply Permutation_in; [symmetry; exact P|]. apply zrange_In. lia.
    - apply in_map_iff. exists x. split; [reflexivity|]. apply zrange_In. lia.
  Qed.
End Processor.

(** ** Polynomials *)
Lemma quartic_deriv a s r b c t : derivable_pt_lim (fun t => a + s * t + r / 2 * t ^ 2 + b * t ^ 3 + c * t ^ 4) t (s + r * t + 3 * b * t ^ 2 + 4 * c * t ^ 3).
Proof.
  replace (s + r * t + 3 * b * t ^ 2 + 4 * c * t ^ 3) with (0 + s * 1 + r / 2 * (INR 2 * t ^ 1) + b * (INR 3 * t ^ 2) + c * (INR 4 * t ^ 3)) by (cbn; field).
  change (fun t => a + s * t + r / 2 * t ^ 2 + b * t ^ 3 + c * t ^ 4) with ((fun _ => a) + mult_real_fct s id + mult_real_fct (r / 2) (fun t => t ^ 2) + mult_real_fct b (fun t => t ^ 3) + mult_real_fct c (fun t => t ^ 4))%F.
  repeat apply derivable_pt_lim_plus; [apply derivable_pt_lim_const|apply derivable_pt_lim_scal, derivable_pt_lim_id|apply derivable_pt_lim_scal, (derivable_pt_lim_pow t 2)|apply derivable_pt_lim_scal, (derivable_pt_lim_pow t 3)|apply derivable_pt_lim_scal, (derivable_pt_lim_pow t 4)].
Qed.
Lemma deriv_ext f g t l : (forall u, f u = g u) -> derivable_pt_lim f t l -> derivable_pt_lim g t l.
Proof. intros E D eps He. destruct (D eps He) as [d X]. exists d. intros k K1 K2. rewrite <- !E. apply X; assumption. Qed.
Lemma bends_quartic f a s r b c : (forall t, f t = a + s * t + r / 2 * t ^ 2 + b * t ^ 3 + c * t ^ 4) -> bends f s r.
Proof.
  intros E. exists (fun t => s + r * t + 3 * b * t ^ 2 + 4 * c * t ^ 3). split; [|split].
  - intros t. apply deriv_ext with (fun t => a + s * t + r / 2 * t ^ 2 + b * t ^ 3 + c * t ^ 4); [intros u; symmetry; apply E|apply quartic_deriv].
  - ring.
  - pose proof (quartic_deriv s r (6 * b) (4 * c) 0 0) as X. replace (r + 6 * b * 0 + 3 * (4 * c) * 0 ^ 2 + 4 * 0 * 0 ^ 3) with r in X by ring.
    eapply deriv_ext; [|exact X]. intros u. cbn beta. field.
Qed.
Lemma bends_fun f s r s' r' : bends f s r -> bends f s' r' -> s = s' /\ r = r'.
Proof.
  intros [g [G1 [G2 G3]]] [g' [G1' [G2' G3']]]. assert (E : forall t, g t = g' t) by (intros t; eapply uniqueness_limite; eauto).
  split; [rewrite <- G2, <- G2'; apply E|]. apply (uniqueness_limite g 0); [exact G3|]. eapply deriv_ext; [|exact G3']. intros u. symmetry. apply E.
Qed.

Section Curvature.
  Variables (w h : Z) (e : grid R) (nodata : grid bool) (zscale gt1 gt5 : R) (x y : Z).
  Notation L := (Rabs gt1).
  Hypothesis HL : 0 < L.
  Hypothesis Sq : Rabs gt5 = L.
  Hypothesis Hd : has_data w h nodata x y.
  Notation zz := (hz w h e nodata zscale x y).
  Notation q := (TerrainCurvatureSetup w h e nodata zscale gt1 x y).
  Lemma through_coef p : through w h e nodata zscale L (Rabs gt5) x y p -> pD p = cD q /\ pE p = cE q /\ pF p = cF q /\ pG p = cG q /\ pH p = cH q.
  Proof.
    intros [z [Z P]]. rewrite Sq in P.
    assert (V : forall i j, (Z.abs i <= 1)%Z -> (Z.abs j <= 1)%Z -> peval p (IZR i * L) (- IZR j * L) = zz i j) by (intros i j Hi Hj; rewrite <- (heights_fun w h e nodata zscale x y Hd z i j Z Hi Hj); apply P; auto).
    destruct (setup_vars w h e nodata zscale x y) as [Ea [Eb [Ec [Ed [Ee [Ef [Eg [Eh Ei]]]]]]]].
    unfold TerrainCurvatureSetup. cbv zeta. cbn [cD cE cF cG cH]. rewrite Ea, Eb, Ec, Ed, Ee, Ef, Eg, Eh, Ei. rewrite <- !V by lia. unfold lengthX, peval. repeat split; field; lra.
  Qed.
  Lemma through_exists : exists p, through w h e nodata zscale L (Rabs gt5) x y p.
  Proof.
    exists (mkPoly (((zz (-1) (-1) + zz 1 (-1) + zz (-1) 1 + zz 1 1) / 4 - (zz 0 (-1) + zz (-1) 0 + zz 1 0 + zz 0 1) / 2 + zz 0 0) / (L ^ 4))
                   (((zz (-1) (-1) + zz 1 (-1) - zz (-1) 1 - zz 1 1) / 4 - (zz 0 (-1) - zz 0 1) / 2) / (L ^ 3))
                   (((- zz (-1) (-1) + zz 1 (-1) - zz (-1) 1 + zz 1 1) / 4 + (zz (-1) 0 - zz 1 0) / 2) / (L ^ 3))
                   (((zz (-1) 0 + zz 1 0) / 2 - zz 0 0) / (L ^ 2)) (((zz 0 (-1) + zz 0 1) / 2 - zz 0 0) / (L ^ 2))
                   ((- zz (-1) (-1) + zz 1 (-1) + zz (-1) 1 - zz 1 1) / (4 * L ^ 2))
                   ((- zz (-1) 0 + zz 1 0) / (2 * L)) ((zz 0 (-1) - zz 0 1) / (2 * L)) (zz 0 0)).
    exists zz. split; [apply hz_heights; exact Hd|]. intros i j Hi Hj. rewrite Sq. unfold peval. cbn [pA pB pC pD pE pF pG pH pI].
    assert (i = -1 \/ i = 0 \/ i = 1)%Z as [-> | [-> | ->]] by lia; assert (j = -1 \/ j = 0 \/ j = 1)%Z as [-> | [-> | ->]] by lia; field; lra.
  Qed.
End Curvature.
