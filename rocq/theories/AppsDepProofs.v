(** Ranks of values, and the raster notions that only look inside the raster. *)
From Coq Require Import ZArith List Lia Bool String Reals Lra.
From Flocq Require Import Core BinarySingleNaN.
From Verif Require Import Base Res RasterSpec RasterFacts PFSpec FAFModel PyModel PyIntModel PyNumModel GDALModel GDALProofs AppsDepModel.
Open Scope Z_scope.

Section Float.
  Variables prec emax : Z.
  Context (Hp : Prec_gt_0 prec) (He : Prec_lt_emax prec emax).
  Local Notation fl := (binary_float prec emax).
  Let emin := 3 - emax - prec.
  Hypothesis P2 : 2 <= prec.
  Hypothesis E3 : 3 <= emax.

  Lemma emin_neg : emin <= 0. Proof. unfold emin. lia. Qed.
  Lemma prec_emax : prec < emax. Proof. exact He. Qed.

  Lemma finite_exp m e (H : SpecFloat.bounded prec emax m e = true) : 0 <= e - emin /\ e <= emax - prec /\ Zpos m < 2 ^ prec.
  Proof.
    unfold SpecFloat.bounded, SpecFloat.canonical_mantissa in H. apply andb_prop in H. destruct H as [H1 H2]. apply Zle_bool_imp_le in H2. apply Zeq_bool_eq in H1.
    unfold SpecFloat.fexp, SpecFloat.emin in H1. fold emin in H1. rewrite Digits.Zpos_digits2_pos in H1.
    split; [lia|]. split; [exact H2|].
    pose proof (Digits.Zdigits_correct radix2 (Zpos m)) as D. 
    assert (Digits.Zdigits radix2 (Zpos m) <= prec) by lia. rewrite Z.abs_eq in D by lia.
    apply Z.lt_le_trans with (1 := proj2 D). change (radix_val radix2) with 2. apply Z.pow_le_mono_r; lia.
  Qed.
  Lemma frank_bound (f : fl) : f <> B754_nan -> is_finite f = true -> Z.abs (frank f) < 2 ^ (emax - emin).
  Proof.
    intros N F. pose proof emin_neg. assert (P : 0 < 2 ^ (emax - emin)) by (apply Z.pow_pos_nonneg; lia).
    destruct f as [s|s| |s m e H']; try discriminate F; cbn [frank]; [exact P|]. fold emin.
    destruct (finite_exp m e H') as (A & B & C). rewrite abs_cond_Zopp, Z.abs_eq by (apply Z.mul_nonneg_nonneg; [lia|apply Z.pow_nonneg; lia]).
    apply Z.lt_le_trans with (2 ^ prec * 2 ^ (e - emin)); [apply Z.mul_lt_mono_pos_r; [apply Z.pow_pos_nonneg; lia|exact C]|].
    rewrite <- Z.pow_add_r by lia. apply Z.pow_le_mono_r; lia.
  Qed.
  Lemma frank_R (f : fl) : is_finite f = true -> B2R f = (IZR (frank f) * bpow radix2 emin)%R.
  Proof.
    destruct f as [s|s| |s m e H']; try discriminate; intros _; cbn [frank B2R]; [lra|]. fold emin. destruct (finite_exp m e H') as (A & _ & _).
    unfold F2R. cbn [Fnum Fexp]. assert (E : cond_Zopp s (Zpos m * 2 ^ (e - emin)) = cond_Zopp s (Zpos m) * 2 ^ (e - emin)) by (destruct s; cbn [cond_Zopp]; ring).
    rewrite E, mult_IZR, (IZR_Zpower radix2) by exact A. rewrite Rmult_assoc, <- bpow_plus. f_equal. f_equal. lia.
  Qed.
  Lemma frank_compare (f g : fl) : f <> B754_nan -> g <> B754_nan -> Bcompare f g = Some (frank f ?= frank g).
  Proof.
    intros Nf Ng. assert (P : 0 < 2 ^ (emax - emin)) by (pose proof emin_neg; apply Z.pow_pos_nonneg; lia).
    destruct (is_finite f) eqn:Ff, (is_finite g) eqn:Fg.
    - rewrite Bcompare_correct by assumption. f_equal. rewrite !frank_R by assumption. rewrite Rcompare_mult_r by apply bpow_gt_0. apply Rcompare_IZR.
    - pose proof (frank_bound f Nf Ff) as Bf. destruct g as [s|s| |s m e H']; try discriminate Fg; [|contradiction].
      assert (E : Bcompare f (B754_infinity s) = Some (if s then Gt else Lt)) by (destruct f as [s'|s'| |s' m' e' H'']; try discriminate Ff; destruct s; reflexivity).
      rewrite E. f_equal. cbn [frank]. fold emin. destruct s; cbn [cond_Zopp]; symmetry; [apply Z.compare_gt_iff|apply Z.compare_lt_iff]; lia.
    - pose proof (frank_bound g Ng Fg) as Bg. destruct f as [s|s| |s m e H']; try discriminate Ff; [|contradiction].
      assert (E : Bcompare (B754_infinity s) g = Some (if s then Lt else Gt)) by (destruct g as [s'|s'| |s' m' e' H'']; try discriminate Fg; destruct s; reflexivity).
      rewrite E. f_equal. cbn [frank]. fold emin. destruct s; cbn [cond_Zopp]; symmetry; [apply Z.compare_lt_iff|apply Z.compare_gt_iff]; lia.
    - destruct f as [s|s| |s m e H']; try discriminate Ff; [|contradiction]. destruct g as [s'|s'| |s' m' e' H']; try discriminate Fg; [|contradiction].
      cbn [frank]. fold emin. destruct s, s'; cbn [cond_Zopp]; unfold Bcompare, SpecFloat.SFcompare; cbn [B2SF]; f_equal; symmetry; rewrite ?Z.compare_refl; try reflexivity;
        [apply Z.compare_lt_iff|apply Z.compare_gt_iff]; lia.
  Qed.
  Lemma frank_nan (f : fl) : frank f = 2 ^ (emax - emin + 1) <-> f = B754_nan.
  Proof.
    split; [|intros ->; reflexivity]. intros E. pose proof emin_neg. assert (P : 0 < 2 ^ (emax - emin)) by (apply Z.pow_pos_nonneg; lia).
    rewrite Z.pow_add_r in E by lia. change (2 ^ 1) with 2 in E. destruct f as [s|s| |s m e H']; [| |reflexivity|].
    - cbn [frank] in E. lia.
    - cbn [frank] in E. fold emin in E. destruct s; cbn [cond_Zopp] in E; lia.
    - assert (B : Z.abs (frank (B754_finite s m e H' : fl)) < 2 ^ (emax - emin)) by (apply frank_bound; [discriminate|reflexivity]). rewrite E in B. lia.
  Qed.
  Lemma unfrank (f : fl) : f <> B754_nan -> f <> B754_zero true -> binary_normalize prec emax Hp He mode_NE (frank f) emin false = f.
  Proof.
    intros N Z0. destruct (is_finite f) eqn:F.
    - pose proof (binary_normalize_correct prec emax Hp He mode_NE (frank f) emin false) as H. cbv zeta in H.
      assert (E : F2R (Float radix2 (frank f) emin) = B2R f) by (rewrite frank_R by exact F; reflexivity). rewrite E in H.
      rewrite round_generic in H by (try apply generic_format_B2R; apply valid_rnd_N || (cbn [round_mode]; apply valid_rnd_N)).
      rewrite Rlt_bool_true in H by apply abs_B2R_lt_emax. destruct H as (H1 & H2 & H3).
      apply B2R_Bsign_inj; [exact H2|exact F|exact H1|]. rewrite H3. destruct f as [s|s| |s m e H']; try discriminate F.
      + destruct s; [contradiction|]. cbn [B2R]. rewrite Rcompare_Eq by reflexivity. reflexivity.
      + cbn [B2R Bsign]. destruct s; [rewrite Rcompare_Lt|rewrite Rcompare_Gt]; try reflexivity; [apply F2R_lt_0|apply F2R_gt_0]; reflexivity.
    - destruct f as [s|s| |s m e H']; try discriminate F; [|contradiction]. cbn [frank]. fold emin.
      pose proof (binary_normalize_correct prec emax Hp He mode_NE (cond_Zopp s (2 ^ (emax - emin))) emin false) as H. cbv zeta in H. pose proof emin_neg as EN.
      assert (E : F2R (Float radix2 (cond_Zopp s (2 ^ (emax - emin))) emin) = (if s then - bpow radix2 emax else bpow radix2 emax)%R).
      { unfold F2R. cbn [Fnum Fexp]. assert (Q : (IZR (2 ^ (emax - emin)) * bpow radix2 emin = bpow radix2 emax)%R).
        { rewrite (IZR_Zpower radix2) by lia. rewrite <- bpow_plus. f_equal. lia. }
        destruct s; cbn [cond_Zopp]; [rewrite opp_IZR|]; rewrite <- Q; ring. }
      rewrite E in H.
      assert (G : generic_format radix2 (SpecFloat.fexp prec emax) (bpow radix2 emax)).
      { apply generic_format_bpow. unfold SpecFloat.fexp, SpecFloat.emin. pose proof prec_emax. lia. }
      rewrite round_generic in H by (try (destruct s; [apply generic_format_opp|]; exact G); cbn [round_mode]; apply valid_rnd_N).
      rewrite Rlt_bool_false in H by (destruct s; rewrite ?Rabs_Ropp, Rabs_pos_eq by apply bpow_ge_0; lra).
      apply B2SF_inj. rewrite H. pose proof (bpow_gt_0 radix2 emax). destruct s; [rewrite Rlt_bool_true by lra|rewrite Rlt_bool_false by lra]; reflexivity.
  Qed.
End Float.

(** a value that is neither NaN nor a negative zero *)
Definition plain (v : val) : Prop := match v with VI _ => True | VF f => f <> B754_nan /\ f <> B754_zero true | VD f => f <> B754_nan /\ f <> B754_zero true end.
(** v < w in C++, for two values of the same type *)
Definition less (v w : val) : bool := match v, w with VI a, VI b => a <? b | VF a, VF b => Bltb a b | VD a, VD b => Bltb a b | _, _ => false end.
Definition nan (v : val) : Prop := match v with VI _ => False | VF f => f = B754_nan | VD f => f = B754_nan end.

Lemma unrank_rank T v : typed T v -> plain v -> unrank T (rank v) = v.
Proof.
  destruct T, v as [z|f|f]; cbn [typed]; try contradiction; intros _ P; cbn [unrank rank]; try reflexivity; destruct P as [P1 P2];
    f_equal; apply unfrank; try assumption; lia.
Qed.
Lemma less_rank T v w : typed T v -> typed T w -> ~ nan v -> ~ nan w -> less v w = (rank v <? rank w).
Proof.
  assert (K : forall prec emax (Hp : Prec_gt_0 prec) (He : Prec_lt_emax prec emax) (f g : binary_float prec emax), 2 <= prec -> 3 <= emax -> f <> B754_nan -> g <> B754_nan -> Bltb f g = (frank f <? frank g)).
  { intros prec emax Hp He f g P2 E3 Nf Ng. pose proof (frank_compare prec emax P2 E3 f g Nf Ng) as C. unfold Bltb, SpecFloat.SFltb. unfold Bcompare in C. rewrite C. unfold Z.ltb. destruct (frank f ?= frank g); reflexivity. }
  destruct T, v as [a|a|a], w as [b|b|b]; cbn [typed nan less rank]; try contradiction; intros _ _ Na Nb; try reflexivity; apply K; try assumption; try lia; typeclasses eauto.
Qed.

Lemma drainage_attained t w h e x y L : drainage_level t w h e x y L -> exists x' y', in_raster w h x' y' /\ e x' y' = L.
Proof.
  intros [D M]. assert (K : forall x y, drains t w h e L x y -> exists M, M <= L /\ drains t w h e M x y /\ exists x' y', in_raster w h x' y' /\ e x' y' = M).
  { clear. intros x y D. induction D as [x y H1 H2|x y x' y' H1 H2 H3 H4 (M & A & B & x2 & y2 & C1 & C2)].
    - exists (e x y). split; [exact H2|]. split; [apply drains_edge; [exact H1|lia]|]. exists x, y. split; [apply H1|reflexivity].
    - destruct (Z.le_gt_cases (e x y) M) as [Q|Q].
      + exists M. split; [exact A|]. split; [eapply drains_step; eauto|]. eauto.
      + exists (e x y). split; [exact H2|]. split; [|eauto]. eapply drains_step; [exact H1|lia|exact H3|]. eapply drains_le; [exact B|lia]. }
  destruct (K x y D) as (M' & A & B & C). assert (M' = L) by (specialize (M M' B); lia). subst M'. exact C.
Qed.

(** nothing outside the raster matters *)
Section Ext.
  Variables (t : topology) (w h : Z) (e e' : grid Z).
  Hypothesis E : forall x y, in_raster w h x y -> e x y = e' x y.
  Lemma drainage_level_ext x y L : drainage_level t w h e x y L -> drainage_level t w h e' x y L.
  Proof. intros [A B]. split; [eapply drains_ext; eauto|]. intros L' H. apply B. eapply drains_ext; [|exact H]. intros; symmetry; auto. Qed.
  Lemma drainage_in x y L : drainage_level t w h e x y L -> in_raster w h x y. Proof. intros [A _]. eapply drains_raster; eauto. Qed.
  Lemma sunk_ext x y : sunk t w h e x y -> sunk t w h e' x y.
  Proof. intros (L & A & B). exists L. split; [apply drainage_level_ext; exact A|]. rewrite <- E; [exact B|]. eapply drainage_in; exact A. Qed.
  Lemma same_pool_ext x y x' y' : same_pool t w h e x y x' y' -> same_pool t w h e' x y x' y'.
  Proof. induction 1 as [H|x1 y1 x2 y2 H1 IH H2 H3]; [apply sp_here; apply sunk_ext; exact H|]. eapply sp_step; [exact IH|exact H2|apply sunk_ext; exact H3]. Qed.
  Lemma shares_spill_ext b : shares_spill t w h e b -> shares_spill t w h e' b.
  Proof.
    intros (sx & sy & A & B & C). exists sx, sy. rewrite <- !E by exact A. split; [exact A|]. split; [apply drainage_level_ext; exact B|].
    intros x y I. destruct (C x y I) as (D & x' & y' & P & Q). split; [apply drainage_level_ext; exact D|]. exists x', y'. split; [apply same_pool_ext; exact P|exact Q].
  Qed.
End Ext.
