(** C82: flow accumulation in IEEE arithmetic. *)
From Coq Require Import ZArith List Lia Bool Reals Lra Relations Permutation.
From Flocq Require Import Core BinarySingleNaN.
From Verif Require Import Base Res RasterSpec RasterFacts FlowSpec FlowProofs FAFModel FAFSpec FAFNum FAFMain FAFBounds.
Open Scope Z_scope.

(** FlowAccumulation with float proportions and a double array always finishes, and leaves in every data cell that
    no loop drains into exactly: its weight, then for each donor once, one rounded product and one rounded sum.
    NoData cells hold -1. *)
Theorem C82_added_in_turn : forall w h p gen, 0 <= w -> 0 <= h -> finite_props w h p -> fquiet_border w h p ->
  exists A, FlowAccumulationF w h p w h gen = Some (Ok A) /\
    (forall c, settled w h p c ->
       rounded_in_turn w h p f64_of_f32 (Bmult mode_NE) (Bplus mode_NE) (fun c => gen (ix_of w c)) (fun c => A (ix_of w c)) c) /\
    (forall c, in_raster w h (fst c) (snd c) -> share w p c 0 = (-2)%R -> B2R (A (ix_of w c)) = (-1)%R).
Proof.
  intros w h p gen Hw Hh HF HQ.
  destruct (run_cells w h p Hw Hh HF HQ accf (f64_of_Z (-1)) gen) as [A [rank [E [H1 [_ H3]]]]].
  exists A. split; [exact E|]. split.
  - intros c Hc. destruct (H1 c Hc) as [_ [l [D EA]]]. exists l. split; [exact D|exact EA].
  - intros c Hc Hn. rewrite (H3 c Hc Hn). unfold f64_of_Z. pose proof (binary_normalize_correct 53 1024 _ _ mode_NE (-1) 0 false) as H. cbv zeta in H.
    assert (E1 : F2R (Float radix2 (-1) 0) = (-1)%R) by (unfold F2R; cbn; lra). rewrite E1, fexp_eq in H. cbn [round_mode] in H.
    rewrite (round_generic radix2 fexp64 ZnearestE (-1)%R) in H by (apply (int_format (-1)); reflexivity).
    rewrite Rlt_bool_true in H; [apply H|]. rewrite Rabs_left by lra. replace (- -1)%R with (bpow radix2 0) by (cbn; lra). apply bpow_lt. lia.
Qed.
Print Assumptions C82_added_in_turn.

(** Over the reals the water balance has a solution, and (below) the machine's answer is compared with every solution. *)
Theorem C82_balance_exists : forall w h p gen, 0 <= w -> 0 <= h -> finite_props w h p -> fquiet_border w h p ->
  exists X, forall c, settled w h p c -> fbalanced w h p gen X c.
Proof.
  intros w h p gen Hw Hh HF HQ.
  destruct (run_cells w h p Hw Hh HF HQ (fun (a : R) q c => (a + B2R q * c)%R) 0%R (fun i => gen (i mod w, i / w))) as [A [rank [E [H1 _]]]].
  exists (fun c => A (ix_of w c)). intros c Hc. destruct (H1 c Hc) as [_ [l [D EA]]]. exists l. split; [exact D|].
  assert (Ec : (ix_of w c mod w, ix_of w c / w) = c).
  { destruct Hc as [[Hr _] _]. unfold in_raster in Hr. destruct c as [x y]. unfold ix_of. cbn [fst snd] in *.
    rewrite Z.add_comm. rewrite Z.mod_add, Z.div_add, Z.mod_small, Z.div_small by lia. f_equal. }
  rewrite EA. rewrite Ec. clear. generalize (gen c) as a. induction l as [|e l IH]; intros a; cbn [fold_left map fold_right]; [ring|].
  rewrite IH. unfold share. ring.
Qed.
Print Assumptions C82_balance_exists.

(** Rounding error. [lev] is any ranking of the cells that grows along the flow, for instance the number of links on the
    longest flow path into the cell. The double differs from the exact balance by at most 18*lev*2^-53 relative:
    the error grows with the length of the flow path, not with the number of cells upstream. *)
Theorem C82_rounding_error : forall w h p gen A genx X lev, 0 <= w -> 0 <= h -> finite_props w h p -> fquiet_border w h p ->
  FlowAccumulationF w h p w h gen = Some (Ok A) ->
  (forall c d, ffeeds w h p c d -> settled w h p d -> (lev c < lev d)%nat) ->
  (forall c, settled w h p c -> is_finite (gen (ix_of w c)) = true /\ B2R (gen (ix_of w c)) = genx c /\ (0 <= genx c)%R) ->
  (forall c, settled w h p c -> fbalanced w h p genx X c) ->
  (forall c, settled w h p c -> (X c = 0 \/ bpow radix2 (-800) <= X c)%R /\ (X c <= bpow radix2 900)%R /\ Z.of_nat (lev c) <= 2 ^ 48) ->
  forall c, settled w h p c ->
    is_finite (A (ix_of w c)) = true /\
    (Rabs (B2R (A (ix_of w c)) - X c) <= 18 * INR (lev c) * bpow radix2 (-53) * X c)%R.
Proof.
  intros w h p gen A genx X lev Hw Hh HF HQ E HL Hg HX HB c Hc.
  destruct (C82_added_in_turn w h p gen Hw Hh HF HQ) as [A' [E' [HA _]]]. rewrite E in E'. injection E' as <-.
  destruct (error_bound w h p Hw Hh HF (fun c => gen (ix_of w c)) (fun c => A (ix_of w c)) genx X lev HL Hg HA HX HB c Hc) as [F [PX N]].
  split; [exact F|]. destruct (HB c Hc) as [_ [_ HB2]].
  assert (Hk : (INR (9 * lev c) * u <= /2)%R).
  { apply Rle_trans with (bpow radix2 52 * u)%R.
    - apply Rmult_le_compat_r; [apply Rlt_le, u_pos|]. rewrite INR_IZR_INZ. change (bpow radix2 52) with (IZR 4503599627370496). apply IZR_le.
      change (2 ^ 48) with 281474976710656 in HB2. lia.
    - unfold u. rewrite <- bpow_plus. change (/2)%R with (bpow radix2 (-1)). apply bpow_le. lia. }
  pose proof (near_error _ _ _ Hk PX N) as Q. eapply Rle_trans; [exact Q|]. right. rewrite mult_INR. unfold u. cbn [INR]. ring.
Qed.
Print Assumptions C82_rounding_error.

(** Without a ranking: the number of cells of the raster serves. Weights of at least 2^-800 suffice at the low end. *)
Theorem C82_rounding_error_size : forall w h p gen A genx X, 0 <= w -> 0 <= h -> w * h <= 2 ^ 48 -> finite_props w h p -> fquiet_border w h p ->
  FlowAccumulationF w h p w h gen = Some (Ok A) ->
  (forall c, settled w h p c -> is_finite (gen (ix_of w c)) = true /\ B2R (gen (ix_of w c)) = genx c /\ (bpow radix2 (-800) <= genx c)%R) ->
  (forall c, settled w h p c -> fbalanced w h p genx X c) ->
  (forall c, settled w h p c -> (X c <= bpow radix2 900)%R) ->
  forall c, settled w h p c ->
    is_finite (A (ix_of w c)) = true /\
    (Rabs (B2R (A (ix_of w c)) - X c) <= 18 * IZR (w * h) * bpow radix2 (-53) * X c)%R.
Proof.
  intros w h p gen A genx X Hw Hh Hs HF HQ E Hg HX HB c Hc.
  destruct (run_cells w h p Hw Hh HF HQ accf (f64_of_Z (-1)) gen) as [A' [rank [_ [R1 [R2 _]]]]].
  assert (HX0 : forall d, settled w h p d -> (genx d <= X d)%R).
  { assert (G : forall n d, (rank d < n)%nat -> settled w h p d -> (genx d <= X d)%R).
    2:{ intros d. apply (G (S (rank d))). lia. }
    induction n as [|n IH]; intros d Hn Hd; [lia|]. destruct (HX d Hd) as [l [Dl EX]]. rewrite EX.
    assert (0 <= rsum (map (fun e => share w p (fst e) (snd e) * X (fst e)) l))%R; [|unfold rsum in *; lra].
    apply rsum_nonneg. intros y Hy. apply in_map_iff in Hy. destruct Hy as [[e k] [<- Hi]]. apply Dl in Hi. cbn [fst snd].
    assert (F : ffeeds w h p e d) by (exists k; auto). pose proof (R2 _ _ F Hd). pose proof (settled_up w h p _ _ F Hd) as He.
    assert (P : (0 < share w p e k)%R) by apply Hi. apply Rmult_le_pos; [lra|]. destruct (Hg e He) as [_ [_ G]].
    specialize (IH e ltac:(lia) He). pose proof (bpow_ge_0 radix2 (-800)). lra. }
  assert (PX : forall d, settled w h p d -> (bpow radix2 (-800) <= X d)%R).
  { intros d Hd. destruct (Hg d Hd) as [_ [_ G]]. specialize (HX0 d Hd). lra. }
  destruct (C82_rounding_error w h p gen A genx X rank Hw Hh HF HQ E R2) with (c := c) as [F B]; auto.
  - intros d Hd. destruct (Hg d Hd) as [G1 [G2 G3]]. split; [auto|]. split; [auto|]. pose proof (bpow_ge_0 radix2 (-800)). lra.
  - intros d Hd. split; [right; auto|]. split; [auto|]. destruct (R1 d Hd) as [R _]. lia.
  - split; [exact F|]. eapply Rle_trans; [exact B|]. pose proof (PX c Hc). pose proof (bpow_ge_0 radix2 (-800)). pose proof (bpow_ge_0 radix2 (-53)).
    apply Rmult_le_compat_r; [lra|]. apply Rmult_le_compat_r; [auto|]. apply Rmult_le_compat_l; [lra|]. rewrite INR_IZR_INZ. apply IZR_le.
    destruct (R1 c Hc) as [R _]. lia.
Qed.
Print Assumptions C82_rounding_error_size.

(** Single-receiver metrics (D8, Rho8, ...) with non-negative integer weights: no rounding at all. The double in a cell is
    the sum of the weights of the cells upstream of it, as long as that sum is below 2^53. *)
Theorem C82_single_receiver_exact : forall w h p gen A g, 0 <= w -> 0 <= h -> finite_props w h p -> fquiet_border w h p ->
  single_receiver w h p -> FlowAccumulationF w h p w h gen = Some (Ok A) ->
  (forall c, settled w h p c -> is_finite (gen (ix_of w c)) = true /\ B2R (gen (ix_of w c)) = IZR (g c) /\ 0 <= g c) ->
  forall c, settled w h p c -> exists U, upstream w h p c U /\
    let total := fold_right Z.add 0 (map g U) in
    (total < 2 ^ 53 -> is_finite (A (ix_of w c)) = true /\ B2R (A (ix_of w c)) = IZR total).
Proof.
  intros w h p gen A g Hw Hh HF HQ HS E Hg.
  destruct (run_cells w h p Hw Hh HF HQ accf (f64_of_Z (-1)) gen) as [A' [rank [_ [_ [R2 _]]]]].
  destruct (C82_added_in_turn w h p gen Hw Hh HF HQ) as [A2 [E' [HA _]]]. rewrite E in E'. injection E' as <-.
  intros c Hc. exact (exact_count w h p Hw Hh HF HS (fun c => gen (ix_of w c)) (fun c => A (ix_of w c)) g rank R2 Hg HA c Hc).
Qed.
Print Assumptions C82_single_receiver_exact.

(** With unit weights the double is the number of upstream cells, for every raster of fewer than 2^53 cells. *)
Theorem C82_counts_cells : forall w h p gen A, 0 <= w -> 0 <= h -> w * h < 2 ^ 53 -> finite_props w h p -> fquiet_border w h p ->
  single_receiver w h p -> FlowAccumulationF w h p w h gen = Some (Ok A) ->
  (forall c, settled w h p c -> gen (ix_of w c) = f64_of_Z 1) ->
  forall c, settled w h p c -> exists U, upstream w h p c U /\
    is_finite (A (ix_of w c)) = true /\ B2R (A (ix_of w c)) = INR (length U).
Proof.
  intros w h p gen A Hw Hh Hs HF HQ HS E Hg c Hc.
  assert (E1 : is_finite (f64_of_Z 1) = true /\ B2R (f64_of_Z 1) = 1%R).
  { unfold f64_of_Z. pose proof (binary_normalize_correct 53 1024 _ _ mode_NE 1 0 false) as H. cbv zeta in H.
    assert (E1 : F2R (Float radix2 1 0) = 1%R) by (unfold F2R; cbn; lra). rewrite E1, fexp_eq in H. cbn [round_mode] in H.
    rewrite (round_generic radix2 fexp64 ZnearestE 1%R) in H by (apply (int_format 1); reflexivity).
    rewrite Rlt_bool_true in H; [tauto|]. rewrite Rabs_pos_eq by lra. change 1%R with (bpow radix2 0). apply bpow_lt. lia. }
  destruct (C82_single_receiver_exact w h p gen A (fun _ => 1) Hw Hh HF HQ HS E) with (c := c) as [U [HU Q]]; [|exact Hc|].
  { intros d Hd. rewrite Hg by auto. destruct E1. split; [auto|]. split; [auto|lia]. }
  exists U. split; [exact HU|].
  assert (EL : fold_right Z.add 0 (map (fun _ : Z * Z => 1) U) = Z.of_nat (length U)).
  { clear. induction U as [|a U IH]; [reflexivity|]. cbn [map fold_right length]. rewrite IH. lia. }
  cbv zeta in Q. rewrite EL in Q. rewrite INR_IZR_INZ. apply Q.
  destruct HU as [N I]. assert (HI : incl U (cells w h)).
  { intros [x y] Hv. apply I in Hv. destruct Hv as [[Hr _] _]. apply cells_In. unfold in_raster in Hr. cbn [fst snd] in Hr. lia. }
  pose proof (NoDup_incl_length N HI) as L. rewrite cells_length in L. nia.
Qed.
Print Assumptions C82_counts_cells.

(** ** A concrete network meeting the hypotheses: 4 x 3, cell (1,1) sends halves east and north, (2,1) sends all east. *)
Definition half : float32 := binary_normalize 24 128 _ _ mode_NE 1 (-1) false.
Definition ex_p (i : Z) (n : nat) : float32 :=
  if (i =? 5) && ((Nat.eqb n 5) || (Nat.eqb n 3)) then half else if (i =? 6) && Nat.eqb n 5 then f32_of_Z 1 else f32_of_Z 0.
Definition d8_p (i : Z) (n : nat) : float32 := if ((i =? 5) || (i =? 6)) && Nat.eqb n 5 then f32_of_Z 1 else f32_of_Z 0.

Lemma half_R : B2R half = (/2)%R.
Proof. unfold half. vm_compute. lra. Qed.
Lemma one_R : B2R (f32_of_Z 1) = 1%R.
Proof. vm_compute. lra. Qed.
Lemma zero_R : B2R (f32_of_Z 0) = 0%R.
Proof. reflexivity. Qed.

Example C82_example_props : finite_props 4 3 ex_p /\ fquiet_border 4 3 ex_p /\ finite_props 4 3 d8_p /\ fquiet_border 4 3 d8_p /\ single_receiver 4 3 d8_p.
Proof.
  assert (Q1 : finite_props 4 3 ex_p) by (intros i n _ _; unfold ex_p; repeat destruct (_ && _); reflexivity).
  assert (Q2 : finite_props 4 3 d8_p) by (intros i n _ _; unfold d8_p; repeat destruct (_ && _); reflexivity).
  split; [exact Q1|]. split; [|split; [exact Q2|split]].
  - intros [x y] n He _ _. unfold share, ex_p, ix_of. cbn [fst snd]. unfold on_edge, in_raster in He. cbn [fst snd] in He.
    destruct (Z.eqb_spec (y * 4 + x) 5); [lia|]. destruct (Z.eqb_spec (y * 4 + x) 6); [lia|]. cbn [andb]. rewrite zero_R. lra.
  - intros [x y] n He _ _. unfold share, d8_p, ix_of. cbn [fst snd]. unfold on_edge, in_raster in He. cbn [fst snd] in He.
    destruct (Z.eqb_spec (y * 4 + x) 5); [lia|]. destruct (Z.eqb_spec (y * 4 + x) 6); [lia|]. cbn [andb orb]. rewrite zero_R. lra.
  - intros [x y] n _ _. unfold share, d8_p. destruct ((ix_of 4 (x, y) =? 5) || (ix_of 4 (x, y) =? 6)); cbn [andb].
    + destruct (Nat.eqb_spec n 5) as [->|]; [|rewrite zero_R; lra]. intros _. split; [apply one_R|]. intros n' _.
      destruct (Nat.eqb_spec n' 5); [auto|rewrite zero_R; lra].
    + rewrite zero_R. lra.
Qed.

(** running both *)
Example C82_example_runs :
  match FlowAccumulationF 4 3 ex_p 4 3 (fun _ => f64_of_Z 1) with Some (Ok A) => map (fun i => B2SF (A i)) [5; 6; 7; 1] | _ => [] end
    = map (fun z => B2SF (Bmult mode_NE (f64_of_f32 half) (f64_of_Z z))) [2; 3; 5; 3] /\
  match FlowAccumulationF 4 3 d8_p 4 3 (fun _ => f64_of_Z 1) with Some (Ok A) => map (fun i => B2SF (A i)) [5; 6; 7; 1] | _ => [] end
    = map (fun z => B2SF (f64_of_Z z)) [1; 2; 3; 1].
Proof. split; vm_compute; reflexivity. Qed.

Lemma ex_sends d n c : fsends 4 3 ex_p d n c <->
  (d = (1, 1) /\ n = 5%nat /\ c = (2, 1)) \/ (d = (1, 1) /\ n = 3%nat /\ c = (1, 0)) \/ (d = (2, 1) /\ n = 5%nat /\ c = (3, 1)).
Proof.
  assert (D : forall c, in_raster 4 3 (fst c) (snd c) -> fdata 4 3 ex_p c).
  { intros v Hv. split; [auto|]. unfold share, ex_p. cbn [Nat.eqb orb]. rewrite !andb_false_r. rewrite zero_R. lra. }
  split.
  - intros [[Hr _] [_ [Hn [T P]]]]. apply toward_iff in T. destruct T as [_ T]. rewrite Nat2Z.id in T.
    destruct d as [x y], c as [x' y']. unfold share, ex_p, ix_of in P. unfold in_raster in Hr. cbn [fst snd] in *.
    destruct (Z.eqb_spec (y * 4 + x) 5) as [E|E].
    + assert (x = 1 /\ y = 1) as [-> ->] by lia. cbn [andb] in P. destruct (Nat.eqb_spec n 5) as [->|N5].
      * left. destruct T as [-> ->]. auto.
      * cbn [orb] in P. destruct (Nat.eqb_spec n 3) as [->|N3]; [right; left; destruct T as [-> ->]; auto|].
        change (1 * 4 + 1 =? 6) with false in P. cbn [andb] in P. rewrite zero_R in P. lra.
    + cbn [andb] in P. destruct (Z.eqb_spec (y * 4 + x) 6) as [E'|E']; [|cbn [andb] in P; rewrite zero_R in P; lra].
      assert (x = 2 /\ y = 1) as [-> ->] by lia. cbn [andb] in P. destruct (Nat.eqb_spec n 5) as [->|N5]; [|rewrite zero_R in P; lra].
      right; right. destruct T as [-> ->]. auto.
  - intros [[-> [-> ->]]|[[-> [-> ->]]|[-> [-> ->]]]]; (split; [apply D; unfold in_raster; cbn; lia|]; split; [apply D; unfold in_raster; cbn; lia|]; split; [lia|]; split).
    + constructor.
    + change (0 < B2R half)%R. rewrite half_R. lra.
    + constructor.
    + change (0 < B2R half)%R. rewrite half_R. lra.
    + constructor.
    + change (0 < B2R (f32_of_Z 1))%R. rewrite one_R. lra.
Qed.

(** the hypotheses of the error bound are met, with answers that are not integers *)
Definition ex_X (c : Z * Z) : R :=
  match c with (2, 1) => (3 / 2)%R | (1, 0) => (3 / 2)%R | (3, 1) => (5 / 2)%R | _ => 1%R end.
Definition ex_lev (c : Z * Z) : nat := match c with (2, 1) => 1%nat | (1, 0) => 1%nat | (3, 1) => 2%nat | _ => 0%nat end.
Example C82_example_error : exists A, FlowAccumulationF 4 3 ex_p 4 3 (fun _ => f64_of_Z 1) = Some (Ok A) /\
  forall c, settled 4 3 ex_p c -> (Rabs (B2R (A (ix_of 4 c)) - ex_X c) <= 18 * INR (ex_lev c) * bpow radix2 (-53) * ex_X c)%R.
Proof.
  destruct C82_example_props as [H1 [H2 _]].
  destruct (C82_added_in_turn 4 3 ex_p (fun _ => f64_of_Z 1)) as [A [E _]]; [lia|lia|auto|auto|]. exists A. split; [exact E|].
  assert (R1 : forall c, (1 <= ex_X c <= 3)%R).
  { intros [x y]. unfold ex_X. destruct x as [|x|x]; try lra; repeat (destruct x as [x|x|]; try lra); destruct y as [|y|y]; try lra; repeat (destruct y as [y|y|]; try lra). }
  intros c Hc. eapply (C82_rounding_error 4 3 ex_p (fun _ => f64_of_Z 1) A (fun _ => 1%R) ex_X ex_lev); auto; try lia.
  - intros a b [n F] _. apply ex_sends in F. destruct F as [[-> [_ ->]]|[[-> [_ ->]]|[-> [_ ->]]]]; cbn; lia.
  - intros d _. split; [reflexivity|]. split; [vm_compute; lra|lra].
  - intros d _.
    assert (Dd : exists l, NoDup l /\ (forall e n, In (e, n) l <-> fsends 4 3 ex_p e n d) /\
       ex_X d = (1 + fold_right Rplus 0 (map (fun e => share 4 ex_p (fst e) (snd e) * ex_X (fst e)) l))%R).
    { assert (EQ : forall a b : Z * Z, {a = b} + {a <> b}) by (intros; decide equality; apply Z.eq_dec).
      destruct (EQ d (2, 1)) as [->|N1]; [|destruct (EQ d (1, 0)) as [->|N2]; [|destruct (EQ d (3, 1)) as [->|N3]]].
      - exists [((1, 1), 5%nat)]. split; [repeat constructor; auto|]. split.
        + intros e n. rewrite ex_sends. cbn [In]. intuition congruence.
        + cbn [map fold_right fst snd]. change (share 4 ex_p (1, 1) 5) with (B2R half). rewrite half_R. cbn. lra.
      - exists [((1, 1), 3%nat)]. split; [repeat constructor; auto|]. split.
        + intros e n. rewrite ex_sends. cbn [In]. intuition congruence.
        + cbn [map fold_right fst snd]. change (share 4 ex_p (1, 1) 3) with (B2R half). rewrite half_R. cbn. lra.
      - exists [((2, 1), 5%nat)]. split; [repeat constructor; auto|]. split.
        + intros e n. rewrite ex_sends. cbn [In]. intuition congruence.
        + cbn [map fold_right fst snd]. change (share 4 ex_p (2, 1) 5) with (B2R (f32_of_Z 1)). rewrite one_R. cbn. lra.
      - exists []. split; [constructor|]. split.
        + intros e n. rewrite ex_sends. cbn [In]. intuition congruence.
        + cbn [map fold_right]. rewrite Rplus_0_r. destruct d as [x y]. unfold ex_X.
          destruct x as [|x|x]; try reflexivity; repeat (destruct x as [x|x|]; try reflexivity); destruct y as [|y|y]; try reflexivity; try congruence; repeat (destruct y as [y|y|]; try reflexivity); congruence. }
    destruct Dd as [l [N [I EX]]]. exists l. split; [split; auto|exact EX].
  - intros d _. specialize (R1 d). split; [right|split].
    + apply Rle_trans with (bpow radix2 0); [apply bpow_le; lia|]. change (bpow radix2 0) with 1%R. lra.
    + apply Rle_trans with (bpow radix2 2); [|apply bpow_le; lia]. change (bpow radix2 2) with 4%R. lra.
    + destruct d as [x y]. unfold ex_lev. change (2 ^ 48) with 281474976710656. destruct x as [|x|x]; try (cbn; lia); repeat (destruct x as [x|x|]; try (cbn; lia)); destruct y as [|y|y]; try (cbn; lia); repeat (destruct y as [y|y|]; try (cbn; lia)).
Qed.

(** The limit 2^53 is needed: one more unit of weight flowing into a cell that holds 2^53 disappears. *)
Theorem C82_beyond_2p53_refuted : exists p gen A, finite_props 4 3 p /\ fquiet_border 4 3 p /\ single_receiver 4 3 p /\
  (forall i, B2R (gen i) = IZR (if i =? 6 then 2 ^ 53 else 1)) /\
  FlowAccumulationF 4 3 p 4 3 gen = Some (Ok A) /\ B2R (A 6) = IZR (2 ^ 53).
Proof.
  exists d8_p, (fun i => if i =? 6 then f64_of_Z (2 ^ 53) else f64_of_Z 1).
  destruct C82_example_props as [_ [_ [H1 [H2 H3]]]].
  destruct (C82_added_in_turn 4 3 d8_p (fun i => if i =? 6 then f64_of_Z (2 ^ 53) else f64_of_Z 1)) as [A [E _]]; [lia|lia|auto|auto|].
  exists A. split; [auto|]. split; [auto|]. split; [auto|]. split; [|split; [exact E|]].
  - intros i. destruct (i =? 6); vm_compute; lra.
  - assert (G : match FlowAccumulationF 4 3 d8_p 4 3 (fun i => if i =? 6 then f64_of_Z (2 ^ 53) else f64_of_Z 1) with Some (Ok A) => B2SF (A 6) | _ => SpecFloat.S754_nan end
                = B2SF (f64_of_Z (2 ^ 53))) by (vm_compute; reflexivity).
    rewrite E in G. rewrite <- SF2R_B2SF, G, SF2R_B2SF. vm_compute. lra.
Qed.
Print Assumptions C82_beyond_2p53_refuted.
