(** C97: flooding, testing and masking depressions of a raster file. *)
From Coq Require Import ZArith List Lia Bool String Ascii QArith Qcanon Reals.
From Flocq Require Import Core BinarySingleNaN.
From Verif Require Import Base Res RasterSpec RasterFacts PFSpec ArrModel PropertiesArr PFModel ZhouModel PFProofs5 PropertiesPF PropertiesTrace PropertiesEpsInt FAFModel PyModel PyIntModel PyNumModel GDALModel GDALProofs PropertiesGDAL
  AppsGDALModel PropertiesAppsGDAL AppsDepModel AppsDepProofs.
Open Scope Z_scope.
Open Scope list_scope.

(** the elevations of a file, as integers in the same order *)
Definition height (ds : dataset) : grid Z := fun x y => rank (ds_cell ds x y).
(** every cell is a number of the file's type, not a negative zero *)
Definition numbers (ds : dataset) : Prop := forall x y, in_raster (ds_w ds) (ds_h ds) x y -> typed (ds_type ds) (ds_cell ds x y) /\ plain (ds_cell ds x y).
(** everything but the cells: type, size, projection, NoData value, georeference *)
Definition same_frame (ds ds' : dataset) (nd : val) : Prop :=
  ds_type ds' = ds_type ds /\ ds_w ds' = ds_w ds /\ ds_h ds' = ds_h ds /\ ds_proj ds' = ds_proj ds /\ ds_nodata ds' = Some (to_double nd) /\ ds_geo ds' = Some (geo_of ds).

(** The ranks are in the order of the values, and equal for no two of them; for floating point numbers they are exact multiples of a power of two. *)
Theorem C97_rank : forall T v w, typed T v -> typed T w -> plain v -> plain w ->
  (rank v < rank w <-> less v w = true) /\ (rank v = rank w -> v = w) /\
  (forall f : float64, is_finite f = true -> B2R f = (IZR (rank (VD f)) * bpow radix2 (-1074))%R) /\ (forall f : float32, is_finite f = true -> B2R f = (IZR (rank (VF f)) * bpow radix2 (-149))%R).
Proof.
  intros T v w Tv Tw Pv Pw. assert (NN : forall v, plain v -> ~ nan v) by (intros [z|f|f]; cbn [plain nan]; tauto).
  split; [rewrite (less_rank T v w Tv Tw (NN v Pv) (NN w Pw)), Z.ltb_lt; reflexivity|]. split; [intros E; rewrite <- (unrank_rank T v Tv Pv), <- (unrank_rank T w Tw Pw), E; reflexivity|].
  split; intros f Hf; cbn [rank].
  - refine (frank_R 53 1024 _ f Hf); lia.
  - refine (frank_R 24 128 _ f Hf); lia.
Qed.
Print Assumptions C97_rank.

Lemma window_nth cell w h x y : 0 <= x < w -> 0 <= y < h -> nth (Z.to_nat (y * w + x)) (window cell 0 0 w h) (VI 0) = cell x y.
Proof. intros Hx Hy. change (cell_at w (window cell 0 0 w h) x y = cell x y). rewrite window_at by assumption. reflexivity. Qed.
Lemma batch_bound w h (b : list (Z * Z)) : 0 <= w -> 0 <= h -> NoDup b -> (forall x y, In (x, y) b -> in_raster w h x y) -> Z.of_nat (List.length b) <= w * h.
Proof.
  intros Hw Hh N I. assert (L : (List.length b <= List.length (list_prod (zrange 0 (Z.to_nat w)) (zrange 0 (Z.to_nat h))))%nat).
  { apply NoDup_incl_length; [exact N|]. intros [x y] H. destruct (I x y H) as [A B]. apply in_prod; apply zrange_In; lia. }
  rewrite prod_length, !zrange_length in L. nia.
Qed.
Lemma NoDup_batch {A} (l : list (list A)) b : NoDup (concat l) -> In b l -> NoDup b.
Proof.
  induction l as [|a l IH]; [intros _ []|]. cbn [concat]. intros N [->|H].
  - clear IH. induction b as [|x b IHb]; [constructor|]. cbn [app] in N. inversion N; subst. constructor; [intros I; apply H1, in_or_app; auto|apply IHb; assumption].
  - apply IH; [|exact H]. clear -N. induction a as [|x a IHa]; [exact N|]. inversion N; subst. apply IHa. assumption.
Qed.

(** what flooding does, for a limit of N cells; 0 for no limit *)
Definition flooded (ds ds' : dataset) (N : Z) : Prop :=
  let w := ds_w ds in let h := ds_h ds in
  ((N = 0 \/ w * h <= N) -> forall x y, in_raster w h x y -> drainage_level D8 w h (height ds) x y (height ds' x y)) /\
  (N <> 0 -> exists batches, NoDup (concat batches) /\ (forall x y, In (x, y) (concat batches) <-> sunk D8 w h (height ds) x y) /\
     (forall b x y x' y', In b batches -> In (x, y) b -> same_pool D8 w h (height ds) x y x' y' -> In (x', y') b) /\
     (forall b, In b batches -> shares_spill D8 w h (height ds) b) /\
     (forall b x y L, In b batches -> In (x, y) b -> drainage_level D8 w h (height ds) x y L -> height ds' x y = if Z.of_nat (List.length b) <=? N then L else height ds x y) /\
     (forall x y, in_raster w h x y -> ~ sunk D8 w h (height ds) x y -> ds_cell ds' x y = ds_cell ds x y)).

(** C97. rd_depressions_flood <in> <out> <limit>: everything but the cells is kept. Without a limit every cell is raised to its drainage level; with a limit the depressions - those
    that share a spill cell counted together - of at most so many cells are filled and the others not touched at all. Every number written is one of the input's. *)
Theorem C97_flood : forall convert now prog writable analysis tb fs inp out text ds nd n, fs inp = Some ds -> readable ds -> of_double (ds_type ds) (GetNoDataValue ds) = Ok nd ->
  numbers ds -> ds_w ds * ds_h ds < 2 ^ 31 -> writable out = true -> stoul text = Ok n ->
  exists fs' ds', rd_depressions_flood convert now prog writable analysis tb fs inp out text = Ok (0, fs') /\ fs' out = Some ds' /\ (forall f, f <> out -> fs' f = fs f) /\
    same_frame ds ds' nd /\ one_line now prog analysis ds' /\ flooded ds ds' (n mod 2 ^ 32) /\
    (forall x y, in_raster (ds_w ds) (ds_h ds) x y -> height ds x y <= height ds' x y /\ exists x' y', in_raster (ds_w ds) (ds_h ds) x' y' /\ ds_cell ds' x y = ds_cell ds x' y').
Proof.
  intros convert now prog writable analysis tb fs inp out text ds nd n Hf (Wf & HT & Hg & _) Hn NU SZ HW Ht. destruct (opened convert fs inp ds nd Hf Wf HT Hn) as (a0 & l & A0 & A1 & HL & HC).
  unfold rd_depressions_flood. rewrite Ht. cbn [bind]. unfold route. rewrite Hf, HT, A0. cbn [bind]. rewrite A1. cbn [bind g_data]. unfold cells. cbn [g_w g_h g_nd].
  destruct Wf as [W1 W2]. rewrite size_of by lia. cbn [bind]. set (e := elevations _ l). set (N := n mod 2 ^ 32). set (w := ds_w ds) in *. set (h := ds_h ds) in *.
  assert (EE : forall x y, in_raster w h x y -> e x y = height ds x y) by (intros x y [Hx Hy]; subst e; unfold elevations, height, cell_at; cbn [g_w]; rewrite HC by assumption; reflexivity).
  assert (EE' : forall x y, in_raster w h x y -> height ds x y = e x y) by (intros; symmetry; auto).
  assert (K : exists r, flood tb N w h e = Some r /\ (forall x y, in_raster w h x y -> exists x' y', in_raster w h x' y' /\ r x y = height ds x' y') /\
    (forall x y, in_raster w h x y -> height ds x y <= r x y) /\
    forall ds', (forall x y, in_raster w h x y -> height ds' x y = r x y) -> (forall x y, in_raster w h x y -> r x y = height ds x y -> ds_cell ds' x y = ds_cell ds x y) -> flooded ds ds' N).
  { unfold flood. destruct (Z.eqb_spec N 0) as [E0|E0].
    - destruct (C47_zhou_minimax tb w h e ltac:(lia) ltac:(lia)) as (r & R1 & R2). exists r. split; [exact R1|].
      assert (R3 : forall x y, in_raster w h x y -> drainage_level D8 w h (height ds) x y (r x y)) by (intros x y I; eapply drainage_level_ext; [exact EE|apply R2; exact I]).
      split; [intros x y I; destruct (drainage_attained _ _ _ _ _ _ _ (R3 x y I)) as (x' & y' & I' & E'); exists x', y'; auto|].
      split; [intros x y I; eapply drainage_level_ge, R3; exact I|]. intros ds' H1 _. split; [|intros C; contradiction]. intros _ x y I. rewrite H1 by exact I. apply R3, I.
    - destruct (C34_max_dep tb N D8 w h e ltac:(lia) ltac:(lia)) as (r & bs & R1 & R2 & R3 & R4 & R5 & R6 & R7). exists r. split; [exact R1|].
      assert (S1 : forall x y, sunk D8 w h e x y <-> sunk D8 w h (height ds) x y) by (intros; split; apply sunk_ext; auto).
      assert (D1 : forall x y L, drainage_level D8 w h e x y L <-> drainage_level D8 w h (height ds) x y L) by (intros; split; apply drainage_level_ext; auto).
      assert (VAL : forall x y, in_raster w h x y -> r x y = height ds x y \/ exists b L, In b bs /\ In (x, y) b /\ drainage_level D8 w h (height ds) x y L /\ height ds x y < L /\
                     r x y = if Z.of_nat (List.length b) <=? N then L else height ds x y).
      { intros x y I. destruct (in_dec (fun a b : Z * Z => ltac:(decide equality; apply Z.eq_dec)) (x, y) (concat bs)) as [Q|Q].
        - right. pose proof (proj1 (R3 x y) Q) as (L & B1 & B2). apply in_concat in Q. destruct Q as (b & Q1 & Q2). exists b, L. rewrite <- D1, <- EE by exact I.
          split; [exact Q1|]. split; [exact Q2|]. split; [exact B1|]. split; [exact B2|]. eapply R6; eassumption.
        - left. rewrite R7, EE; auto. intros C. apply Q, R3, C. }
      split; [|split].
      + intros x y I. destruct (VAL x y I) as [V|(b & L & B1 & B2 & B3 & B4 & V)]; [exists x, y; auto|]. destruct (Z.of_nat (List.length b) <=? N); [|exists x, y; auto].
        destruct (drainage_attained _ _ _ _ _ _ _ B3) as (x' & y' & I' & E'). exists x', y'. split; [exact I'|congruence].
      + intros x y I. destruct (VAL x y I) as [V|(b & L & B1 & B2 & B3 & B4 & V)]; [lia|]. destruct (Z.of_nat (List.length b) <=? N); lia.
      + intros ds' H1 H2. split.
        * intros [C|C] x y I; [contradiction|]. rewrite H1 by exact I. destruct (in_dec (fun a b : Z * Z => ltac:(decide equality; apply Z.eq_dec)) (x, y) (concat bs)) as [Q|Q].
          -- pose proof (proj1 (R3 x y) Q) as (L & B1 & B2). apply in_concat in Q. destruct Q as (b & Q1 & Q2). rewrite (R6 b x y L Q1 Q2 B1).
             assert (LB : Z.of_nat (List.length b) <= w * h).
             { apply batch_bound; [lia|lia|eapply NoDup_batch; eassumption|]. intros x' y' I'. assert (S : sunk D8 w h e x' y') by (apply R3; apply in_concat; eauto). destruct S as (L' & S & _). eapply drainage_in; exact S. }
             rewrite (proj2 (Z.leb_le _ _)) by lia. apply D1, B1.
          -- assert (NS : ~ sunk D8 w h e x y) by (intros C'; apply Q, R3, C'). rewrite (R7 x y I NS).
             destruct (C47_zhou_minimax tb w h e ltac:(lia) ltac:(lia)) as (r' & _ & R'). pose proof (R' x y I) as D. pose proof (drainage_level_ge _ _ _ _ _ _ _ D).
             destruct (Z.eq_dec (r' x y) (e x y)) as [Q'|Q']; [rewrite <- Q'; apply D1; exact D|]. exfalso. apply NS. exists (r' x y). split; [exact D|lia].
        * intros _. exists bs. split; [exact R2|]. split; [intros x y; rewrite R3; apply S1|]. split; [|split; [|split]].
          -- intros b x y x' y' B1 B2 B3. eapply R4; [exact B1|exact B2|]. eapply same_pool_ext; [|exact B3]. exact EE'.
          -- intros b B. eapply shares_spill_ext; [exact EE|apply R5, B].
          -- intros b x y L B1 B2 B3. pose proof (drainage_in _ _ _ _ _ _ _ B3) as I. rewrite H1, <- EE by exact I. eapply R6; [exact B1|exact B2|apply D1, B3].
          -- intros x y I NS. apply H2; [exact I|]. rewrite R7, EE; auto. rewrite S1. exact NS. }
  destruct K as (r & R1 & R2 & R2' & R3). rewrite R1. cbn [lift bind]. unfold with_elevations. cbn [g_data g_file g_type g_w g_h g_xoff g_yoff g_nd g_geo g_proj g_meta].
  set (cell := fun x y => unrank (ds_type ds) (r x y)).
  destruct (saved now prog writable analysis fs (ds_type ds) w h nd (geo_of ds) (ds_proj ds) inp (window cell 0 0 w h) out HT ltac:(lia) ltac:(lia)) as (fs' & ds' & S1 & S2 & S3 & S4 & S5 & S6 & S7 & S8 & S9 & S10 & S11);
    [apply window_length; lia|exact Hg|exact HW|].
  exists fs', ds'. split; [exact S1|]. split; [exact S2|]. split; [exact S3|]. split; [repeat (split; [assumption|]); exact S9|]. split; [exact S11|].
  assert (CE : forall x y, in_raster w h x y -> exists x' y', in_raster w h x' y' /\ r x y = height ds x' y' /\ ds_cell ds' x y = ds_cell ds x' y').
  { intros x y I. destruct (R2 x y I) as (x' & y' & I' & E'). exists x', y'. split; [exact I'|]. split; [exact E'|]. destruct I as [Hx Hy]. rewrite S7, window_nth by assumption.
    subst cell. cbv beta. rewrite E'. destruct (NU x' y' I') as [Q1 Q2]. apply unrank_rank; assumption. }
  assert (HE : forall x y, in_raster w h x y -> height ds' x y = r x y).
  { intros x y I. destruct (CE x y I) as (x' & y' & I' & E' & C'). unfold height at 1. rewrite C'. symmetry. exact E'. }
  split.
  - apply R3; [exact HE|]. intros x y I E. destruct (NU x y I) as [Q1 Q2]. destruct I as [Hx Hy]. rewrite S7, window_nth by assumption. subst cell. cbv beta. rewrite E. apply unrank_rank; assumption.
  - intros x y I. split; [rewrite HE by exact I; apply R2', I|]. destruct (CE x y I) as (x' & y' & I' & _ & C'). exists x', y'. auto.
Qed.
Print Assumptions C97_flood.

(** equal ranks: equal values *)
Lemma same_rank T v w : typed T v -> typed T w -> ~ nan v -> (rank v = rank w <-> different v w = false).
Proof.
  assert (K : forall prec emax (Hp : Prec_gt_0 prec) (He : Prec_lt_emax prec emax) (f g : binary_float prec emax), 2 <= prec -> 3 <= emax -> f <> B754_nan -> (frank f = frank g <-> negb (Beqb f g) = false)).
  { intros prec emax Hp He f g P2 E3 Nf. rewrite negb_false_iff. unfold Beqb, SpecFloat.SFeqb.
    assert (D : g = B754_nan \/ g <> B754_nan) by (destruct g; [right|right|left|right]; congruence). destruct D as [->|Ng].
    - split; intros H; [exfalso|destruct f; discriminate H]. apply Nf. apply (frank_nan prec emax P2 E3 f). rewrite H. reflexivity.
    - pose proof (frank_compare prec emax P2 E3 f g Nf Ng) as C. unfold Bcompare in C. rewrite C. rewrite <- Z.compare_eq_iff. destruct (frank f ?= frank g); split; congruence. }
  destruct T, v as [a|a|a], w as [b|b|b]; cbn [typed nan different rank]; try contradiction; intros _ _ Na;
    try (rewrite negb_false_iff, Z.eqb_eq; reflexivity); apply K; try assumption; try lia; typeclasses eauto.
Qed.

(** C97. rd_depressions_has says rightly whether some cell lies below its drainage level. *)
Theorem C97_has : forall convert tb fs inp ds, fs inp = Some ds -> readable ds -> ds_w ds * ds_h ds < 2 ^ 31 ->
  ((exists x y, sunk D8 (ds_w ds) (ds_h ds) (height ds) x y) -> rd_depressions_has convert tb fs inp = Ok (Some "m Depressions found."%string)) /\
  (~ (exists x y, sunk D8 (ds_w ds) (ds_h ds) (height ds) x y) -> rd_depressions_has convert tb fs inp = Ok (Some "m No depressions found."%string)).
Proof.
  intros convert tb fs inp ds Hf (Wf & HT & Hg & nd & Hn) SZ. destruct (opened convert fs inp ds nd Hf Wf HT Hn) as (a0 & l & A0 & A1 & HL & HC).
  unfold rd_depressions_has, route. rewrite Hf, HT, A0. cbn [bind]. rewrite A1. cbn [bind g_data]. unfold cells. cbn [g_w g_h g_nd].
  destruct Wf as [W1 W2]. rewrite size_of by lia. cbn [bind]. set (e := elevations _ l). set (w := ds_w ds) in *. set (h := ds_h ds) in *.
  assert (EE : forall x y, in_raster w h x y -> e x y = height ds x y) by (intros x y [Hx Hy]; subst e; unfold elevations, height, cell_at; cbn [g_w]; rewrite HC by assumption; reflexivity).
  assert (EE' : forall x y, in_raster w h x y -> height ds x y = e x y) by (intros; symmetry; auto).
  destruct (C04_has_depressions tb D8 w h e ltac:(lia) ltac:(lia)) as (b & B1 & B2). rewrite B1. cbn [lift bind].
  assert (B3 : b = true <-> exists x y, sunk D8 w h (height ds) x y).
  { rewrite B2. split; [intros (x & y & L & I & D & Q); exists x, y; eapply sunk_ext; [exact EE|]; exists L; auto|]. intros (x & y & S). apply (sunk_ext _ _ _ _ _ EE') in S. destruct S as (L & D & Q).
    exists x, y, L. split; [eapply drainage_in; exact D|auto]. }
  split; intros H; [rewrite (proj2 B3 H); reflexivity|]. destruct b; [exfalso; apply H, B3; reflexivity|reflexivity].
Qed.
Print Assumptions C97_has.

(** C97. rd_depressions_mask: an 8 bit raster of the input's size, projection and georeference with NoData value 3; 3 where the input equals its NoData value, 1 in the other cells below
    their drainage level, 0 in the rest. *)
Theorem C97_mask : forall convert now prog writable analysis tb fs inp out ds nd, fs inp = Some ds -> readable ds -> of_double (ds_type ds) (GetNoDataValue ds) = Ok nd ->
  numbers ds -> ds_w ds * ds_h ds < 2 ^ 31 -> writable out = true ->
  exists fs' ds', rd_depressions_mask convert now prog writable analysis tb fs inp out = Ok (0, fs') /\ fs' out = Some ds' /\ (forall f, f <> out -> fs' f = fs f) /\
    ds_type ds' = Uint8 /\ ds_w ds' = ds_w ds /\ ds_h ds' = ds_h ds /\ ds_nodata ds' = Some (f64_of_Z 3) /\ ds_proj ds' = ds_proj ds /\ ds_geo ds' = Some (geo_of ds) /\ one_line now prog analysis ds' /\
    forall x y, in_raster (ds_w ds) (ds_h ds) x y ->
      (different (ds_cell ds x y) nd = false -> ds_cell ds' x y = VI 3) /\
      (different (ds_cell ds x y) nd = true -> sunk D8 (ds_w ds) (ds_h ds) (height ds) x y -> ds_cell ds' x y = VI 1) /\
      (different (ds_cell ds x y) nd = true -> ~ sunk D8 (ds_w ds) (ds_h ds) (height ds) x y -> ds_cell ds' x y = VI 0).
Proof.
  intros convert now prog writable analysis tb fs inp out ds nd Hf (Wf & HT & Hg & _) Hn NU SZ HW. destruct (opened convert fs inp ds nd Hf Wf HT Hn) as (a0 & l & A0 & A1 & HL & HC).
  unfold rd_depressions_mask, route. rewrite Hf, HT, A0. cbn [bind]. rewrite A1. cbn [bind g_data]. unfold cells. cbn [g_data g_file g_type g_w g_h g_xoff g_yoff g_nd g_geo g_proj g_meta].
  destruct Wf as [W1 W2]. rewrite size_of by lia. cbn [bind]. set (e := elevations _ l). set (w := ds_w ds) in *. set (h := ds_h ds) in *.
  assert (EE : forall x y, in_raster w h x y -> e x y = height ds x y) by (intros x y [Hx Hy]; subst e; unfold elevations, height, cell_at; cbn [g_w]; rewrite HC by assumption; reflexivity).
  assert (EE' : forall x y, in_raster w h x y -> height ds x y = e x y) by (intros; symmetry; auto).
  destruct (C05_pit_mask tb D8 w h e (rank nd) ltac:(lia) ltac:(lia)) as (m & M1 & M2). rewrite M1. cbn [lift bind].
  destruct (saved now prog writable analysis fs Uint8 w h (VI 3) (geo_of ds) (ds_proj ds) EmptyString (window (fun x y => VI (m x y)) 0 0 w h) out eq_refl ltac:(lia) ltac:(lia)) as (fs' & ds' & S1 & S2 & S3 & S4 & S5 & S6 & S7 & S8 & S9 & S10 & S11);
    [apply window_length; lia|exact Hg|exact HW|].
  exists fs', ds'. do 10 (split; [assumption|]). intros x y I. destruct (NU x y I) as [TY PL].
  assert (RK : e x y = rank nd <-> different (ds_cell ds x y) nd = false).
  { rewrite EE by exact I. unfold height. apply (same_rank (ds_type ds)); [exact TY|eapply of_double_typed; exact Hn|]. destruct (ds_cell ds x y); cbn [plain nan] in *; tauto. }
  destruct (C47_zhou_minimax tb w h e ltac:(lia) ltac:(lia)) as (r' & _ & R'). pose proof (R' x y I) as D. destruct (M2 x y _ I D) as (P1 & P2 & P3).
  assert (SK : sunk D8 w h (height ds) x y <-> e x y < r' x y).
  { split; [|intros Q; eapply sunk_ext; [exact EE|]; exists (r' x y); auto]. intros S. apply (sunk_ext _ _ _ _ _ EE') in S. destruct S as (L & D' & Q). rewrite (drainage_level_unique _ _ _ _ _ _ _ _ D D'). exact Q. }
  assert (CV : ds_cell ds' x y = VI (m x y)) by (destruct I as [Hx Hy]; rewrite S7, window_nth by assumption; reflexivity). rewrite CV.
  split; [intros Q; rewrite P1 by (apply RK, Q); reflexivity|]. split; intros Q S; (assert (NE : e x y <> rank nd) by (intros C; apply RK in C; congruence)).
  - rewrite P2; [reflexivity|exact NE|apply SK, S].
  - rewrite P3; [reflexivity|exact NE|]. rewrite SK in S. lia.
Qed.
Print Assumptions C97_mask.

(** C97. The three agree: after flooding without a limit rd_depressions_has finds nothing, the mask has no 1, and flooding again changes no cell. *)
Theorem C97_together : forall convert now prog writable analysis tb tb' fs inp out out2 text ds nd n, fs inp = Some ds -> readable ds -> of_double (ds_type ds) (GetNoDataValue ds) = Ok nd ->
  numbers ds -> ds_w ds * ds_h ds < 2 ^ 31 -> writable out = true -> writable out2 = true -> stoul text = Ok n -> n mod 2 ^ 32 = 0 \/ ds_w ds * ds_h ds <= n mod 2 ^ 32 ->
  exists fs' ds', rd_depressions_flood convert now prog writable analysis tb fs inp out text = Ok (0, fs') /\ fs' out = Some ds' /\
    rd_depressions_has convert tb' fs' out = Ok (Some "m No depressions found."%string) /\
    (exists fs2 dm, rd_depressions_mask convert now prog writable analysis tb' fs' out out2 = Ok (0, fs2) /\ fs2 out2 = Some dm /\ forall x y, in_raster (ds_w ds) (ds_h ds) x y -> ds_cell dm x y = VI 0 \/ ds_cell dm x y = VI 3) /\
    (exists fs2 d2, rd_depressions_flood convert now prog writable analysis tb' fs' out out2 text = Ok (0, fs2) /\ fs2 out2 = Some d2 /\ same_cells ds' d2).
Proof.
  intros convert now prog writable analysis tb tb' fs inp out out2 text ds nd n Hf R Hn NU SZ HW HW2 Ht HN. assert (R0 := R). destruct R0 as (Wf & HT & Hg & _).
  destruct (C97_flood convert now prog writable analysis tb fs inp out text ds nd n Hf R Hn NU SZ HW Ht) as (fs' & ds' & F1 & F2 & F3 & (F41 & F42 & F43 & F44 & F45 & F46) & F5 & [F6 _] & F7).
  specialize (F6 HN). set (w := ds_w ds) in *. set (h := ds_h ds) in *.
  assert (Hn' : of_double (ds_type ds') (GetNoDataValue ds') = Ok nd).
  { unfold GetNoDataValue. rewrite F45, F41. apply of_to_double; [exact HT|eapply of_double_typed; exact Hn]. }
  assert (R' : readable ds').
  { split; [unfold wf; rewrite F42, F43; exact Wf|]. split; [rewrite F41; exact HT|]. split; [unfold geo_of at 1; rewrite F46; exact Hg|]. eauto. }
  assert (NU' : numbers ds').
  { intros x y I. rewrite F42, F43 in I. rewrite F41. destruct (F7 x y I) as (_ & x' & y' & I' & C'). rewrite C'. apply NU, I'. }
  assert (SZ' : ds_w ds' * ds_h ds' < 2 ^ 31) by (rewrite F42, F43; exact SZ).
  assert (NS : forall x y, ~ sunk D8 w h (height ds') x y) by exact (surface_no_sunk D8 w h (height ds) (height ds') F6).
  exists fs', ds'. split; [exact F1|]. split; [exact F2|].
  split; [apply (C97_has convert tb' fs' out ds' F2 R' SZ'); rewrite F42, F43; intros (x & y & S); exact (NS x y S)|].
  split.
  - destruct (C97_mask convert now prog writable analysis tb' fs' out out2 ds' nd F2 R' Hn' NU' SZ' HW2) as (fs2 & dm & M1 & M2 & _ & _ & _ & _ & _ & _ & _ & _ & M3). exists fs2, dm. split; [exact M1|]. split; [exact M2|].
    intros x y I. rewrite F42, F43 in M3. specialize (M3 x y I). destruct M3 as (M4 & _ & M5). destruct (different (ds_cell ds' x y) nd); [left; apply M5; [reflexivity|apply NS]|right; apply M4; reflexivity].
  - destruct (C97_flood convert now prog writable analysis tb' fs' out out2 text ds' nd n F2 R' Hn' NU' SZ' HW2 Ht) as (fs2 & d2 & G1 & G2 & _ & (G41 & G42 & G43 & _) & _ & [G6 _] & G7).
    rewrite F42, F43 in G6, G7. specialize (G6 HN). exists fs2, d2. split; [exact G1|]. split; [exact G2|]. split; [exact G41|]. split; [exact G42|]. split; [exact G43|].
    rewrite F42, F43. intros x y Hx Hy. assert (I : in_raster w h x y) by (split; assumption).
    assert (EQ : height d2 x y = height ds' x y).
    { pose proof (G6 x y I) as D. pose proof (drainage_level_ge _ _ _ _ _ _ _ D) as Q. destruct (Z.eq_dec (height d2 x y) (height ds' x y)) as [E|E]; [exact E|]. exfalso. apply (NS x y). exists (height d2 x y). split; [exact D|lia]. }
    destruct (G7 x y I) as (_ & x' & y' & I' & C'). unfold height in EQ. destruct (NU' x y ltac:(rewrite F42, F43; exact I)) as [T1 P1]. destruct (NU' x' y' ltac:(rewrite F42, F43; exact I')) as [T2 P2].
    rewrite C' in *. rewrite <- (unrank_rank _ _ T1 P1), <- (unrank_rank _ _ T2 P2), EQ. reflexivity.
Qed.
Print Assumptions C97_together.

(** std::stoul: spaces, a sign, digits and whatever follows *)
Theorem C97_stoul : forall (k : nat) (neg : bool) (l : list Z) (rest : string), l <> [] -> Forall (fun d => 0 <= d <= 9) l -> starts_with_digit rest = false ->
  let n := positional l in
  stoul (String.append (blanks k) (String.append (sign_text neg) (String.append (digit_text l) rest))) = if n <? 2 ^ 64 then Ok (if neg then (- n) mod 2 ^ 64 else n) else Thrown.
Proof.
  intros k neg l rest Hl HF HR n. subst n. unfold stoul. destruct l as [|d l]; [contradiction|]. set (body := String.append (digit_text (d :: l)) rest).
  inversion HF as [|? ? Hd HF']; subst.
  assert (B : exists a r, body = String a r /\ digit a = Some d).
  { exists (ascii_of_nat (Z.to_nat (48 + d))), (String.append (digit_text l) rest). split; [reflexivity|apply digit_of; exact Hd]. }
  assert (D : digits body 0 = positional (d :: l)) by (unfold body; rewrite digits_text by assumption; lia).
  destruct B as (a & r & EB & Ea).
  assert (NS : isspace a = false /\ Ascii.eqb a "-" = false /\ Ascii.eqb a "+" = false).
  { clear - Ea. unfold digit in Ea. destruct (((48 <=? Z.of_nat (nat_of_ascii a)) && (Z.of_nat (nat_of_ascii a) <=? 57))%Z) eqn:E; [|discriminate].
    rewrite andb_true_iff, !Z.leb_le in E. split; [|split].
    - unfold isspace. cbv zeta. apply orb_false_iff. split; [|apply Nat.eqb_neq; lia]. apply andb_false_iff. right. apply Nat.leb_gt. lia.
    - apply Ascii.eqb_neq. intros ->. cbn in E. lia.
    - apply Ascii.eqb_neq. intros ->. cbn in E. lia. }
  destruct NS as (N1 & N2 & N3).
  assert (SK : forall s : string, skip_space (String.append (blanks k) s) = skip_space s) by (induction k as [|k IH]; intros s; [reflexivity|apply IH]). rewrite SK.
  destruct neg; cbn [sign_text String.append].
  - cbn [skip_space]. change (isspace "-") with false. cbv iota. change (Ascii.eqb "-" "-") with true. cbv iota. rewrite D. rewrite EB. cbn [starts_with_digit]. rewrite Ea. reflexivity.
  - rewrite EB. cbn [skip_space]. rewrite N1. rewrite N2, N3. rewrite <- EB. rewrite D. rewrite EB. cbn [starts_with_digit]. rewrite Ea. reflexivity.
Qed.
Print Assumptions C97_stoul.

(** "Depressions larger than the maximum size are not flooded; use 0 to flood all depressions" is false: the number is taken modulo 2^32, only its beginning is read, and negative
    numbers are accepted. What does not begin with an integer is an error. *)
Theorem C97_limit_refuted : forall convert now prog writable analysis tb fs inp out,
  let run := rd_depressions_flood convert now prog writable analysis tb fs inp out in
  run "4294967296"%string = run "0"%string /\ run "4294967297"%string = run "1"%string /\ run "-4294967295"%string = run "1"%string /\ run "-1"%string = run "4294967295"%string /\
  run "0.5"%string = run "0"%string /\ run "0x10"%string = run "0"%string /\ run "1e6"%string = run "1"%string /\
  (forall text, In text [""; "all"; "inf"; ".5"; "18446744073709551616"]%string -> run text = Thrown).
Proof.
  intros. subst run. unfold rd_depressions_flood. do 7 (split; [reflexivity|]). intros text H. destruct H as [<-|[<-|[<-|[<-|[<-|[]]]]]]; reflexivity.
Qed.
Print Assumptions C97_limit_refuted.

(** C97. A missing file is an error; a file of a type the programs do not know makes the two that write exit with status -1 without writing, and the third print nothing. *)
Theorem C97_route : forall convert now prog writable analysis tb fs inp out text n, stoul text = Ok n ->
  (fs inp = None -> rd_depressions_flood convert now prog writable analysis tb fs inp out text = Thrown /\ rd_depressions_has convert tb fs inp = Thrown /\
     rd_depressions_mask convert now prog writable analysis tb fs inp out = Thrown) /\
  (forall ds, fs inp = Some ds -> has_gdal_type (ds_type ds) = false -> rd_depressions_flood convert now prog writable analysis tb fs inp out text = Ok (-1, fs) /\
     rd_depressions_has convert tb fs inp = Ok None /\ rd_depressions_mask convert now prog writable analysis tb fs inp out = Ok (-1, fs)).
Proof.
  intros convert now prog writable analysis tb fs inp out text n Ht. unfold rd_depressions_flood, rd_depressions_has, rd_depressions_mask, route. rewrite Ht. cbn [bind]. split.
  - intros H. rewrite H. auto.
  - intros ds H HT. rewrite H, HT. auto.
Qed.
Print Assumptions C97_route.

(** a 5 by 5 raster of 64 bit floats with two pits of different sizes, and NoData cells *)
Definition ex_z : grid Z := fun x y => nth (Z.to_nat (5 * y + x)) [9;9;9;9;9; 9;2;9;3;9; 9;9;9;1;9; 9;9;7;9;9; 9;9;6;9;9] 9.
Definition ex_dem : dataset := mkDS Float64 5 5 (fun x y => VD (f64_of_Z (ex_z x y))) (Some (f64_of_Z 3)) None "EPSG:4326" [].
Definition ex_dfs : files := fun n => if String.eqb n "dem.tif" then Some ex_dem else None.
Lemma ex_dem_nd : of_double (ds_type ex_dem) (GetNoDataValue ex_dem) = Ok (VD (f64_of_Z 3)). Proof. reflexivity. Qed.
Lemma ex_dem_readable : readable ex_dem. Proof. split; [split; cbn; lia|]. split; [reflexivity|]. split; [reflexivity|]. eexists. exact ex_dem_nd. Qed.
Lemma ex_z_range x y : 1 <= ex_z x y <= 9.
Proof.
  unfold ex_z. generalize (Z.to_nat (5 * y + x)). intros n. do 25 (destruct n as [|n]; [cbn; lia|]). cbn [nth]. destruct n; cbn; lia.
Qed.
Lemma ex_dem_numbers : numbers ex_dem.
Proof.
  intros x y _. cbn [ex_dem ds_type ds_cell typed plain]. split; [exact I|]. pose proof (ex_z_range x y) as R. destruct (f64_int (ex_z x y) ltac:(lia)) as (F1 & F2 & _).
  split; intros E; rewrite E in F1, F2; [discriminate F2|]. cbn [B2R] in F1. apply (eq_IZR 0) in F1. lia.
Qed.
Example C97_case : exists fs' ds', rd_depressions_flood ex_conv "now" "prog" any_name "c" (fun n => n) ex_dfs "dem.tif" "out.tif" "0" = Ok (0, fs') /\ fs' "out.tif"%string = Some ds' /\
  rd_depressions_has ex_conv (fun n => n) fs' "out.tif" = Ok (Some "m No depressions found."%string).
Proof.
  destruct (C97_together ex_conv "now" "prog" any_name "c" (fun n => n) (fun n => n) ex_dfs "dem.tif" "out.tif" "again.tif" "0" ex_dem _ 0 eq_refl ex_dem_readable ex_dem_nd ex_dem_numbers eq_refl eq_refl eq_refl eq_refl)
    as (fs' & ds' & A1 & A2 & A3 & _); [left; reflexivity|]. exists fs', ds'. auto.
Qed.
(** the algorithm on the example: the pit of one cell is filled at a limit of one, the one of two is not *)
Example C97_case_limit : option_map (to_rows 5 5) (flood (fun n => n) 1 5 5 ex_z) = Some [[9;9;9;9;9]; [9;9;9;3;9]; [9;9;9;1;9]; [9;9;7;9;9]; [9;9;6;9;9]].
Proof. vm_compute. reflexivity. Qed.
