(** C99: rd_depressions_breach. *)
From Coq Require Import ZArith List Lia Bool String Ascii QArith Qcanon Reals.
From Flocq Require Import Core BinarySingleNaN.
From Verif Require Import Base Res RasterSpec RasterFacts PFSpec BreachModel BreachSpec PropertiesBreach ArrModel FAFModel PyModel PyIntModel PyNumModel GDALModel GDALProofs PropertiesGDAL AppsGDALModel PropertiesAppsGDAL
  AppsDepModel AppsDepProofs PropertiesAppsDep PropertiesEpsInt AppsFAModel PropertiesAppsFA AppsBreachModel.
Open Scope Z_scope.
Open Scope list_scope.

(** ** the specification of breaching (BreachSpec) only looks at the cells of the raster *)
Section Ext.
  Variables (w h nd : Z) (e e' : grid Z).
  Hypothesis EE : forall x y, in_raster w h x y -> e x y = e' x y.
  Lemma data_ext x y : is_data w h nd e x y <-> is_data w h nd e' x y.
  Proof. unfold is_data. split; intros [I N]; (split; [exact I|]); [rewrite <- EE by exact I|rewrite EE by exact I]; exact N. Qed.
  Lemma outlet_ext x y : is_outlet D8 w h nd e x y <-> is_outlet D8 w h nd e' x y.
  Proof.
    unfold is_outlet. rewrite data_ext. split; intros [A [B|(a & b & I & J & N)]]; (split; [exact A|]); auto; right; exists a, b; (split; [exact I|split; [exact J|]]); [rewrite <- EE by exact I|rewrite EE by exact I]; exact N.
  Qed.
  Lemma runs_off_data D x y : runs_off D8 w h nd e D x y -> in_raster w h x y.
  Proof. intros [? ? [[I _] _]|? ? ? ? [I _] _ _ _]; exact I. Qed.
  Lemma runs_off_ext D D' x y : (forall x y, in_raster w h x y -> D x y = D' x y) -> runs_off D8 w h nd e D x y -> runs_off D8 w h nd e' D' x y.
  Proof.
    intros DD. induction 1 as [x y O|x y x' y' I A L R IH]; [apply ro_out, outlet_ext, O|]. apply ro_step with (x' := x') (y' := y'); [apply data_ext, I|exact A| |exact IH].
    rewrite <- (DD x' y' (runs_off_data D x' y' R)), <- (DD x y (proj1 I)). exact L.
  Qed.
  Lemma leaves_ext D D' L x y : (forall x y, in_raster w h x y -> D x y = D' x y) -> leaves_at D8 w h nd e D L x y -> leaves_at D8 w h nd e' D' L x y.
  Proof.
    intros DD. induction 1 as [x y O B|x y x' y' I B A R IH].
    - apply la_out; [apply outlet_ext, O|]. destruct O as [[I _] _]. rewrite <- DD by exact I. exact B.
    - apply la_step with (x' := x') (y' := y'); [apply data_ext, I| |exact A|exact IH]. rewrite <- DD by apply I. exact B.
  Qed.
  Lemma joined_ext D L x y x' y' : joined_at w h nd D8 e D L x y x' y' -> joined_at w h nd D8 e' D L x y x' y'.
  Proof. induction 1; [apply ja_here; [apply data_ext; assumption|assumption]|eapply ja_step; try eassumption; apply data_ext; assumption]. Qed.
  Lemma no_lower_ext F x y : no_lower D8 w h nd e F x y <-> no_lower D8 w h nd e' F x y.
  Proof. unfold no_lower. rewrite data_ext, outlet_ext. reflexivity. Qed.
  Lemma inner x y x' y' : is_data w h nd e x y -> ~ is_outlet D8 w h nd e x y -> adjacent D8 x y x' y' -> in_raster w h x' y'.
  Proof.
    intros I N A. assert (OE : ~ on_edge w h x y) by (intros C; apply N; split; [exact I|left; exact C]). destruct I as [I _]. unfold on_edge, in_raster, adjacent in *. lia.
  Qed.
  Lemma pit_ext x y : pit_cell D8 w h nd e x y -> pit_cell D8 w h nd e' x y.
  Proof.
    intros (I & O & A). split; [apply data_ext, I|]. split; [intros C; apply O, outlet_ext, C|]. intros x' y' J. rewrite <- !EE; [apply A, J|eapply inner; eassumption|apply I].
  Qed.
End Ext.
Lemma raised_ext w h nd e e' F : (forall x y, in_raster w h x y -> e x y = e' x y) -> pits_raised same D8 w h nd e F -> pits_raised same D8 w h nd e' F.
Proof.
  intros EE P x y I. assert (EE' : forall x y, in_raster w h x y -> e' x y = e x y) by (intros; symmetry; auto). destruct (P x y I) as [P1 P2]. split.
  - intros C. assert (C' := C). apply (pit_ext _ _ _ _ _ EE') in C. destruct (P1 C) as (x1 & y1 & A & B & E). exists x1, y1. split; [exact A|]. destruct C' as (D & O & _).
    split; [intros x2 y2 J; rewrite <- !EE; [apply B, J|eapply inner; eassumption|eapply inner; eassumption]|]. rewrite <- EE; [exact E|eapply inner; eassumption].
  - intros C. rewrite <- EE by exact I. apply P2. intros C'. apply C. apply (pit_ext _ _ _ _ _ EE) in C'. exact C'.
Qed.

(** what complete breaching does to the elevations [e] of the cells that are not [nd]; the words are those of C49 *)
Definition breached (w h nd : Z) (e D : grid Z) : Prop :=
  (forall x y, is_data w h nd e x y -> runs_off D8 w h nd e D x y) /\
  (exists F, pits_raised same D8 w h nd e F /\ forall x y, in_raster w h x y -> D x y <= F x y /\
     (D x y <> F x y -> exists px py, no_lower D8 w h nd e F px py /\ D x y = F px py /\ forall L, leaves_at D8 w h nd e F L px py -> joined_at w h nd D8 e F L px py x y /\ leaves_at D8 w h nd e F L x y)) /\
  (forall x y L, leaves_at D8 w h nd e e L x y -> D x y <= L).

(** C99. rd_depressions_breach <in> <out> COMPLETE NOEPS <FILL or NOFILL> <length> <depth>: everything but the cells is kept, cells without data are not touched, from every cell with data
    water runs off, never uphill; single-cell pits are raised to their lowest neighbour, cells are lowered to the level of a cell without lower neighbour, on the least-cost way from it;
    no cell stands above its filling level; every number written is one of the input. The two limits do not matter, as long as the second is a number the type of the file can hold. *)
Theorem C99_complete : forall convert now prog writable analysis tb stod others fs inp out fill tlen tdepth ds nd f n d md, fs inp = Some ds -> readable ds -> of_double (ds_type ds) (GetNoDataValue ds) = Ok nd ->
  numbers ds -> (forall x y, in_raster (ds_w ds) (ds_h ds) x y -> below_infinity (ds_cell ds x y)) -> ds_w ds * ds_h ds < 2 ^ 31 -> writable out = true ->
  fill_of fill = Ok f -> stoul tlen = Ok n -> stod tdepth = Ok d -> of_double (ds_type ds) d = Ok md ->
  exists fs' ds', rd_depressions_breach convert now prog writable analysis tb stod others fs inp out "COMPLETE" "NOEPS" fill tlen tdepth = Ok (0, fs') /\ fs' out = Some ds' /\ (forall f, f <> out -> fs' f = fs f) /\
    same_frame ds ds' nd /\ one_line now prog analysis ds' /\ breached (ds_w ds) (ds_h ds) (rank nd) (height ds) (height ds') /\
    (forall x y, in_raster (ds_w ds) (ds_h ds) x y -> (different (ds_cell ds x y) nd = true <-> is_data (ds_w ds) (ds_h ds) (rank nd) (height ds) x y) /\
       (different (ds_cell ds x y) nd = false -> ds_cell ds' x y = ds_cell ds x y) /\ exists x' y', in_raster (ds_w ds) (ds_h ds) x' y' /\ ds_cell ds' x y = ds_cell ds x' y').
Proof.
  intros convert now prog writable analysis tb stod others fs inp out fill tlen tdepth ds nd f n d md Hf (Wf & HT & Hg & _) Hn NU BI SZ HW Ef El Ed Em.
  destruct (opened convert fs inp ds nd Hf Wf HT Hn) as (a0 & l & A0 & A1 & HL & HC).
  unfold rd_depressions_breach. change (mode_of "COMPLETE") with (Ok COMPLETE). change (eps_of "NOEPS") with (Ok false). rewrite Ef, El, Ed. cbn [bind].
  unfold route. rewrite Hf, HT, A0. cbn [bind]. rewrite A1. cbn [bind g_data]. cbn [g_data g_file g_type g_w g_h g_xoff g_yoff g_nd g_geo g_proj g_meta]. rewrite Em. cbn [bind]. unfold cells. cbn [g_w g_h g_nd].
  destruct Wf as [W1 W2]. rewrite size_of by lia. cbn [bind]. unfold breach. cbv zeta. cbn [g_data g_file g_type g_w g_h g_xoff g_yoff g_nd g_geo g_proj g_meta]. set (e := elevations _ l). set (w := ds_w ds) in *. set (h := ds_h ds) in *.
  assert (EE : forall x y, in_raster w h x y -> e x y = height ds x y) by (intros x y [Hx Hy]; subst e; unfold elevations, height, cell_at; cbn [g_w]; rewrite HC by assumption; reflexivity).
  assert (EE' : forall x y, in_raster w h x y -> height ds x y = e x y) by (intros; symmetry; auto).
  assert (MX : forall x y, is_data w h (rank nd) e x y -> e x y <= largest (ds_type ds)).
  { intros x y [I _]. rewrite EE by exact I. destruct (NU x y I) as [T1 T2]. apply rank_largest; [exact T1|exact T2|apply BI, I]. }
  destruct (C50_breaching_without_gradients tb f (fun z => z) (n mod 2 ^ 32) (rank md) w h (rank nd) (largest (ds_type ds)) (lowest (ds_type ds)) e MX) as (D & F & ED & D1 & D2 & D3 & D4 & D5 & D6).
  change same with (fun z : Z => z) in ED. rewrite ED. cbn [bind].
  (* every level is one of the input *)
  assert (VF : forall x y, in_raster w h x y -> exists x' y', in_raster w h x' y' /\ F x y = height ds x' y').
  { intros x y I. destruct (D3 x y I) as [P1 P2]. destruct (Classical_Prop.classic (pit_cell D8 w h (rank nd) e x y)) as [C|C].
    - destruct (P1 C) as (x1 & y1 & A & _ & E). destruct C as (C1 & C2 & _). pose proof (inner w h (rank nd) e x y x1 y1 C1 C2 A) as I1. exists x1, y1. split; [exact I1|]. rewrite E. apply EE, I1.
    - exists x, y. split; [exact I|]. rewrite (P2 C). apply EE, I. }
  assert (VD : forall x y, in_raster w h x y -> exists x' y', in_raster w h x' y' /\ D x y = height ds x' y').
  { intros x y I. destruct (Z.eq_dec (D x y) (F x y)) as [Q|Q]; [rewrite Q; apply VF, I|]. destruct (D5 x y Q) as (px & py & (P1 & _) & P2 & _). rewrite P2. apply VF, P1. }
  unfold with_elevations. cbn [g_data g_file g_type g_w g_h g_xoff g_yoff g_nd g_geo g_proj g_meta]. set (cell := fun x y => unrank (ds_type ds) (D x y)).
  destruct (saved now prog writable analysis fs (ds_type ds) w h nd (geo_of ds) (ds_proj ds) inp (window cell 0 0 w h) out HT ltac:(lia) ltac:(lia)) as (fs' & ds' & S1 & S2 & S3 & S4 & S5 & S6 & S7 & S8 & S9 & S10 & S11);
    [apply window_length; lia|exact Hg|exact HW|].
  exists fs', ds'. split; [exact S1|]. split; [exact S2|]. split; [exact S3|]. split; [repeat (split; [assumption|]); exact S9|]. split; [exact S11|].
  assert (CE : forall x y, in_raster w h x y -> forall x' y', in_raster w h x' y' -> D x y = height ds x' y' -> ds_cell ds' x y = ds_cell ds x' y').
  { intros x y I x' y' I' E'. destruct I as [Hx Hy]. rewrite S7, window_nth by assumption. subst cell. cbv beta. rewrite E'. destruct (NU x' y' I') as [Q1 Q2]. apply unrank_rank; assumption. }
  assert (HE : forall x y, in_raster w h x y -> D x y = height ds' x y).
  { intros x y I. destruct (VD x y I) as (x' & y' & I' & E'). unfold height. rewrite (CE x y I x' y' I' E'). exact E'. }
  assert (RK : forall x y, in_raster w h x y -> (height ds x y = rank nd <-> different (ds_cell ds x y) nd = false)).
  { intros x y I. unfold height. destruct (NU x y I) as [TY PL]. apply (same_rank (ds_type ds)); [exact TY|eapply of_double_typed; exact Hn|]. destruct (ds_cell ds x y); cbn [plain nan] in *; tauto. }
  split.
  - split; [|split].
    + intros x y I. apply (data_ext _ _ _ _ _ EE') in I. apply (runs_off_ext w h (rank nd) e (height ds) EE D (height ds') x y HE). apply D1, I.
    + exists F. split; [apply (raised_ext w h (rank nd) e); [exact EE|exact D3]|]. intros x y I. rewrite <- HE by exact I. split; [apply D4|]. intros Q. destruct (D5 x y Q) as (px & py & P1 & P2 & P3). exists px, py.
      split; [apply (no_lower_ext w h (rank nd) e (height ds) EE), P1|]. split; [exact P2|]. intros L LA. apply (leaves_ext _ _ _ _ _ EE' F F) in LA; [|auto]. destruct (P3 L LA) as [P4 P5].
      split; [apply (joined_ext w h (rank nd) e); assumption|]. apply (leaves_ext w h (rank nd) e _ EE F F); auto.
    + intros x y L LA. apply (leaves_ext _ _ _ _ _ EE' (height ds) e) in LA; [|exact EE']. assert (I : in_raster w h x y) by (inversion LA as [? ? [[I _] _] _|? ? ? ? [I _] _ _ _]; exact I).
      rewrite <- HE by exact I. apply D6, LA.
  - intros x y I. specialize (RK x y I). split; [|split].
    + unfold is_data. split; [intros Q; split; [exact I|]; intros C; apply RK in C; congruence|]. intros [_ Q]. destruct (different (ds_cell ds x y) nd); [reflexivity|]. exfalso. apply Q, RK. reflexivity.
    + intros Q. apply RK in Q. apply (CE x y I x y I). rewrite (D2 x y I); [symmetry; exact Q|]. rewrite EE by exact I. exact Q.
    + destruct (VD x y I) as (x' & y' & I' & E'). exists x', y'. split; [exact I'|]. apply CE; assumption.
Qed.
Print Assumptions C99_complete.

(** C99. If every cell has data, rd_depressions_has finds nothing in what was written. *)
Theorem C99_has : forall convert now prog writable analysis tb tb' stod others fs inp out fill tlen tdepth ds nd f n d md, fs inp = Some ds -> readable ds -> of_double (ds_type ds) (GetNoDataValue ds) = Ok nd ->
  numbers ds -> (forall x y, in_raster (ds_w ds) (ds_h ds) x y -> below_infinity (ds_cell ds x y) /\ different (ds_cell ds x y) nd = true) -> ds_w ds * ds_h ds < 2 ^ 31 -> writable out = true ->
  fill_of fill = Ok f -> stoul tlen = Ok n -> stod tdepth = Ok d -> of_double (ds_type ds) d = Ok md ->
  exists fs', rd_depressions_breach convert now prog writable analysis tb stod others fs inp out "COMPLETE" "NOEPS" fill tlen tdepth = Ok (0, fs') /\
    rd_depressions_has convert tb' fs' out = Ok (Some "m No depressions found."%string).
Proof.
  intros convert now prog writable analysis tb tb' stod others fs inp out fill tlen tdepth ds nd f n d md Hf R Hn NU BI SZ HW Ef El Ed Em.
  destruct (C99_complete convert now prog writable analysis tb stod others fs inp out fill tlen tdepth ds nd f n d md Hf R Hn NU (fun x y I => proj1 (BI x y I)) SZ HW Ef El Ed Em)
    as (fs' & ds' & F1 & F2 & _ & (F41 & F42 & F43 & F44 & F45 & F46) & _ & [B1 _] & B2). exists fs'. split; [exact F1|]. destruct R as (Wf & HT & Hg & _).
  assert (R' : readable ds').
  { split; [unfold wf; rewrite F42, F43; exact Wf|]. split; [rewrite F41; exact HT|]. split; [unfold geo_of at 1; rewrite F46; exact Hg|].
    exists nd. unfold GetNoDataValue. rewrite F45, F41. apply of_to_double; [exact HT|eapply of_double_typed; exact Hn]. }
  apply (C97_has convert tb' fs' out ds' F2 R'); [rewrite F42, F43; exact SZ|]. rewrite F42, F43. intros (x & y & L & [DR LE] & Q).
  assert (I : in_raster (ds_w ds) (ds_h ds) x y) by (inversion DR as [? ? [I _]|]; assumption).
  assert (RO : forall x y, runs_off D8 (ds_w ds) (ds_h ds) (rank nd) (height ds) (height ds') x y -> drains D8 (ds_w ds) (ds_h ds) (height ds') (height ds' x y) x y).
  { assert (UP : forall L L' x y, L <= L' -> drains D8 (ds_w ds) (ds_h ds) (height ds') L x y -> drains D8 (ds_w ds) (ds_h ds) (height ds') L' x y).
    { intros L1 L2 a b LL. induction 1 as [a b E B|a b a' b' J B A _ IH]; [apply drains_edge; [exact E|lia]|apply drains_step with (x' := a') (y' := b'); [exact J|lia|exact A|exact IH]]. }
    induction 1 as [a b O|a b a' b' J A LL _ IH].
    - destruct O as [[J _] [OE|(a' & b' & J' & _ & E)]]; [apply drains_edge; [exact OE|lia]|]. exfalso. destruct (B2 a' b' J') as (B3 & _ & _). apply (proj1 B3 (proj2 (BI a' b' J'))). exact E.
    - apply drains_step with (x' := a') (y' := b'); [apply J|lia|exact A|]. apply UP with (1 := LL). exact IH. }
  specialize (LE _ (RO x y (B1 x y (proj1 (proj1 (B2 x y I)) (proj2 (BI x y I)))))). lia.
Qed.
Print Assumptions C99_has.

(** C99. rd_depressions_breach <in> <out> SELECTIVE NOEPS, for rasters of unsigned integers: whatever the limits, cells without data are not touched; with FILL, water runs off from every inner
    cell that had no lower neighbour; with NOFILL, only single-cell pits are raised, to their lowest neighbour, and cells are lowered only to the level of a cell without lower neighbour
    whose least-cost way out they lie on. *)
Theorem C99_selective : forall convert now prog writable analysis tb stod others fs inp out fill tlen tdepth ds nd f n d md, fs inp = Some ds -> readable ds -> of_double (ds_type ds) (GetNoDataValue ds) = Ok nd ->
  ds_type ds = Uint8 \/ ds_type ds = Uint16 \/ ds_type ds = Uint32 -> numbers ds -> ds_w ds * ds_h ds < 2 ^ 31 -> writable out = true ->
  fill_of fill = Ok f -> stoul tlen = Ok n -> stod tdepth = Ok d -> of_double (ds_type ds) d = Ok md ->
  let w := ds_w ds in let h := ds_h ds in let e := height ds in
  exists fs' ds', rd_depressions_breach convert now prog writable analysis tb stod others fs inp out "SELECTIVE" "NOEPS" fill tlen tdepth = Ok (0, fs') /\ fs' out = Some ds' /\ (forall f, f <> out -> fs' f = fs f) /\
    same_frame ds ds' nd /\ one_line now prog analysis ds' /\ (forall x y, in_raster w h x y -> ds_cell ds x y = nd -> ds_cell ds' x y = nd) /\
    (f = true -> forall x y, no_lower D8 w h (rank nd) e e x y -> runs_off D8 w h (rank nd) e (height ds') x y) /\
    (f = false -> exists F, pits_raised same D8 w h (rank nd) e F /\ forall x y, in_raster w h x y -> height ds' x y <= F x y /\
       (height ds' x y <> F x y -> exists px py, no_lower D8 w h (rank nd) e F px py /\ height ds' x y = F px py /\
          forall L, leaves_at D8 w h (rank nd) e F L px py -> joined_at w h (rank nd) D8 e F L px py x y /\ leaves_at D8 w h (rank nd) e F L x y)).
Proof.
  intros convert now prog writable analysis tb stod others fs inp out fill tlen tdepth ds nd f n d md Hf (Wf & HT & Hg & _) Hn UT NU SZ HW Ef El Ed Em.
  destruct (opened convert fs inp ds nd Hf Wf HT Hn) as (a0 & l & A0 & A1 & HL & HC).
  unfold rd_depressions_breach. change (mode_of "SELECTIVE") with (Ok SELECTIVE). change (eps_of "NOEPS") with (Ok false). rewrite Ef, El, Ed. cbn [bind].
  unfold route. rewrite Hf, HT, A0. cbn [bind]. rewrite A1. cbn [bind g_data]. cbn [g_data g_file g_type g_w g_h g_xoff g_yoff g_nd g_geo g_proj g_meta]. rewrite Em. cbn [bind]. unfold cells. cbn [g_w g_h g_nd].
  destruct Wf as [W1 W2]. rewrite size_of by lia. cbn [bind]. unfold breach. cbv zeta. cbn [g_data g_file g_type g_w g_h g_xoff g_yoff g_nd g_geo g_proj g_meta]. set (e := elevations _ l). set (w := ds_w ds) in *. set (h := ds_h ds) in *.
  assert (EE : forall x y, in_raster w h x y -> e x y = height ds x y) by (intros x y [Hx Hy]; subst e; unfold elevations, height, cell_at; cbn [g_w]; rewrite HC by assumption; reflexivity).
  assert (EE' : forall x y, in_raster w h x y -> height ds x y = e x y) by (intros; symmetry; auto).
  assert (VI_ : forall v, typed (ds_type ds) v -> exists z, v = VI z) by (intros [z|v|v] T; [eauto|exfalso|exfalso]; destruct UT as [UT|[UT|UT]]; rewrite UT in T; exact T).
  assert (MX : forall x y, is_data w h (rank nd) e x y -> e x y <= largest (ds_type ds)).
  { intros x y [I _]. rewrite EE by exact I. destruct (NU x y I) as [T1 T2]. apply rank_largest; [exact T1|exact T2|]. destruct (VI_ _ T1) as [z E]. rewrite E. exact Logic.I. }
  assert (SEL : forall (r s : res (grid Z)), match ds_type ds with Uint8 | Uint16 | Uint32 => r | _ => s end = r) by (intros r s; destruct UT as [UT|[UT|UT]]; rewrite UT; reflexivity).
  rewrite SEL.
  destruct (C51_every_mode tb SELECTIVE f same same (n mod 2 ^ 32) (rank md) w h (rank nd) (largest (ds_type ds)) (lowest (ds_type ds)) e same_le same_ge (fun z => Z.le_refl z) (or_introl (fun z => eq_refl)) MX) as (D & ED & D1 & D2 & _ & D3).
  change same with (fun z : Z => z) in ED. rewrite ED. cbn [bind].
  unfold with_elevations. cbn [g_data g_file g_type g_w g_h g_xoff g_yoff g_nd g_geo g_proj g_meta]. set (cell := fun x y => unrank (ds_type ds) (D x y)).
  destruct (saved now prog writable analysis fs (ds_type ds) w h nd (geo_of ds) (ds_proj ds) inp (window cell 0 0 w h) out HT ltac:(lia) ltac:(lia)) as (fs' & ds' & S1 & S2 & S3 & S4 & S5 & S6 & S7 & S8 & S9 & S10 & S11);
    [apply window_length; lia|exact Hg|exact HW|].
  exists fs', ds'. split; [exact S1|]. split; [exact S2|]. split; [exact S3|]. split; [repeat (split; [assumption|]); exact S9|]. split; [exact S11|].
  assert (CV : forall x y, in_raster w h x y -> ds_cell ds' x y = VI (D x y)).
  { intros x y [Hx Hy]. rewrite S7, window_nth by assumption. subst cell. cbv beta. destruct UT as [UT|[UT|UT]]; rewrite UT; reflexivity. }
  assert (HE : forall x y, in_raster w h x y -> D x y = height ds' x y) by (intros x y I; unfold height; rewrite CV by exact I; reflexivity).
  split; [|split].
  - intros x y I Q. rewrite CV by exact I. rewrite D1; [|exact I|rewrite EE by exact I; unfold height; rewrite Q; reflexivity]. destruct (VI_ nd (of_double_typed _ _ _ Hn)) as [z ->]. reflexivity.
  - intros Hf' x y N. apply (runs_off_ext w h (rank nd) e (height ds) EE D (height ds') x y HE). apply D2; [discriminate|exact Hf'|].
    destruct N as (N1 & N2 & N3). assert (DI := N1). apply (data_ext _ _ _ _ _ EE') in N1. split; [exact N1|]. split; [intros C; apply N2; apply (outlet_ext _ _ _ _ _ EE), C|].
    intros x' y' A. rewrite (EE x y (proj1 DI)), (EE x' y' (inner _ _ _ _ _ _ _ _ DI N2 A)). apply N3, A.
  - intros Hf'. destruct (D3 eq_refl Hf') as (F & F1 & F2 & F3). exists F. split; [apply (raised_ext w h (rank nd) e); [exact EE|exact F1]|]. intros x y I. rewrite <- HE by exact I. split; [apply F2|].
    intros Q. destruct (F3 x y Q) as (px & py & P1 & _ & P2 & P3). exists px, py. split; [apply (no_lower_ext w h (rank nd) e (height ds) EE), P1|]. split; [apply P2; reflexivity|].
    intros L LA. apply (leaves_ext _ _ _ _ _ EE' F F) in LA; [|auto]. destruct (P3 L LA) as [P4 P5]. split; [apply (joined_ext w h (rank nd) e); assumption|]. apply (leaves_ext w h (rank nd) e _ EE F F); auto.
Qed.
Print Assumptions C99_selective.

(** "<Max Depth> - Float [0, Inf)" is false for integer rasters: a number the type cannot hold makes the program's behaviour undefined, in every mode, also in the one that does not use it. *)
Theorem C99_max_depth_refuted : forall convert now prog writable analysis tb stod others fs inp out mode eps fill tlen tdepth ds m e f n d, fs inp = Some ds -> readable ds ->
  mode_of mode = Ok m -> eps_of eps = Ok e -> fill_of fill = Ok f -> stoul tlen = Ok n -> stod tdepth = Ok d ->
  match ds_type ds with Float32 | Float64 => False | _ => True end -> is_finite d = false \/ dmax (ds_type ds) < Btrunc d ->
  rd_depressions_breach convert now prog writable analysis tb stod others fs inp out mode eps fill tlen tdepth = Undef.
Proof.
  intros convert now prog writable analysis tb stod others fs inp out mode eps fill tlen tdepth ds m e f n d Hf (Wf & HT & Hg & nd & Hn) Em Ee Ef El Ed TY BD. destruct (opened convert fs inp ds nd Hf Wf HT Hn) as (a0 & l & A0 & A1 & _).
  unfold rd_depressions_breach. rewrite Em, Ee, Ef, El, Ed. cbn [bind]. unfold route. rewrite Hf, HT, A0. cbn [bind]. rewrite A1. cbn [bind g_data g_type].
  assert (U : of_double (ds_type ds) d = Undef).
  { unfold of_double. destruct (ds_type ds); try contradiction; try reflexivity; (destruct BD as [->|BD]; [reflexivity|]; rewrite (proj2 (Z.leb_gt _ _) BD), andb_false_r; reflexivity). }
  rewrite U. reflexivity.
Qed.
Print Assumptions C99_max_depth_refuted.

(** C99. Exactly the words documented are accepted; anything else, what is not a number and a missing file are errors, a file of another type gives status -1, and nothing is written. *)
Theorem C99_words : forall convert now prog writable analysis tb stod others fs inp out mode eps fill tlen tdepth,
  let run := rd_depressions_breach convert now prog writable analysis tb stod others fs inp out mode eps fill tlen tdepth in
  (~ In mode ["COMPLETE"; "SELECTIVE"; "CONSTRAINED"]%string \/ ~ In eps ["EPS"; "NOEPS"]%string \/ ~ In fill ["FILL"; "NOFILL"]%string -> run = Thrown) /\
  (In mode ["COMPLETE"; "SELECTIVE"; "CONSTRAINED"]%string -> In eps ["EPS"; "NOEPS"]%string -> In fill ["FILL"; "NOFILL"]%string ->
     (stoul tlen = Thrown -> run = Thrown) /\
     forall n, stoul tlen = Ok n -> (stod tdepth = Thrown -> run = Thrown) /\
       forall d, stod tdepth = Ok d -> (fs inp = None -> run = Thrown) /\ (forall ds, fs inp = Some ds -> has_gdal_type (ds_type ds) = false -> run = Ok (-1, fs))).
Proof.
  intros convert now prog writable analysis tb stod others fs inp out mode eps fill tlen tdepth run. subst run. unfold rd_depressions_breach.
  assert (M : (exists m, mode_of mode = Ok m /\ In mode ["COMPLETE"; "SELECTIVE"; "CONSTRAINED"]%string) \/ (mode_of mode = Thrown /\ ~ In mode ["COMPLETE"; "SELECTIVE"; "CONSTRAINED"]%string)).
  { unfold mode_of. destruct (String.eqb_spec mode "COMPLETE") as [->|N1]; [left; eexists; split; [reflexivity|cbn; auto]|]. destruct (String.eqb_spec mode "SELECTIVE") as [->|N2]; [left; eexists; split; [reflexivity|cbn; auto]|].
    destruct (String.eqb_spec mode "CONSTRAINED") as [->|N3]; [left; eexists; split; [reflexivity|cbn; auto]|]. right. split; [reflexivity|]. intros [C|[C|[C|[]]]]; congruence. }
  assert (E : (exists m, eps_of eps = Ok m /\ In eps ["EPS"; "NOEPS"]%string) \/ (eps_of eps = Thrown /\ ~ In eps ["EPS"; "NOEPS"]%string)).
  { unfold eps_of. destruct (String.eqb_spec eps "EPS") as [->|N1]; [left; eexists; split; [reflexivity|cbn; auto]|]. destruct (String.eqb_spec eps "NOEPS") as [->|N2]; [left; eexists; split; [reflexivity|cbn; auto]|].
    right. split; [reflexivity|]. intros [C|[C|[]]]; congruence. }
  assert (F : (exists m, fill_of fill = Ok m /\ In fill ["FILL"; "NOFILL"]%string) \/ (fill_of fill = Thrown /\ ~ In fill ["FILL"; "NOFILL"]%string)).
  { unfold fill_of. destruct (String.eqb_spec fill "FILL") as [->|N1]; [left; eexists; split; [reflexivity|cbn; auto]|]. destruct (String.eqb_spec fill "NOFILL") as [->|N2]; [left; eexists; split; [reflexivity|cbn; auto]|].
    right. split; [reflexivity|]. intros [C|[C|[]]]; congruence. }
  destruct M as [(m & -> & M)|[-> M]]; cbn [bind]; [|split; [reflexivity|contradiction]].
  destruct E as [(b & -> & E)|[-> E]]; cbn [bind]; [|split; [reflexivity|contradiction]].
  destruct F as [(c & -> & F)|[-> F]]; cbn [bind]; [|split; [reflexivity|contradiction]].
  split; [tauto|]. intros _ _ _. split; [intros ->; reflexivity|]. intros n ->. cbn [bind]. split; [intros ->; reflexivity|]. intros d ->. cbn [bind]. unfold route. split; [intros ->; reflexivity|]. intros ds -> ->. reflexivity.
Qed.
Print Assumptions C99_words.

(** the 5 by 5 raster of PropertiesAppsDep, with a NoData value that does not occur *)
Definition ex_br : dataset := mkDS Float64 5 5 (fun x y => VD (f64_of_Z (ex_z x y))) (Some (f64_of_Z (-1))) None "EPSG:4326" [].
Definition ex_br_fs : files := fun n => if String.eqb n "dem.tif" then Some ex_br else None.
Lemma ex_br_nd : of_double (ds_type ex_br) (GetNoDataValue ex_br) = Ok (VD (f64_of_Z (-1))). Proof. reflexivity. Qed.
Lemma ex_br_readable : readable ex_br. Proof. split; [split; cbn; lia|]. split; [reflexivity|]. split; [reflexivity|]. eexists. exact ex_br_nd. Qed.
Lemma ex_br_cells x y : below_infinity (ds_cell ex_br x y) /\ different (ds_cell ex_br x y) (VD (f64_of_Z (-1))) = true.
Proof.
  split; [exact (ex_fa_finite x y)|]. cbn [ex_br ds_cell different]. pose proof (ex_z_range x y) as R. destruct (f64_int (ex_z x y) ltac:(lia)) as (F1 & F2 & _). destruct (f64_int (-1) ltac:(lia)) as (G1 & G2 & _).
  rewrite Beqb_correct by assumption. rewrite F1, G1. rewrite Req_bool_false; [reflexivity|]. intros C. apply eq_IZR in C. lia.
Qed.
Example C99_case : exists fs', rd_depressions_breach ex_conv "now" "prog" any_name "c" (fun n => n) (fun _ => Ok (f64_of_Z 1)) (fun _ _ _ _ _ _ => Undef) ex_br_fs "dem.tif" "out.tif" "COMPLETE" "NOEPS" "FILL" "0" "1" = Ok (0, fs') /\
  rd_depressions_has ex_conv (fun n => n) fs' "out.tif" = Ok (Some "m No depressions found."%string).
Proof.
  apply (C99_has ex_conv "now" "prog" any_name "c" (fun n => n) (fun n => n) (fun _ => Ok (f64_of_Z 1)) (fun _ _ _ _ _ _ => Undef) ex_br_fs "dem.tif" "out.tif" "FILL" "0" "1" ex_br _ true 0 (f64_of_Z 1) (VD (f64_of_Z 1))
    eq_refl ex_br_readable ex_br_nd ex_dem_numbers (fun x y _ => ex_br_cells x y) eq_refl eq_refl eq_refl eq_refl eq_refl eq_refl).
Qed.
Example C99_case_bytes : rd_depressions_breach ex_conv "now" "prog" any_name "c" (fun n => n) (fun _ => Ok (f64_of_Z 1000)) (fun _ _ _ _ _ _ => Undef)
    (fun _ => Some (mkDS Uint8 2 2 (fun _ _ => VI 7) (Some (f64_of_Z 255)) None "" [])) "dem.tif" "out.tif" "COMPLETE" "NOEPS" "FILL" "0" "1000" = Undef.
Proof. reflexivity. Qed.
(** the same raster as bytes, selectively breached with paths of at most 3 cells and depth 5, then filled: the cell at (1,1) drains *)
Definition ex_by : dataset := mkDS Uint8 5 5 (fun x y => VI (ex_z x y)) (Some (f64_of_Z 255)) None "EPSG:4326" [].
Definition ex_by_fs : files := fun n => if String.eqb n "dem.tif" then Some ex_by else None.
Lemma ex_by_nd : of_double (ds_type ex_by) (GetNoDataValue ex_by) = Ok (VI 255). Proof. reflexivity. Qed.
Lemma ex_by_readable : readable ex_by. Proof. split; [split; cbn; lia|]. split; [reflexivity|]. split; [reflexivity|]. eexists. exact ex_by_nd. Qed.
Lemma ex_by_numbers : numbers ex_by.
Proof. intros x y _. cbn [ex_by ds_type ds_cell typed plain]. pose proof (ex_z_range x y). change (dmin Uint8) with 0. change (dmax Uint8) with 255. split; [lia|exact I]. Qed.
Example C99_case_selective : exists fs' ds', rd_depressions_breach ex_conv "now" "prog" any_name "c" (fun n => n) (fun _ => Ok (f64_of_Z 5)) (fun _ _ _ _ _ _ => Undef) ex_by_fs "dem.tif" "out.tif" "SELECTIVE" "NOEPS" "FILL" "3" "5" = Ok (0, fs') /\
  fs' "out.tif"%string = Some ds' /\ runs_off D8 5 5 255 (height ex_by) (height ds') 1 1.
Proof.
  destruct (C99_selective ex_conv "now" "prog" any_name "c" (fun n => n) (fun _ => Ok (f64_of_Z 5)) (fun _ _ _ _ _ _ => Undef) ex_by_fs "dem.tif" "out.tif" "FILL" "3" "5" ex_by (VI 255) true 3 (f64_of_Z 5) (VI 5)
    eq_refl ex_by_readable ex_by_nd (or_introl eq_refl) ex_by_numbers eq_refl eq_refl eq_refl eq_refl eq_refl eq_refl) as (fs' & ds' & A1 & A2 & _ & _ & _ & _ & A3 & _).
  exists fs', ds'. split; [exact A1|]. split; [exact A2|]. apply (A3 eq_refl 1 1). split; [split; [unfold in_raster; cbn; lia|cbn; discriminate]|]. split.
  - intros [_ [[_ C]|(x & y & _ & _ & C)]]; [cbn in C; lia|]. pose proof (ex_z_range x y). change (ex_z x y = 255) in C. lia.
  - intros x' y' A. unfold adjacent in A. assert (K : (x' = 0 \/ x' = 1 \/ x' = 2) /\ (y' = 0 \/ y' = 1 \/ y' = 2)) by lia. destruct K as [[->|[->| ->]] [->|[->| ->]]]; vm_compute; discriminate.
Qed.
