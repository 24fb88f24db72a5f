(** C91: reading and writing files from Python. *)
From Coq Require Import ZArith List Lia Bool String QArith Qcanon Reals Lra.
From Flocq Require Import Core BinarySingleNaN.
From Verif Require Import Base Res FAFModel FAFNum PropertiesPyNum PropertiesEpsInt PyModel PyIntModel PyNumModel GDALModel GDALProofs PropertiesGDAL PyGDALModel.
Open Scope Z_scope.
Open Scope list_scope.

(** the number an element stands for *)
Definition value (v : val) : R := match v with VI z => IZR z | VF f => B2R f | VD x => B2R x end.
(** not infinite, not NaN, and if an integer then one that a double can hold *)
Definition plain (v : val) : Prop := match v with VI z => Z.abs z <= 2 ^ 53 | VF f => is_finite f = true | VD x => is_finite x = true end.
(** cell in row y, column x *)
Definition at_ (a : parr) (x y : Z) : val := nth (Z.to_nat (y * p_w a + x)) (p_cells a) (VI 0).
(** an array SaveGDAL can save *)
Definition savable (a : parr) : Prop :=
  1 <= p_w a < 2 ^ 31 /\ 1 <= p_h a < 2 ^ 31 /\ Z.of_nat (length (p_cells a)) = p_w a * p_h a /\
  (exists g, p_geo a = Some g /\ length g = 6%nat) /\ (exists n x, p_nd a = Some n /\ py_double n = Ok x) /\ (exists m, p_meta a = Some m /\ mkeys m).

Lemma to_double_value v : plain v -> B2R (to_double v) = value v /\ is_finite (to_double v) = true.
Proof. destruct v as [z|f|x]; cbn [plain to_double value]; intros H; [destruct (f64_int z H) as (A & B & _); auto|apply f64_of_f32_ok; exact H|auto]. Qed.
Lemma to_f32_value v : plain v -> (Rabs (nearest32 (value v)) < bpow radix2 128)%R -> value (to_f32 v) = nearest32 (value v).
Proof. intros P B. destruct (to_double_value v P) as [E F]. destruct (f32_of_f64_spec (to_double v) F) as [S _]. rewrite E in S. exact (proj1 (S B)). Qed.
Lemma window_map (f : val -> val) w h l : 0 <= w -> 0 <= h -> Z.of_nat (length l) = w * h -> window (cell_at w (map f l)) 0 0 w h = map f l.
Proof. intros. apply window_id; try assumption. rewrite map_length. assumption. Qed.

Lemma save_ok writable fs name a : savable a -> writable name = true ->
  exists x g m, p_geo a = Some g /\ p_meta a = Some m /\ (exists n, p_nd a = Some n /\ py_double n = Ok x) /\ mkeys m /\
    py_SaveGDAL writable fs name true a = (upd_file fs name (mkDS Float32 (p_w a) (p_h a) (cell_at (p_w a) (map to_f32 (p_cells a))) (Some x) (Some g) (p_proj a) (set_items m [])), true).
Proof.
  intros (Hw & Hh & HL & (g & G1 & G2) & (n & x & N1 & N2) & m & M1 & M2) HW. exists x, g, m. split; [exact G1|]. split; [exact M1|]. split; [eauto|]. split; [exact M2|].
  unfold py_SaveGDAL. cbn [negb]. destruct (Z.ltb_spec (p_w a) 1); [lia|]. destruct (Z.ltb_spec (p_h a) 1); [lia|]. rewrite HW. cbn [negb orb].
  rewrite G1, G2. cbn [Nat.eqb negb]. rewrite N1, N2, M1. reflexivity.
Qed.

Definition history_line (now ver analysis : string) : string :=
  String.append nl (String.append now (String.append " | " (String.append ver (String.append " | " analysis)))).
Lemma set_items_keys items : forall m, mkeys m -> mkeys (set_items items m).
Proof. induction items as [|[k v] items IH]; intros m H; cbn; [exact H|]. apply IH. apply mset_nodup. exact H. Qed.
Lemma add_analysis now ver m s : 
  mget "PROCESSING_HISTORY" (AddAnalysis now ver (Some m) s) = Some (String.append (match mget "PROCESSING_HISTORY" m with Some h => h | None => EmptyString end) (history_line now ver s)) /\
  forall k, k <> "PROCESSING_HISTORY"%string -> mget k (AddAnalysis now ver (Some m) s) = mget k m.
Proof.
  unfold AddAnalysis. change "PROCESSING_HISTORY"%string with HIST. split.
  - rewrite mget_mset. f_equal. unfold history_line. f_equal. destruct (mget HIST m) eqn:E; [rewrite E; reflexivity|]. rewrite mget_mset. reflexivity.
  - intros k N. rewrite mget_mset_other by exact N. destruct (mget HIST m); [reflexivity|]. apply mget_mset_other. exact N.
Qed.

(** C91. What SaveGDAL followed by LoadGDAL gives: an array of float32 of the same shape whose cells are the nearest float32 of those saved, the same
    georeference and projection, the NoData value as a double, the metadata with one line of history added. No other file changes. *)
Theorem C91_round_trip : forall now ver show writable fs name a, savable a -> writable name = true ->
  exists fs' b, py_SaveGDAL writable fs name true a = (fs', true) /\ (forall n, n <> name -> fs' n = fs n) /\ py_LoadGDAL now ver show fs' name None = Ok b /\
    p_type b = Float32 /\ p_w b = p_w a /\ p_h b = p_h a /\ Z.of_nat (length (p_cells b)) = p_w a * p_h a /\
    (forall x y, 0 <= x < p_w a -> 0 <= y < p_h a -> plain (at_ a x y) -> (Rabs (nearest32 (value (at_ a x y))) < bpow radix2 128)%R ->
       value (at_ b x y) = nearest32 (value (at_ a x y))) /\
    (forall x y, 0 <= x < p_w a -> 0 <= y < p_h a -> forall f, at_ a x y = VF f -> at_ b x y = VF f) /\
    p_geo b = p_geo a /\ p_proj b = p_proj a /\
    (exists n x, p_nd a = Some n /\ p_nd b = Some (PFloat x) /\ match n with PInt z => x = f64_of_Z z | PFloat x' => x = x' end) /\
    (exists m m', p_meta a = Some m /\ p_meta b = Some m' /\ (forall k, k <> "PROCESSING_HISTORY"%string -> mget k m' = mget k m) /\
       exists s, mget "PROCESSING_HISTORY" m' = Some (String.append (match mget "PROCESSING_HISTORY" m with Some h => h | None => EmptyString end) (history_line now ver s))).
Proof.
  intros now ver show writable fs name a S HW. destruct (save_ok writable fs name a S HW) as (x & g & m & G & M & (n & N1 & N2) & ND & E).
  destruct S as (Hw & Hh & HL & _ & _ & _). eexists _, _. split; [exact E|]. split.
  { intros k Hne. unfold upd_file. destruct (String.eqb_spec k name); [contradiction|reflexivity]. }
  split. { unfold py_LoadGDAL, upd_file. rewrite String.eqb_refl. cbn [ds_nodata ds_type has_gdal_type negb]. reflexivity. }
  cbn [p_type p_w p_h p_cells p_geo p_proj p_nd p_meta ds_type ds_w ds_h ds_cell ds_geo ds_proj ds_meta]. split; [reflexivity|]. split; [reflexivity|]. split; [reflexivity|].
  rewrite window_map by lia. split; [rewrite map_length; exact HL|].
  assert (At : forall x0 y, 0 <= x0 < p_w a -> 0 <= y < p_h a -> nth (Z.to_nat (y * p_w a + x0)) (map to_f32 (p_cells a)) (VI 0) = to_f32 (at_ a x0 y)).
  { intros x0 y Hx Hy. apply map_nth_conv. nia. }
  split; [intros x0 y Hx Hy P B; unfold at_ at 1; cbn [p_w p_cells]; rewrite At by assumption; apply to_f32_value; assumption|].
  split; [intros x0 y Hx Hy f Ef; unfold at_ at 1; cbn [p_w p_cells]; rewrite At by assumption; rewrite Ef; unfold to_f32; cbn [to_double]; rewrite f32_f64_f32; reflexivity|].
  split; [symmetry; exact G|]. split; [reflexivity|]. split.
  { exists n, x. split; [exact N1|]. split; [reflexivity|]. destruct n as [z|x']; cbn in N2; [destruct (is_finite (f64_of_Z z)); congruence|congruence]. }
  exists m. eexists. split; [exact M|]. split; [reflexivity|].
  assert (I : forall k, mget k (set_items (set_items m []) []) = mget k m).
  { intros k. rewrite !set_items_get by (try apply set_items_keys; try exact ND; constructor). cbn [mget]. destruct (mget k m); reflexivity. }
  match goal with |- context [AddAnalysis now ver (Some ?m0) ?s0] => destruct (add_analysis now ver m0 s0) as [A1 A2] end. split.
  - intros k Nk. rewrite A2 by exact Nk. apply I.
  - eexists. rewrite A1, I. reflexivity.
Qed.
Print Assumptions C91_round_trip.

(** C91. A cell keeps its value exactly if a float32 can hold it: every integer up to 2^24 in size, not every one beyond. *)
Theorem C91_exact_iff : forall v, plain v -> (Rabs (nearest32 (value v)) < bpow radix2 128)%R ->
  (value (to_f32 v) = value v <-> is_float32 (value v)) /\
  (forall z, v = VI z -> Z.abs z <= 2 ^ 24 -> value (to_f32 v) = value v).
Proof.
  intros v P B. rewrite (to_f32_value v P B).
  assert (A : nearest32 (value v) = value v <-> is_float32 (value v)).
  { unfold nearest32, is_float32. split; [intros <-; apply generic_format_round; [apply FLT_exp_valid; unfold Prec_gt_0; lia|apply valid_rnd_N]|]. intros H. apply round_generic; [apply valid_rnd_N|exact H]. }
  split; [exact A|]. intros z -> Hz. apply A. cbn [value]. unfold is_float32. destruct (Z.eq_dec (Z.abs z) (2 ^ 24)) as [Ez|Nz].
  - apply generic_format_abs_inv. rewrite <- abs_IZR, Ez. change (IZR (2 ^ 24)) with (bpow radix2 24). apply generic_format_bpow. unfold FLT_exp. cbn. lia.
  - apply generic_format_FLT. exists (Float radix2 z 0); [unfold F2R; cbn; ring|cbn; lia|cbn; lia].
Qed.
Print Assumptions C91_exact_iff.

Definition ex_geo : list Qc := map (fun z => Q2Qc (inject_Z z)) [0; 1; 0; 0; 0; -1].
Definition ex_big : parr := mkP Int32 1 2 [VI 16777217; VI (-9999)] (Some (PInt (-9999))) (Some ex_geo) EmptyString (Some []).
Lemma ex_big_savable : savable ex_big.
Proof.
  split; [cbn; lia|]. split; [cbn; lia|]. split; [reflexivity|]. split; [exists ex_geo; split; reflexivity|]. split; [|exists []; split; [reflexivity|constructor]].
  exists (PInt (-9999)), (f64_of_Z (-9999)). split; [reflexivity|]. unfold py_double. rewrite (proj1 (f64_trunc (-9999) ltac:(lia))). reflexivity.
Qed.
Lemma big_not_f32 : ~ is_float32 (IZR 16777217).
Proof.
  intros H. unfold is_float32, generic_format in H. unfold F2R, scaled_mantissa in H.
  assert (E : cexp radix2 (FLT_exp (-149) 24) (IZR 16777217) = 1).
  { unfold cexp. rewrite (mag_unique radix2 (IZR 16777217) 25); [reflexivity|]. rewrite Rabs_pos_eq by lra. split; [change (IZR 16777216 <= IZR 16777217)%R|change (IZR 16777217 < IZR 33554432)%R];
    [apply IZR_le; lia|apply IZR_lt; lia]. }
  rewrite E in H. cbn [Fnum Fexp] in H. set (t := Ztrunc _) in H. change (bpow radix2 1) with 2%R in H. rewrite <- mult_IZR in H. apply eq_IZR in H. lia.
Qed.

(** "An array saved and loaded again is the same" is false: the type is lost, and the integer 2^24+1 becomes another number. *)
Theorem C91_round_trip_refuted : exists a, savable a /\ p_type a = Int32 /\ at_ a 0 0 = VI 16777217 /\
  forall now ver show writable fs name fs' b, writable name = true -> py_SaveGDAL writable fs name true a = (fs', true) -> py_LoadGDAL now ver show fs' name None = Ok b ->
    p_type b = Float32 /\ value (at_ b 0 0) <> value (at_ a 0 0).
Proof.
  exists ex_big. split; [exact ex_big_savable|]. split; [reflexivity|]. split; [reflexivity|]. intros now ver show writable fs name fs' b HW Hs Hl.
  destruct (C91_round_trip now ver show writable fs name ex_big ex_big_savable HW) as (fs2 & b2 & E1 & _ & E2 & T & _ & _ & _ & V & _).
  rewrite Hs in E1. injection E1 as <-. rewrite Hl in E2. injection E2 as <-. split; [exact T|].
  assert (P : plain (at_ ex_big 0 0)) by (change (Z.abs 16777217 <= 2 ^ 53); lia).
  assert (B : (Rabs (nearest32 (value (at_ ex_big 0 0))) < bpow radix2 128)%R).
  { change (value (at_ ex_big 0 0)) with (IZR 16777217). apply Rle_lt_trans with (bpow radix2 25); [|apply bpow_lt; lia]. apply abs_round_le_generic.
    - apply FLT_exp_valid. unfold Prec_gt_0. lia. - apply valid_rnd_N. - apply generic_format_bpow. unfold FLT_exp. cbn. lia.
    - rewrite Rabs_pos_eq by lra. change (IZR 16777217 <= IZR 33554432)%R. apply IZR_le. lia. }
  rewrite (V 0 0) by (first [cbn; lia|assumption]). intros E. apply big_not_f32. change (IZR 16777217) with (value (at_ ex_big 0 0)). apply (proj1 (C91_exact_iff _ P B)).
  rewrite (to_f32_value _ P B). exact E.
Qed.
Print Assumptions C91_round_trip_refuted.

(** "Every rdarray can be saved" is false: an array made of a numpy array has no geotransform, so saving it raises - after the file, and what was in it before,
    has been replaced by one of zeros. The same happens if no_data or metadata is None. *)
Theorem C91_save_raises_refuted : forall writable fs name d h w cells n, 1 <= w -> 1 <= h -> writable name = true ->
  exists fs' ds, py_SaveGDAL writable fs name true (rdarray d h w cells n) = (fs', false) /\ fs' name = Some ds /\ ds_w ds = w /\ ds_h ds = h /\
    (forall x y, value (ds_cell ds x y) = 0%R) /\ ds_nodata ds = None /\ ds_meta ds = [].
Proof.
  intros writable fs name d h w cells n Hw Hh HW. unfold py_SaveGDAL, rdarray. cbn [negb p_w p_h p_geo]. destruct (Z.ltb_spec w 1); [lia|]. destruct (Z.ltb_spec h 1); [lia|].
  rewrite HW. cbn [negb orb]. eexists _, _. split; [reflexivity|]. split; [unfold upd_file; rewrite String.eqb_refl; reflexivity|]. cbn. auto.
Qed.
Print Assumptions C91_save_raises_refuted.

(** C91. SaveGDAL returns normally exactly for arrays with six georeference numbers, a NoData value and metadata; if the argument is not an rdarray or
    the file cannot be created no file changes; in every case no file but [name] does. *)
Theorem C91_save_succeeds : forall writable fs name isrd a,
  (snd (py_SaveGDAL writable fs name isrd a) = true <->
   isrd = true /\ 1 <= p_w a /\ 1 <= p_h a /\ writable name = true /\ (exists g, p_geo a = Some g /\ length g = 6%nat) /\ (exists n x, p_nd a = Some n /\ py_double n = Ok x) /\ p_meta a <> None) /\
  (forall n, n <> name -> fst (py_SaveGDAL writable fs name isrd a) n = fs n) /\
  (isrd = false \/ writable name = false -> py_SaveGDAL writable fs name isrd a = (fs, false)).
Proof.
  intros writable fs name isrd a.
  assert (O : forall ds n, n <> name -> upd_file fs name ds n = fs n) by (intros ds n Hne; unfold upd_file; destruct (String.eqb_spec n name); [contradiction|reflexivity]).
  unfold py_SaveGDAL. destruct isrd; cbn [negb].
  2:{ split; [split; [discriminate|intros [H _]; discriminate]|]. split; [reflexivity|]. reflexivity. }
  destruct (Z.ltb_spec (p_w a) 1); cbn [orb].
  { split; [split; [discriminate|lia]|]. split; reflexivity. }
  destruct (Z.ltb_spec (p_h a) 1); cbn [orb].
  { split; [split; [discriminate|lia]|]. split; reflexivity. }
  destruct (writable name); cbn [negb].
  2:{ split; [split; [discriminate|intros (_ & _ & _ & D & _); discriminate]|]. split; reflexivity. }
  assert (W : forall A : Prop, true = false \/ true = false -> A) by (intros A [D|D]; discriminate).
  destruct (p_geo a) as [g|]. 2:{ split; [split; [discriminate|intros (_ & _ & _ & _ & (g & D & _) & _); discriminate]|]. split; [apply O|apply W]. }
  destruct (Nat.eqb_spec (length g) 6); cbn [negb]. 2:{ split; [split; [discriminate|intros (_ & _ & _ & _ & (g' & D & L) & _); injection D as <-; contradiction]|]. split; [apply O|apply W]. }
  destruct (p_nd a) as [nn|]. 2:{ split; [split; [discriminate|intros (_ & _ & _ & _ & _ & (k & x & D & _) & _); discriminate]|]. split; [apply O|apply W]. }
  destruct (py_double nn) as [x| |] eqn:E.
  - destruct (p_meta a) as [m|]. 2:{ split; [split; [discriminate|intros (_ & _ & _ & _ & _ & _ & D); congruence]|]. split; [apply O|apply W]. }
    split; [|split; [apply O|apply W]]. cbn [snd]. split; [|reflexivity]. intros _. split; [reflexivity|]. split; [lia|]. split; [lia|]. split; [reflexivity|].
    split; [eauto|]. split; [eauto|discriminate].
  - split; [split; [discriminate|intros (_ & _ & _ & _ & _ & (k & x & D & D2) & _); congruence]|]. split; [apply O|apply W].
  - split; [split; [discriminate|intros (_ & _ & _ & _ & _ & (k & x & D & D2) & _); congruence]|]. split; [apply O|apply W].
Qed.
Print Assumptions C91_save_succeeds.

(** C91. LoadGDAL: an array with the type, shape and cells of the file; the NoData value is the argument, if given, else the file's - without either, or for a type
    beyond the seven, it raises. All metadata of the file are kept, with one line of history added. *)
Theorem C91_load : forall now ver show fs name ds nd, fs name = Some ds -> wf ds -> mkeys (ds_meta ds) ->
  let n := match nd with Some n => Some n | None => match ds_nodata ds with Some x => Some (PFloat x) | None => None end end in
  if has_gdal_type (ds_type ds) && match n with Some _ => true | None => false end then
    exists a m, py_LoadGDAL now ver show fs name nd = Ok a /\ p_type a = ds_type ds /\ p_w a = ds_w ds /\ p_h a = ds_h ds /\ p_nd a = n /\ p_proj a = ds_proj ds /\
      (forall x y, 0 <= x < ds_w ds -> 0 <= y < ds_h ds -> at_ a x y = ds_cell ds x y) /\
      (forall g, ds_geo ds = Some g -> p_geo a = Some g) /\ p_meta a = Some m /\
      (forall k, k <> "PROCESSING_HISTORY"%string -> mget k m = mget k (ds_meta ds)) /\
      exists s, mget "PROCESSING_HISTORY" m = Some (String.append (match mget "PROCESSING_HISTORY" (ds_meta ds) with Some h => h | None => EmptyString end) (history_line now ver s))
  else py_LoadGDAL now ver show fs name nd = Thrown.
Proof.
  intros now ver show fs name ds nd Hf [W1 W2] ND n. unfold py_LoadGDAL. rewrite Hf. fold n. destruct n as [n|]; [|rewrite andb_false_r; reflexivity].
  rewrite andb_true_r. destruct (has_gdal_type (ds_type ds)); cbn [negb]; [|reflexivity]. eexists _, _. split; [reflexivity|].
  cbn [p_type p_w p_h p_cells p_geo p_proj p_nd p_meta]. do 5 (split; [reflexivity|]). split.
  { intros x y Hx Hy. unfold at_. cbn [p_w p_cells]. change (nth _ (window ?c ?a ?b ?ww ?hh) _) with (cell_at (ds_w ds) (window c a b ww hh) x y). rewrite window_at by lia. reflexivity. }
  split; [intros g ->; reflexivity|]. split; [reflexivity|].
  assert (I : forall k, mget k (set_items (ds_meta ds) []) = mget k (ds_meta ds)) by (intros k; rewrite set_items_get by exact ND; cbn [mget]; destruct (mget k (ds_meta ds)); reflexivity).
  match goal with |- context [AddAnalysis now ver (Some ?m0) ?s0] => destruct (add_analysis now ver m0 s0) as [A1 A2] end. split.
  - intros k Nk. rewrite A2 by exact Nk. apply I.
  - eexists. rewrite A1, I. reflexivity.
Qed.
Print Assumptions C91_load.

(** C91. Files pass between the C++ programs and Python: what the C++ side saves, Python loads with the same type and cells, and what Python saves the C++ side opens as
    float with the cells Python would load. *)
Theorem C91_exchange : forall convert now prog ver show writable fs name,
  (forall a l msg, complete a l -> writable name = true -> exists fs' a' b, saveGDAL now prog writable fs a name msg 0 0 = Ok (fs', a') /\
     py_LoadGDAL now ver show fs' name None = Ok b /\ p_type b = g_type a /\ p_w b = g_w a /\ p_h b = g_h a /\ p_cells b = l /\ p_nd b = Some (PFloat (to_double (g_nd a)))) /\
  (forall a, savable a -> writable name = true -> exists fs' b c, py_SaveGDAL writable fs name true a = (fs', true) /\ open_file convert Float32 fs' name = Ok b /\
     py_LoadGDAL now ver show fs' name None = Ok c /\ g_w b = p_w c /\ g_h b = p_h c /\ g_data b = Some (p_cells c) /\ Some (g_geo b) = p_geo c).
Proof.
  intros convert now prog ver show writable fs name. split.
  - intros a l msg (HT & Hw & Hh & Hd & HL & Hn & Hg & Hm) HW. unfold saveGDAL. rewrite HT, HW.
    destruct (Z.ltb_spec (g_w a) 1); [lia|]. destruct (Z.ltb_spec (g_h a) 1); [lia|]. cbn [orb negb].
    assert (G : negb (length (g_geo a) =? 0)%nat && negb (length (g_geo a) =? 6)%nat = false) by (destruct Hg as [->| ->]; reflexivity). rewrite G, Hd.
    rewrite (proj2 (Z.eqb_eq _ _) HL). eexists _, _, _. split; [reflexivity|]. split.
    { unfold py_LoadGDAL, upd_file. rewrite String.eqb_refl. cbn [ds_nodata ds_type]. rewrite HT. cbn [negb]. reflexivity. }
    cbn [p_type p_w p_h p_cells p_nd ds_cell ds_w ds_h ds_type]. split; [reflexivity|]. split; [reflexivity|]. split; [reflexivity|].
    split; [apply window_id; lia|reflexivity].
  - intros a S HW. destruct (save_ok writable fs name a S HW) as (x & g & m & G & M & (n & N1 & N2) & ND & E). destruct S as (Hw & Hh & HL & _ & _ & _).
    set (ds := mkDS _ _ _ _ _ _ _ _) in E.
    assert (Hf : upd_file fs name ds name = Some ds) by (unfold upd_file; rewrite String.eqb_refl; reflexivity).
    destruct (C90_window convert Float32 (upd_file fs name ds) name ds 0 0 0 0 (VF (f32_of_f64 x)) Hf ltac:(split; cbn; lia) eq_refl eq_refl) as (b & B1 & B2 & _ & _ & _ & _ & _ & B8); try (subst ds; cbn; lia).
    exists (upd_file fs name ds), b. eexists. split; [exact E|]. split; [exact B1|]. split.
    { unfold py_LoadGDAL. rewrite Hf. cbn [ds ds_nodata ds_type has_gdal_type negb]. reflexivity. }
    destruct B2 as (S1 & S2 & l' & S3 & S4 & S5). change (ds_w ds) with (p_w a) in *. change (ds_h ds) with (p_h a) in *. cbn [Z.eqb] in S1, S2, S4, S5.
    cbn [p_w p_h p_cells p_geo]. split; [exact S1|]. split; [exact S2|]. split.
    + rewrite S3. f_equal. transitivity (window (cell_at (p_w a) l') 0 0 (p_w a) (p_h a)); [symmetry; apply window_id; lia|]. apply window_ext.
      intros x0 y Hx Hy. rewrite !Z.add_0_l. unfold cell_at at 1. rewrite S5 by lia. unfold as_type. subst ds. cbn [ds_type ds_cell dtype_eqb]. reflexivity.
    + rewrite B8. reflexivity.
Qed.
Print Assumptions C91_exchange.

(** is the cell NoData for the algorithms, given the array's type and no_data attribute (C86: through setNoData) *)
Definition nodata_cell (d : dtype) (n : num float64) (v : val) : Prop := exists nd, setNoData d n = Ok nd /\ isNoData v nd = true.

Lemma isND_f32 (f g : float32) : is_finite f = true -> is_finite g = true -> isNoData (VF f) (VF g) = true <-> B2R f = B2R g.
Proof.
  intros F G. cbn [isNoData]. rewrite Beqb_correct by auto. destruct (Req_bool_spec (B2R f) (B2R g)); split; auto; discriminate.
Qed.
Lemma f32_Z z : Z.abs z <= 2 ^ 53 -> B2R (f32_of_f64 (f64_of_Z z)) = nearest32 (IZR z) /\ is_finite (f32_of_f64 (f64_of_Z z)) = true.
Proof.
  intros Hz. destruct (f64_int z Hz) as (E & F & _). destruct (f32_of_f64_spec _ F) as [S _]. rewrite E in S. apply S.
  apply Rle_lt_trans with (bpow radix2 53); [|apply bpow_lt; lia]. apply abs_round_le_generic.
  - apply FLT_exp_valid. unfold Prec_gt_0. lia. - apply valid_rnd_N. - apply generic_format_bpow. unfold FLT_exp. cbn. lia.
  - rewrite <- abs_IZR. change (bpow radix2 53) with (IZR (2 ^ 53)). apply IZR_le. exact Hz.
Qed.

(** C91. NoData cells of integer rasters after saving and loading. With a NoData value the type can hold, a cell is NoData afterwards exactly if it and the NoData value
    have the same nearest float32: NoData cells stay NoData, and up to 2^24 no other cell becomes NoData. *)
Theorem C91_nodata : forall d z c, is_int d = true -> dmin d <= z <= dmax d -> Z.abs z <= 2 ^ 53 -> Z.abs c <= 2 ^ 53 ->
  (nodata_cell d (PInt z) (VI c) <-> c = z) /\
  (nodata_cell Float32 (PFloat (f64_of_Z z)) (to_f32 (VI c)) <-> nearest32 (IZR c) = nearest32 (IZR z)) /\
  (Z.abs z <= 2 ^ 24 -> Z.abs c <= 2 ^ 24 -> (nodata_cell Float32 (PFloat (f64_of_Z z)) (to_f32 (VI c)) <-> nodata_cell d (PInt z) (VI c))).
Proof.
  intros d z c Hd Hz Bz Bc.
  assert (A : nodata_cell d (PInt z) (VI c) <-> c = z).
  { destruct (C86_integer d z) as (nd & N1 & _ & N3 & _); [destruct d; try discriminate Hd; repeat split; discriminate|lia|]. specialize (N3 Hz c). unfold nodata_cell. rewrite N1. rewrite <- N3.
    split; [intros (nd' & E & H); injection E as <-; exact H|intros H; eauto]. }
  assert (B : nodata_cell Float32 (PFloat (f64_of_Z z)) (to_f32 (VI c)) <-> nearest32 (IZR c) = nearest32 (IZR z)).
  { destruct (f32_Z z Bz) as [Z1 Z2]. destruct (f32_Z c Bc) as [C1 C2]. unfold nodata_cell, setNoData, cast_float, to_f32. cbn [to_double]. split.
    - intros (nd & N1 & N2). injection N1 as <-. apply isND_f32 in N2; [|assumption|assumption]. rewrite C1, Z1 in N2. exact N2.
    - intros E. eexists. split; [reflexivity|]. apply isND_f32; [assumption|assumption|]. rewrite C1, Z1. exact E. }
  split; [exact A|]. split; [exact B|]. intros Sz Sc. rewrite A, B.
  assert (X : forall k, Z.abs k <= 2 ^ 24 -> nearest32 (IZR k) = IZR k).
  { intros k Hk. assert (P : plain (VI k)) by (cbn; lia). destruct (f32_Z k ltac:(lia)) as [K1 K2].
    assert (L : (Rabs (nearest32 (value (VI k))) < bpow radix2 128)%R) by (cbn [value]; rewrite <- K1; apply f32_bound).
    pose proof (proj2 (C91_exact_iff (VI k) P L) k eq_refl Hk) as E. rewrite (to_f32_value _ P L) in E. exact E. }
  rewrite !X by assumption. split; [apply eq_IZR|intros ->; reflexivity].
Qed.
Print Assumptions C91_nodata.

(** "Cells that are not NoData stay so" is false: in an int32 raster with NoData 2^24 the cell 2^24+1 is data, and NoData after saving and loading.
    "NoData cells stay so" is false for a NoData value outside the type: uint8 with -9999 makes 241 NoData (C86), but not in the saved raster. *)
Theorem C91_nodata_refuted :
  (~ nodata_cell Int32 (PInt 16777216) (VI 16777217) /\ nodata_cell Float32 (PFloat (f64_of_Z 16777216)) (to_f32 (VI 16777217))) /\
  (nodata_cell Uint8 (PInt (-9999)) (VI 241) /\ ~ nodata_cell Float32 (PFloat (f64_of_Z (-9999))) (to_f32 (VI 241))).
Proof.
  split; split.
  - intros H. pose proof (proj1 (proj1 (C91_nodata Int32 16777216 16777217 eq_refl ltac:(cbn; lia) ltac:(lia) ltac:(lia))) H). lia.
  - eexists. split; [reflexivity|]. vm_compute. reflexivity.
  - eexists. split; [reflexivity|]. vm_compute. reflexivity.
  - intros (nd & N1 & N2). cbn [setNoData cast_float] in N1. injection N1 as <-. vm_compute in N2. discriminate.
Qed.
Print Assumptions C91_nodata_refuted.

(** C90_case gives a case for C91_load and the first half of C91_exchange, ex_big one for the rest. *)
Example C91_case : savable ex_big /\ (exists b, py_LoadGDAL EmptyString EmptyString (fun _ => EmptyString) ex_fs "dem.tif"%string None = Ok b /\ p_type b = Int16 /\ p_w b = 3 /\ at_ b 2 1 = VI 12) /\
  mkeys (ds_meta ex_ds).
Proof.
  split; [exact ex_big_savable|]. split.
  - eexists. split; [reflexivity|]. split; [reflexivity|]. split; [reflexivity|]. reflexivity.
  - repeat constructor; cbn; intuition discriminate.
Qed.
