(** C90: raster files read and written through GDAL. *)
From Coq Require Import ZArith List Lia Bool String QArith Qcanon.
From Flocq Require Import Core BinarySingleNaN.
From Verif Require Import Base Res FAFModel PropertiesEpsInt PyModel PyIntModel PyNumModel GDALModel GDALProofs.
Open Scope Z_scope.
Open Scope list_scope.

(** a file GDAL can have: at least one cell, dimensions that fit an int *)
Definition wf (ds : dataset) : Prop := 1 <= ds_w ds < 2 ^ 31 /\ 1 <= ds_h ds < 2 ^ 31.
(** the array holds the w x h cells of [cell] from (xo,yo) on *)
Definition shows (a : garr) (cell : Z -> Z -> val) (xo yo w h : Z) : Prop :=
  g_w a = w /\ g_h a = h /\ exists l, g_data a = Some l /\ Z.of_nat (length l) = w * h /\
    forall x y, 0 <= x < w -> 0 <= y < h -> nth (Z.to_nat (y * w + x)) l (VI 0) = cell (xo + x) (yo + y).
(** the cells of the file as values of type T *)
Definition as_type (convert : dtype -> val -> val) (T : dtype) (ds : dataset) (x y : Z) : val :=
  if dtype_eqb (ds_type ds) T then ds_cell ds x y else convert T (ds_cell ds x y).
(** where the upper left corner of cell (x,y) is on the ground *)
Definition ground (g : list Qc) (x y : Z) : Qc * Qc :=
  let c i := nth i g 0%Qc in let q z := Q2Qc (inject_Z z) in
  ((c 0%nat + q x * c 1%nat + q y * c 2%nat)%Qc, (c 3%nat + q x * c 4%nat + q y * c 5%nat)%Qc).

Lemma i32_ok z : - 2 ^ 31 <= z < 2 ^ 31 -> i32 z = Ok z.
Proof. intros H. unfold i32. rewrite (proj2 (Z.leb_le _ _)), (proj2 (Z.ltb_lt _ _)) by lia. reflexivity. Qed.
Lemma map_nth_conv (f : val -> val) l n : (n < length l)%nat -> nth n (map f l) (VI 0) = f (nth n l (VI 0)).
Proof. intros H. rewrite nth_indep with (d' := f (VI 0)) by (rewrite map_length; exact H). apply map_nth. Qed.

Lemma read_inside convert ds T xo yo w h buf : 0 <= xo -> 0 <= yo -> 1 <= w -> 1 <= h -> xo + w <= ds_w ds -> yo + h <= ds_h ds ->
  exists l, RasterIO_read convert ds T xo yo w h buf = Ok l /\ Z.of_nat (length l) = w * h /\
    forall x y, 0 <= x < w -> 0 <= y < h -> nth (Z.to_nat (y * w + x)) l (VI 0) = as_type convert T ds (xo + x) (yo + y).
Proof.
  intros. unfold RasterIO_read. destruct (Z.ltb_spec w 1); [lia|]. destruct (Z.ltb_spec h 1); [lia|]. cbn [orb].
  destruct (Z.ltb_spec xo 0); [lia|]. destruct (Z.ltb_spec yo 0); [lia|]. destruct (Z.ltb_spec (ds_w ds) (xo + w)); [lia|].
  destruct (Z.ltb_spec (ds_h ds) (yo + h)); [lia|]. cbn [orb]. eexists. split; [reflexivity|].
  pose proof (window_length (ds_cell ds) xo yo w h ltac:(lia) ltac:(lia)) as L. split; [rewrite map_length; exact L|].
  intros x y Hx Hy. rewrite map_nth_conv by nia. change (nth _ (window _ _ _ _ _) _) with (cell_at w (window (ds_cell ds) xo yo w h) x y).
  rewrite window_at by lia. unfold as_type. destruct (dtype_eqb (ds_type ds) T); reflexivity.
Qed.
Lemma read_outside convert ds T xo yo w h buf : 1 <= w -> 1 <= h -> ds_w ds < xo + w \/ ds_h ds < yo + h -> RasterIO_read convert ds T xo yo w h buf = Thrown.
Proof.
  intros ? ? H. unfold RasterIO_read. destruct (Z.ltb_spec w 1); [lia|]. destruct (Z.ltb_spec h 1); [lia|]. cbn [orb].
  destruct (xo <? 0); [reflexivity|]. destruct (yo <? 0); [reflexivity|]. cbn [orb].
  destruct (Z.ltb_spec (ds_w ds) (xo + w)); [reflexivity|]. destruct (Z.ltb_spec (ds_h ds) (yo + h)); [reflexivity|lia].
Qed.

(** C90. A window that starts inside the raster: the array is the part of the window inside the raster, with the file's NoData
    value, georeference (of the whole file) and projection. Width and height 0 at offset 0 stand for the whole raster. *)
Theorem C90_window : forall convert T fs name ds xo yo pw ph nd, fs name = Some ds -> wf ds -> has_gdal_type T = true ->
  of_double T (GetNoDataValue ds) = Ok nd -> 0 <= xo < ds_w ds -> 0 <= yo < ds_h ds ->
  (0 < pw /\ xo + pw < 2 ^ 31 \/ pw = 0 /\ xo = 0) -> (0 < ph /\ yo + ph < 2 ^ 31 \/ ph = 0 /\ yo = 0) ->
  let w := if pw =? 0 then ds_w ds else Z.min pw (ds_w ds - xo) in let h := if ph =? 0 then ds_h ds else Z.min ph (ds_h ds - yo) in
  exists a, loadGDAL convert T fs name xo yo pw ph false true = Ok a /\ shows a (as_type convert T ds) xo yo w h /\ g_type a = T /\ g_nd a = nd /\
    g_proj a = ds_proj ds /\ g_xoff a = xo /\ g_yoff a = yo /\
    g_geo a = match ds_geo ds with Some g => g | None => map (fun z => Q2Qc (inject_Z z)) [1000; 1; 0; 1000; 0; -1] end.
Proof.
  intros convert T fs name ds xo yo pw ph nd Hf [W1 W2] HT Hn Hx Hy Hw Hh w h. unfold loadGDAL. rewrite Hf, get_meta. cbn [bind]. rewrite Hn. cbn [bind].
  rewrite !i32_ok by lia. cbn [bind andb].
  assert (Ew : (let p := if ds_w ds <=? xo + pw then ds_w ds - xo else pw in if p =? 0 then ds_w ds else p) = w).
  { cbv zeta. subst w. destruct (Z.leb_spec (ds_w ds) (xo + pw)), (Z.eqb_spec pw 0); destruct (Z.eqb_spec (ds_w ds - xo) 0); lia. }
  assert (Eh : (let p := if ds_h ds <=? yo + ph then ds_h ds - yo else ph in if p =? 0 then ds_h ds else p) = h).
  { cbv zeta. subst h. destruct (Z.leb_spec (ds_h ds) (yo + ph)), (Z.eqb_spec ph 0); destruct (Z.eqb_spec (ds_h ds - yo) 0); lia. }
  cbv zeta in Ew, Eh. rewrite Ew, Eh. assert (1 <= w /\ xo + w <= ds_w ds) by (subst w; destruct (Z.eqb_spec pw 0); lia).
  assert (1 <= h /\ yo + h <= ds_h ds) by (subst h; destruct (Z.eqb_spec ph 0); lia).
  clearbody w h. unfold loadData. cbn [g_data g_file g_type g_w g_h g_xoff g_yoff g_nd g_geo g_proj g_meta]. rewrite Hf, HT. unfold resize_data.
  destruct (Z.ltb_spec (w * h) 0); [nia|]. cbn [bind negb].
  destruct (read_inside convert ds T xo yo w h (repeat (zero_of T) (Z.to_nat (w * h)))) as (l & L1 & L2 & L3); try lia. rewrite L1. cbn [bind].
  eexists. split; [reflexivity|]. split; [|split; [|split; [|split; [|split; [|split]]]]]; try reflexivity.
  split; [reflexivity|]. split; [reflexivity|]. exists l. auto.
Qed.
Print Assumptions C90_window.

(** "Width 0 means up to the right edge" is false: at any offset but 0 it throws. An offset at or beyond an edge throws too - unless both
    offsets are beyond the edges: then there is no exception but an array of negative width and height. *)
Theorem C90_rest_refuted : forall convert T fs name ds xo yo pw ph nd, fs name = Some ds -> wf ds -> has_gdal_type T = true ->
  of_double T (GetNoDataValue ds) = Ok nd -> 0 <= xo < 2 ^ 30 -> 0 <= yo < 2 ^ 30 -> 0 <= pw < 2 ^ 30 -> 0 <= ph < 2 ^ 30 ->
  (0 < xo < ds_w ds -> pw = 0 -> yo <= ds_h ds -> loadGDAL convert T fs name xo yo pw ph false true = Thrown) /\
  (0 < yo < ds_h ds -> ph = 0 -> xo <= ds_w ds -> loadGDAL convert T fs name xo yo pw ph false true = Thrown) /\
  (ds_w ds <= xo \/ ds_h ds <= yo -> ~ (ds_w ds < xo /\ ds_h ds < yo) -> loadGDAL convert T fs name xo yo pw ph false true = Thrown) /\
  (ds_w ds < xo -> ds_h ds < yo -> exists a, loadGDAL convert T fs name xo yo pw ph false true = Ok a /\ g_w a = ds_w ds - xo /\ g_h a = ds_h ds - yo).
Proof.
  intros convert T fs name ds xo yo pw ph nd Hf [W1 W2] HT Hn Hx Hy Hw Hh.
  assert (E : loadGDAL convert T fs name xo yo pw ph false true =
    let w := (let p := if ds_w ds <=? xo + pw then ds_w ds - xo else pw in if p =? 0 then ds_w ds else p) in
    let h := (let p := if ds_h ds <=? yo + ph then ds_h ds - yo else ph in if p =? 0 then ds_h ds else p) in
    do buf <- resize_data T w h; do l <- RasterIO_read convert ds T xo yo w h buf;
    Ok (mkG T w h xo yo nd (match ds_geo ds with Some g => g | None => STANDARD_GEO end) (ds_proj ds) [] name (Some l))).
  { unfold loadGDAL. rewrite Hf, get_meta. cbn [bind]. rewrite Hn. cbn [bind]. rewrite !i32_ok by lia. cbn [bind andb]. cbv zeta.
    unfold loadData. cbn [g_data g_file g_type g_w g_h g_xoff g_yoff g_nd g_geo g_proj g_meta]. rewrite Hf, HT. reflexivity. }
  rewrite E. clear E. cbv zeta.
  set (w := if (if ds_w ds <=? xo + pw then _ else _) =? 0 then _ else _). set (h := if (if ds_h ds <=? yo + ph then _ else _) =? 0 then _ else _).
  assert (Hw' : (xo < ds_w ds /\ 1 <= w /\ (pw = 0 -> w = ds_w ds)) \/ (xo = ds_w ds /\ w = ds_w ds) \/ (ds_w ds < xo /\ w = ds_w ds - xo)).
  { subst w. destruct (Z.leb_spec (ds_w ds) (xo + pw)); destruct (Z.eqb_spec (ds_w ds - xo) 0), (Z.eqb_spec pw 0); lia. }
  assert (Hh' : (yo < ds_h ds /\ 1 <= h /\ (ph = 0 -> h = ds_h ds)) \/ (yo = ds_h ds /\ h = ds_h ds) \/ (ds_h ds < yo /\ h = ds_h ds - yo)).
  { subst h. destruct (Z.leb_spec (ds_h ds) (yo + ph)); destruct (Z.eqb_spec (ds_h ds - yo) 0), (Z.eqb_spec ph 0); lia. }
  clearbody w h.
  assert (P : 1 <= w -> 1 <= h -> ds_w ds < xo + w \/ ds_h ds < yo + h ->
    (do buf <- resize_data T w h; do l <- RasterIO_read convert ds T xo yo w h buf;
     Ok (mkG T w h xo yo nd (match ds_geo ds with Some g => g | None => STANDARD_GEO end) (ds_proj ds) [] name (Some l))) = Thrown).
  { intros P1 P2 P3. unfold resize_data. destruct (Z.ltb_spec (w * h) 0); [nia|]. cbn [bind]. rewrite read_outside by lia. reflexivity. }
  assert (N : (1 <= w /\ h < 0) \/ (w < 0 /\ 1 <= h) ->
    (do buf <- resize_data T w h; do l <- RasterIO_read convert ds T xo yo w h buf;
     Ok (mkG T w h xo yo nd (match ds_geo ds with Some g => g | None => STANDARD_GEO end) (ds_proj ds) [] name (Some l))) = Thrown).
  { intros P1. unfold resize_data. destruct (Z.ltb_spec (w * h) 0); [reflexivity|nia]. }
  split; [|split; [|split]].
  - intros. apply P; lia.
  - intros. apply P; lia.
  - intros A B. destruct (Z_lt_le_dec (ds_w ds) xo); [apply N; lia|]. destruct (Z_lt_le_dec (ds_h ds) yo); [apply N; lia|]. apply P; lia.
  - intros A B. unfold resize_data. destruct (Z.ltb_spec (w * h) 0); [nia|]. cbn [bind]. unfold RasterIO_read. destruct (Z.ltb_spec w 1); [|lia]. cbn [orb bind].
    eexists. split; [reflexivity|]. cbn. lia.
Qed.
Print Assumptions C90_rest_refuted.

(** C90. With exact=true a file is accepted exactly if the window ends at the lower right corner of the raster. *)
Theorem C90_exact : forall convert T fs name ds xo yo pw ph nd, fs name = Some ds -> wf ds ->
  of_double T (GetNoDataValue ds) = Ok nd -> 0 <= xo < 2 ^ 30 -> 0 <= yo < 2 ^ 30 -> 0 <= pw < 2 ^ 30 -> 0 <= ph < 2 ^ 30 ->
  if (xo + pw =? ds_w ds) && (yo + ph =? ds_h ds) then exists a, loadGDAL convert T fs name xo yo pw ph true false = Ok a
  else loadGDAL convert T fs name xo yo pw ph true false = Thrown.
Proof.
  intros convert T fs name ds xo yo pw ph nd Hf [W1 W2] Hn Hx Hy Hw Hh. unfold loadGDAL. rewrite Hf, get_meta. cbn [bind]. rewrite Hn. cbn [bind].
  rewrite !i32_ok by lia. cbn [bind andb]. destruct (Z.eqb_spec (xo + pw) (ds_w ds)), (Z.eqb_spec (ds_w ds - xo) pw); try lia;
    destruct (Z.eqb_spec (yo + ph) (ds_h ds)), (Z.eqb_spec (ds_h ds - yo) ph); try lia; cbn [andb negb orb]; try reflexivity. eexists. reflexivity.
Qed.
Print Assumptions C90_exact.

(** C90. Opening without data and calling loadData later gives what loading at once would have given for the file as it is then (as long
    as that file has kept its header); loading twice throws. *)
Theorem C90_deferred : forall convert T fs fs' name xo yo pw ph exact a, loadGDAL convert T fs name xo yo pw ph exact false = Ok a ->
  g_data a = None /\
  ((forall ds, fs name = Some ds -> exists ds', fs' name = Some ds' /\ ds_w ds' = ds_w ds /\ ds_h ds' = ds_h ds /\ ds_nodata ds' = ds_nodata ds /\
       ds_geo ds' = ds_geo ds /\ ds_proj ds' = ds_proj ds) ->
   loadData convert fs' a = loadGDAL convert T fs' name xo yo pw ph exact true) /\
  (forall b v l, loadData convert fs' a = Ok b -> g_data b = Some (v :: l) -> loadData convert fs' b = Thrown).
Proof.
  intros convert T fs fs' name xo yo pw ph exact a H. unfold loadGDAL in *. destruct (fs name) as [ds|] eqn:Hf; [|discriminate].
  rewrite get_meta in H. cbn [bind] in H. destruct (of_double T (GetNoDataValue ds)) as [nd| |] eqn:En; cbn [bind] in H; try discriminate.
  destruct (i32 (ds_w ds - xo)) as [rw| |] eqn:E1; cbn [bind] in H; try discriminate. destruct (i32 (ds_h ds - yo)) as [rh| |] eqn:E2; cbn [bind] in H; try discriminate.
  destruct (exact && _) eqn:Ex; [discriminate|]. destruct (i32 (xo + pw)) as [ex| |] eqn:E3; cbn [bind] in H; try discriminate.
  destruct (i32 (yo + ph)) as [ey| |] eqn:E4; cbn [bind] in H; try discriminate. injection H as <-. split; [reflexivity|]. split.
  - intros K. destruct (K ds eq_refl) as (ds' & K1 & K2 & K3 & K4 & K5 & K6). rewrite K1, get_meta. cbn [bind].
    unfold GetNoDataValue in *. rewrite K4, En. cbn [bind]. rewrite K2, K3, E1, E2. cbn [bind]. rewrite Ex. cbn [bind]. rewrite K5, K6. reflexivity.
  - intros b v l _ Hb. unfold loadData. rewrite Hb. reflexivity.
Qed.
Print Assumptions C90_deferred.

Lemma flat_map_ext_in {A B} (f g : A -> list B) l : (forall x, In x l -> f x = g x) -> flat_map f l = flat_map g l.
Proof. induction l as [|a l IH]; intros H; [reflexivity|]. cbn. rewrite (H a) by (left; reflexivity). f_equal. apply IH. intros. apply H. right. assumption. Qed.
Lemma window_ext c c' xo yo w h : (forall x y, 0 <= x < w -> 0 <= y < h -> c (xo + x) (yo + y) = c' (xo + x) (yo + y)) -> window c xo yo w h = window c' xo yo w h.
Proof.
  intros H. unfold window. apply flat_map_ext_in. intros y Hy. apply map_ext_in. intros x Hx. apply zrange_In in Hx, Hy. apply H; lia.
Qed.

(** a complete array in memory *)
Definition complete (a : garr) (l : list val) : Prop :=
  has_gdal_type (g_type a) = true /\ 1 <= g_w a < 2 ^ 31 /\ 1 <= g_h a < 2 ^ 31 /\ g_data a = Some l /\ Z.of_nat (length l) = g_w a * g_h a /\
  typed (g_type a) (g_nd a) /\ (g_geo a = [] \/ length (g_geo a) = 6%nat) /\ mkeys (g_meta a).

(** C90. Saving and loading again: same type, size, cells, NoData value, projection and georeference; an array without georeference comes back
    with a standard one. No other file changes. (The metadata: next theorem.) *)
Theorem C90_round_trip : forall convert now prog writable fs a l name msg, complete a l -> writable name = true ->
  exists fs' a', saveGDAL now prog writable fs a name msg 0 0 = Ok (fs', a') /\
    (forall n, n <> name -> fs' n = fs n) /\
    exists b, open_file convert (g_type a) fs' name = Ok b /\ g_type b = g_type a /\ g_w b = g_w a /\ g_h b = g_h a /\ g_data b = Some l /\ g_nd b = g_nd a /\
      g_proj b = g_proj a /\ g_geo b = (if (length (g_geo a) =? 0)%nat then map (fun z => Q2Qc (inject_Z z)) [1000; 1; 0; 1000; 0; -1] else g_geo a).
Proof.
  intros convert now prog writable fs a l name msg (HT & Hw & Hh & Hd & HL & Hn & Hg & _) HW. unfold saveGDAL. rewrite HT, HW.
  destruct (Z.ltb_spec (g_w a) 1); [lia|]. destruct (Z.ltb_spec (g_h a) 1); [lia|]. cbn [orb negb].
  assert (G : negb (length (g_geo a) =? 0)%nat && negb (length (g_geo a) =? 6)%nat = false) by (destruct Hg as [->| ->]; reflexivity). rewrite G, Hd.
  rewrite (proj2 (Z.eqb_eq _ _) HL). set (items := set_items _ _). set (m2 := mset HIST _ (mset _ _ _)). clearbody items m2.
  set (ds := mkDS _ _ _ _ _ _ _ _). exists (upd_file fs name ds). eexists. split; [reflexivity|]. split.
  { intros n Hne. unfold upd_file. destruct (String.eqb_spec n name); [contradiction|reflexivity]. }
  assert (Wf : wf ds) by (split; cbn; lia).
  assert (Hf : upd_file fs name ds name = Some ds) by (unfold upd_file; rewrite String.eqb_refl; reflexivity).
  assert (Hnd : of_double (g_type a) (GetNoDataValue ds) = Ok (g_nd a)) by (unfold GetNoDataValue; cbn [ds_nodata ds]; apply of_to_double; assumption).
  destruct (C90_window convert (g_type a) _ name ds 0 0 0 0 (g_nd a) Hf Wf HT Hnd) as (b & B1 & B2 & B3 & B4 & B5 & _ & _ & B8); try (subst ds; cbn; lia).
  exists b. split; [exact B1|]. destruct B2 as (S1 & S2 & l' & S3 & S4 & S5). change (ds_w ds) with (g_w a) in *. change (ds_h ds) with (g_h a) in *.
  cbn [Z.eqb] in S1, S2, S4, S5.
  split; [exact B3|]. split; [exact S1|]. split; [exact S2|]. split; [|split; [exact B4|split; [exact B5|]]].
  - rewrite S3. f_equal. transitivity (window (cell_at (g_w a) l') 0 0 (g_w a) (g_h a)); [symmetry; apply window_id; lia|]. transitivity (window (cell_at (g_w a) l) 0 0 (g_w a) (g_h a)); [|apply window_id; lia].
    apply window_ext. intros x y Hx Hy. rewrite !Z.add_0_l. unfold cell_at at 1. rewrite S5 by lia. unfold as_type. subst ds. cbn [ds_type ds_cell].
    rewrite dtype_eqb_refl. rewrite !Z.add_0_l. reflexivity.
  - rewrite B8. subst ds. cbn [ds_geo]. destruct Hg as [Hg|Hg].
    + rewrite Hg. reflexivity.
    + rewrite Hg. cbn [Nat.eqb]. destruct (g_geo a) as [|g0 [|g1 [|g2 [|g3 [|g4 [|g5 [|]]]]]]]; try discriminate Hg. unfold shifted. cbn [upd_nth nth].
      replace (Q2Qc (inject_Z 0)) with 0%Qc by reflexivity. f_equal; [ring|]. do 2 f_equal. f_equal. ring.
Qed.
Print Assumptions C90_round_trip.

Lemma append_assoc (a b c : string) : String.append a (String.append b c) = String.append (String.append a b) c.
Proof. induction a as [|x a IH]; cbn; [reflexivity|]. rewrite IH. reflexivity. Qed.
Lemma append_empty (a : string) : String.append a "" = a.
Proof. induction a as [|x a IH]; cbn; congruence. Qed.

(** The file saveGDAL writes: what its metadata are, for every array. The history is that of the array with one line added - "Unspecified Operation"
    is never written - and the array keeps the new line. *)
Theorem C90_history : forall now prog writable fs a l name msg xo yo, complete a l -> writable name = true ->
  exists fs' a' ds, saveGDAL now prog writable fs a name msg xo yo = Ok (fs', a') /\ fs' name = Some ds /\
    (let h := match mget "PROCESSING_HISTORY" (g_meta a) with Some h => h | None => EmptyString end in
     let h' := String.append h (String.append nl (String.append now (String.append " | " (String.append prog (String.append " | " msg))))) in
     mget "PROCESSING_HISTORY" (ds_meta ds) = Some h' /\ mget "PROCESSING_HISTORY" (g_meta a') = Some h') /\
    (forall k, k <> "PROCESSING_HISTORY"%string -> mget k (g_meta a') = mget k (g_meta a)) /\
    (forall k v, k <> "PROCESSING_HISTORY"%string -> mget k (g_meta a) = Some v -> mget k (ds_meta ds) = Some v) /\
    (forall k, k <> "PROCESSING_HISTORY"%string -> k <> "TIFFTAG_DATETIME"%string -> k <> "TIFFTAG_SOFTWARE"%string -> mget k (ds_meta ds) = mget k (g_meta a)) /\
    complete a' l.
Proof.
  intros now prog writable fs a l name msg xo yo C HW. pose proof C as (HT & Hw & Hh & Hd & HL & Hn & Hg & Hm). unfold saveGDAL. rewrite HT, HW.
  destruct (Z.ltb_spec (g_w a) 1); [lia|]. destruct (Z.ltb_spec (g_h a) 1); [lia|]. cbn [orb negb].
  assert (G : negb (length (g_geo a) =? 0)%nat && negb (length (g_geo a) =? 6)%nat = false) by (destruct Hg as [->| ->]; reflexivity). rewrite G, Hd.
  rewrite (proj2 (Z.eqb_eq _ _) HL). set (m1 := mset HIST _ (g_meta a)).
  assert (L1 : (length m1 =? 0)%nat = false) by (apply Nat.eqb_neq; apply mset_length). rewrite L1. cbn [negb].
  set (m2 := mset HIST _ m1). eexists _, _, _. split; [reflexivity|]. split; [unfold upd_file; rewrite String.eqb_refl; reflexivity|]. cbn [ds_meta g_meta].
  assert (ND : mkeys m2) by (apply mset_nodup, mset_nodup, Hm).
  assert (H2 : mget HIST m2 = Some (String.append (getd (mget HIST (g_meta a))) (String.append nl (String.append now (String.append " | " (String.append prog (String.append " | " msg))))))).
  { subst m2. rewrite mget_mset. subst m1. rewrite mget_mset. unfold getd at 1, stamp. rewrite !append_assoc. reflexivity. }
  assert (O : forall k, k <> HIST -> mget k m2 = mget k (g_meta a)) by (intros; subst m2 m1; rewrite !mget_mset_other by assumption; reflexivity).
  split; [cbv zeta; rewrite set_items_get by exact ND; change "PROCESSING_HISTORY"%string with HIST; rewrite H2; unfold getd; split; reflexivity|].
  split; [exact O|]. split; [intros k v N E; rewrite set_items_get by exact ND; rewrite O by exact N; rewrite E; reflexivity|].
  split; [|repeat (split; [first [assumption|reflexivity]|]); exact ND].
  intros k N1 N2 N3. rewrite set_items_get by exact ND. rewrite O by exact N1. destruct (mget k (g_meta a)); [reflexivity|]. cbn [mget].
  destruct (String.eqb_spec k "TIFFTAG_DATETIME"); [contradiction|]. destruct (String.eqb_spec k "TIFFTAG_SOFTWARE"); [contradiction|reflexivity].
Qed.
Print Assumptions C90_history.

Lemma load_meta convert T fs name xo yo pw ph ex ld a : loadGDAL convert T fs name xo yo pw ph ex ld = Ok a -> g_meta a = [].
Proof.
  unfold loadGDAL. destruct (fs name) as [ds|] eqn:F; [|discriminate]. rewrite get_meta. cbn [bind]. destruct (of_double _ _); cbn [bind]; try discriminate.
  destruct (i32 _); cbn [bind]; try discriminate. destruct (i32 _); cbn [bind]; try discriminate. destruct (ex && _); [discriminate|].
  destruct (i32 _); cbn [bind]; try discriminate. destruct (i32 _); cbn [bind]; try discriminate. destruct ld; [|intros H; injection H as <-; reflexivity].
  unfold loadData. cbn [g_data g_file g_type g_w g_h g_xoff g_yoff g_nd g_geo g_proj g_meta]. rewrite F. destruct (resize_data _ _ _); cbn [bind]; try discriminate.
  destruct (negb _); [discriminate|]. destruct (RasterIO_read _ _ _ _ _ _ _ _); cbn [bind]; try discriminate. intros H; injection H as <-. reflexivity.
Qed.

(** "The metadata of the input, with its processing history, are passed on to the output" is false: no metadata item of any file is ever
    read, whichever way it is loaded, and the file written holds one line of history. *)
Theorem C90_metadata_refuted : forall convert T now prog writable fs name xo yo pw ph ex ld a l out msg x y,
  loadGDAL convert T fs name xo yo pw ph ex ld = Ok a ->
  g_meta a = [] /\
  (complete a l -> writable out = true ->
   exists fs' a' ds, saveGDAL now prog writable fs a out msg x y = Ok (fs', a') /\ fs' out = Some ds /\
    mget "PROCESSING_HISTORY" (ds_meta ds) = Some (String.append nl (String.append now (String.append " | " (String.append prog (String.append " | " msg))))) /\
    forall k, k <> "PROCESSING_HISTORY"%string -> k <> "TIFFTAG_DATETIME"%string -> k <> "TIFFTAG_SOFTWARE"%string -> mget k (ds_meta ds) = None).
Proof.
  intros convert T now prog writable fs name xo yo pw ph ex ld a l out msg x y H. pose proof (load_meta _ _ _ _ _ _ _ _ _ _ _ H) as M. split; [exact M|]. intros C W.
  destruct (C90_history now prog writable fs a l out msg x y C W) as (fs' & a' & ds & E1 & E2 & (E3 & _) & _ & _ & E4 & _). exists fs', a', ds. rewrite M in *.
  split; [exact E1|]. split; [exact E2|]. split; [exact E3|]. exact E4.
Qed.
Print Assumptions C90_metadata_refuted.

(** C90. Georeference of a window: saving with the offsets of the window puts its cells where they were - exactly if the raster is not
    rotated (or the offset of the other axis is 0). *)
Theorem C90_georeference : forall now prog writable fs a l name msg xo yo, complete a l -> length (g_geo a) = 6%nat -> writable name = true ->
  exists fs' a' ds g', saveGDAL now prog writable fs a name msg xo yo = Ok (fs', a') /\ fs' name = Some ds /\ ds_geo ds = Some g' /\
    ((forall x y, ground g' x y = ground (g_geo a) (xo + x) (yo + y)) <->
     (Q2Qc (inject_Z yo) * nth 2 (g_geo a) 0 = 0 /\ Q2Qc (inject_Z xo) * nth 4 (g_geo a) 0 = 0)%Qc) /\
    (forall x y, ground g' x y = let p := ground (g_geo a) (xo + x) (yo + y) in
       (fst p - Q2Qc (inject_Z yo) * nth 2 (g_geo a) 0, snd p - Q2Qc (inject_Z xo) * nth 4 (g_geo a) 0)%Qc).
Proof.
  intros now prog writable fs a l name msg xo yo C Hg HW. pose proof C as (HT & Hw & Hh & Hd & HL & Hn & _ & Hm). unfold saveGDAL. rewrite HT, HW.
  destruct (Z.ltb_spec (g_w a) 1); [lia|]. destruct (Z.ltb_spec (g_h a) 1); [lia|]. cbn [orb negb]. rewrite Hg. cbn [Nat.eqb negb andb]. rewrite Hd.
  rewrite (proj2 (Z.eqb_eq _ _) HL). eexists _, _, _, _. split; [reflexivity|]. split; [unfold upd_file; rewrite String.eqb_refl; reflexivity|]. cbn [ds_geo].
  split; [reflexivity|].
  assert (QA : forall u v, Q2Qc (inject_Z (u + v)) = (Q2Qc (inject_Z u) + Q2Qc (inject_Z v))%Qc).
  { intros. apply Qc_is_canon. cbn [this Q2Qc]. unfold Qcplus. rewrite !Qred_correct. cbn [this Q2Qc]. rewrite !Qred_correct. rewrite inject_Z_plus. reflexivity. }
  assert (P : forall x y, ground (shifted (g_geo a) xo yo) x y = let p := ground (g_geo a) (xo + x) (yo + y) in
     (fst p - Q2Qc (inject_Z yo) * nth 2 (g_geo a) 0, snd p - Q2Qc (inject_Z xo) * nth 4 (g_geo a) 0)%Qc).
  { intros x y. destruct (g_geo a) as [|g0 [|g1 [|g2 [|g3 [|g4 [|g5 [|]]]]]]]; try discriminate Hg. unfold shifted, ground. cbn [upd_nth nth fst snd]. rewrite !QA.
    f_equal; ring. }
  split; [|exact P]. split.
  - intros A. specialize (A 0 0). rewrite P in A. cbv zeta in A. destruct (ground (g_geo a) (xo + 0) (yo + 0)) as [u v]. cbn [fst snd] in A. injection A as A1 A2. split.
    + transitivity (u - (u - Q2Qc (inject_Z yo) * nth 2 (g_geo a) 0))%Qc; [ring|]. rewrite A1. ring.
    + transitivity (v - (v - Q2Qc (inject_Z xo) * nth 4 (g_geo a) 0))%Qc; [ring|]. rewrite A2. ring.
  - intros [A1 A2] x y. rewrite P, A1, A2. cbv zeta. destruct (ground (g_geo a) (xo + x) (yo + y)) as [u v]. cbn [fst snd]. f_equal; ring.
Qed.
Print Assumptions C90_georeference.

Lemma of_double_int T z : is_int T = true -> Z.abs z <= 2 ^ 53 ->
  of_double T (f64_of_Z z) = if (dmin T <=? z) && (z <=? dmax T) then Ok (VI z) else Undef.
Proof.
  intros HT Hz. destruct (f64_trunc z Hz) as [E2 B].
  destruct T; try discriminate HT; unfold of_double; rewrite E2, B; reflexivity.
Qed.

(** C90. A NoData value the type T cannot hold makes the opening of a file undefined, even if no data are asked for; a file without NoData value (-1e10) cannot be
    opened as any integer type of at most 32 bits or unsigned. *)
Theorem C90_nodata_range : forall convert T fs name ds xo yo pw ph ex ld, fs name = Some ds -> is_int T = true ->
  (forall z, Z.abs z <= 2 ^ 53 -> ds_nodata ds = Some (f64_of_Z z) -> ~ dmin T <= z <= dmax T -> loadGDAL convert T fs name xo yo pw ph ex ld = Undef) /\
  (ds_nodata ds = None -> T <> Int64 -> loadGDAL convert T fs name xo yo pw ph ex ld = Undef).
Proof.
  intros convert T fs name ds xo yo pw ph ex ld Hf HT. split.
  - intros z Hz Hn N. unfold loadGDAL. rewrite Hf, get_meta. cbn [bind]. unfold GetNoDataValue. rewrite Hn, of_double_int by assumption.
    destruct (Z.leb_spec (dmin T) z), (Z.leb_spec z (dmax T)); try lia; reflexivity.
  - intros Hn N. unfold loadGDAL. rewrite Hf, get_meta. cbn [bind]. unfold GetNoDataValue. rewrite Hn, of_double_int by (assumption || lia).
    destruct T; try discriminate HT; try congruence; reflexivity.
Qed.
Print Assumptions C90_nodata_range.

(** C90. 8 bit signed and 64 bit integers: such arrays can neither be saved nor have their cells loaded. *)
Theorem C90_types : forall convert now prog writable fs,
  (forall a name msg x y, In (g_type a) [Int8; Int64; Uint64] -> saveGDAL now prog writable fs a name msg x y = Thrown) /\
  (forall T name xo yo pw ph ex a, In T [Int8; Int64; Uint64] -> loadGDAL convert T fs name xo yo pw ph ex true <> Ok a).
Proof.
  intros convert now prog writable fs. split.
  - intros a name msg x y H. unfold saveGDAL. replace (has_gdal_type (g_type a)) with false; [reflexivity|]. destruct H as [<-|[<-|[<-|[]]]]; reflexivity.
  - intros T name xo yo pw ph ex a H. assert (HT : has_gdal_type T = false) by (destruct H as [<-|[<-|[<-|[]]]]; reflexivity). unfold loadGDAL.
    destruct (fs name) as [ds|] eqn:F; [|discriminate]. rewrite get_meta. cbn [bind]. destruct (of_double _ _); cbn [bind]; try discriminate.
    destruct (i32 _); cbn [bind]; try discriminate. destruct (i32 _); cbn [bind]; try discriminate. destruct (ex && _); [discriminate|].
    destruct (i32 _); cbn [bind]; try discriminate. destruct (i32 _); cbn [bind]; try discriminate.
    unfold loadData. cbn [g_data g_file g_type g_w g_h g_xoff g_yoff g_nd g_geo g_proj g_meta]. rewrite F, HT. destruct (resize_data _ _ _); cbn [bind negb]; discriminate.
Qed.
Print Assumptions C90_types.

(** C90. Loading with padding (loaders.hpp): the window inside a frame of zeros - not NoData -, the georeference that of the unpadded
    raster, so that with padding cells are not where they were. *)
Theorem C90_padding : forall convert T fs name ds padx pady xo yo pw ph nd, fs name = Some ds -> wf ds -> has_gdal_type T = true ->
  of_double T (GetNoDataValue ds) = Ok nd -> 0 <= xo < ds_w ds -> 0 <= yo < ds_h ds ->
  (0 < pw < 2 ^ 31 \/ pw = 0 /\ xo = 0) -> (0 < ph < 2 ^ 31 \/ ph = 0 /\ yo = 0) -> 0 <= padx -> 0 <= pady -> ds_w ds + 2 * padx < 2 ^ 31 -> ds_h ds + 2 * pady < 2 ^ 31 ->
  let w := if pw =? 0 then ds_w ds else Z.min pw (ds_w ds - xo) in let h := if ph =? 0 then ds_h ds else Z.min ph (ds_h ds - yo) in
  exists a, LoadGDAL convert T fs name padx pady xo yo pw ph = Ok a /\ g_nd a = nd /\
    shows a (fun x y => if inGrid w h (x - padx) (y - pady) then as_type convert T ds (xo + (x - padx)) (yo + (y - pady)) else zero_of T) 0 0 (w + 2 * padx) (h + 2 * pady) /\
    g_geo a = match ds_geo ds with Some g => g | None => map (fun z => Q2Qc (inject_Z z)) [1000; 1; 0; 1000; 0; -1] end.
Proof.
  intros convert T fs name ds padx pady xo yo pw ph nd Hf [W1 W2] HT Hn Hx Hy Hw Hh Px Py Bx By w h. unfold LoadGDAL. rewrite Hf, get_meta. cbn [bind]. rewrite Hn. cbn [bind].
  assert (U : forall z, 0 <= z < 2 ^ 33 -> u64 z = z) by (intros; apply Z.mod_small; lia). rewrite !U by lia.
  assert (Ew : (let p := if ds_w ds <=? xo + pw then ds_w ds - xo else pw in if p =? 0 then ds_w ds else p) = w).
  { cbv zeta. subst w. destruct (Z.leb_spec (ds_w ds) (xo + pw)), (Z.eqb_spec pw 0); destruct (Z.eqb_spec (ds_w ds - xo) 0); lia. }
  assert (Eh : (let p := if ds_h ds <=? yo + ph then ds_h ds - yo else ph in if p =? 0 then ds_h ds else p) = h).
  { cbv zeta. subst h. destruct (Z.leb_spec (ds_h ds) (yo + ph)), (Z.eqb_spec ph 0); destruct (Z.eqb_spec (ds_h ds - yo) 0); lia. }
  cbv zeta in Ew, Eh. rewrite Ew, Eh. assert (1 <= w /\ xo + w <= ds_w ds) by (subst w; destruct (Z.eqb_spec pw 0); lia).
  assert (1 <= h /\ yo + h <= ds_h ds) by (subst h; destruct (Z.eqb_spec ph 0); lia). clearbody w h.
  destruct (Z.leb_spec (2 ^ 31) w); [lia|]. destruct (Z.leb_spec (2 ^ 31) h); [lia|]. destruct (Z.leb_spec (2 ^ 31) (w + 2 * padx)); [lia|].
  destruct (Z.leb_spec (2 ^ 31) (h + 2 * pady)); [lia|]. cbn [orb]. rewrite HT. cbn [negb].
  destruct (read_inside convert ds T xo yo w h (repeat (zero_of T) (Z.to_nat (w * h)))) as (l & L1 & L2 & L3); try lia. rewrite L1. cbn [bind].
  eexists. split; [reflexivity|]. cbn [g_nd g_geo]. split; [reflexivity|]. split; [|reflexivity]. split; [reflexivity|]. split; [reflexivity|]. cbn [g_data].
  eexists. split; [reflexivity|]. destruct ((padx =? 0) && (pady =? 0)) eqn:E0.
  - apply andb_prop in E0. destruct E0 as [E1 E2]. apply Z.eqb_eq in E1, E2. subst padx pady. rewrite !Z.add_0_r. split; [exact L2|]. intros x y Hx' Hy'.
    rewrite L3 by lia. rewrite !Z.add_0_l, !Z.sub_0_r. replace (inGrid w h x y) with true; [reflexivity|]. symmetry. unfold inGrid.
    rewrite !andb_true_iff, !Z.leb_le, !Z.ltb_lt. lia.
  - split; [apply window_length; lia|]. intros x y Hx' Hy'.
    change (nth _ (window ?c ?a ?b ?ww ?hh) _) with (cell_at (w + 2 * padx) (window c a b ww hh) x y). rewrite window_at by lia. rewrite !Z.add_0_l.
    destruct (inGrid w h (x - padx) (y - pady)) eqn:G; [|reflexivity]. unfold inGrid in G. rewrite !andb_true_iff, !Z.leb_le, !Z.ltb_lt in G. unfold cell_at. rewrite L3 by lia. reflexivity.
Qed.
Print Assumptions C90_padding.

(** "Saving with the padding removes it" is false: the file has the size of the padded array; the inner cells are moved to its upper left corner, the cells
    right of and below them are never written. *)
Theorem C90_save_padding_refuted : forall now prog writable fill fs a l name msg padx pady, complete a l -> writable name = true ->
  0 <= padx -> 0 <= pady -> 2 * padx <= g_w a -> 2 * pady <= g_h a ->
  exists fs' ds, SaveGDAL now prog writable fill fs a name msg 0 0 padx pady = Ok fs' /\ fs' name = Some ds /\ ds_w ds = g_w a /\ ds_h ds = g_h a /\
    (forall x y, 0 <= x < g_w a - 2 * padx -> 0 <= y < g_h a - 2 * pady -> ds_cell ds x y = nth (Z.to_nat ((y + pady) * g_w a + (x + padx))) l (VI 0)) /\
    (forall x y, 0 <= x -> 0 <= y -> g_w a - 2 * padx <= x \/ g_h a - 2 * pady <= y -> ds_cell ds x y = fill).
Proof.
  intros now prog writable fill fs a l name msg padx pady (HT & Hw & Hh & Hd & HL & Hn & Hg & Hm) HW Px Py Bx By. unfold SaveGDAL. rewrite HT, HW.
  destruct (Z.ltb_spec (g_w a) 1); [lia|]. destruct (Z.ltb_spec (g_h a) 1); [lia|]. cbn [orb negb].
  assert (G : negb (length (g_geo a) =? 0)%nat && negb (length (g_geo a) =? 6)%nat = false) by (destruct Hg as [->| ->]; reflexivity). rewrite G, Hd.
  rewrite (proj2 (Z.eqb_eq _ _) HL). destruct (Z.ltb_spec (g_w a - 2 * padx) 0); [lia|]. destruct (Z.ltb_spec (g_h a - 2 * pady) 0); [lia|]. cbn [orb].
  eexists _, _. split; [reflexivity|]. split; [unfold upd_file; rewrite String.eqb_refl; reflexivity|]. cbn [ds_w ds_h ds_cell]. split; [reflexivity|]. split; [reflexivity|].
  split; intros x y Hx Hy.
  - replace (inGrid (g_w a - 2 * padx) (g_h a - 2 * pady) x y) with true; [reflexivity|]. symmetry. unfold inGrid. rewrite !andb_true_iff, !Z.leb_le, !Z.ltb_lt. lia.
  - intros Ho. destruct (inGrid (g_w a - 2 * padx) (g_h a - 2 * pady) x y) eqn:E; [|reflexivity]. unfold inGrid in E. rewrite !andb_true_iff, !Z.leb_le, !Z.ltb_lt in E. lia.
Qed.
Print Assumptions C90_save_padding_refuted.

(** Cases that meet the hypotheses: a 3x2 file of 16 bit integers with NoData -9999, a rotated georeference and metadata. *)
Definition ex_ds : dataset := mkDS Int16 3 2 (fun x y => VI (10 * y + x)) (Some (f64_of_Z (-9999))) (Some (map (fun z => Q2Qc (inject_Z z)) [100; 30; 5; 200; 0; -30]))
  "EPSG:26915"%string [("PROCESSING_HISTORY", "2018-01-01 | someone | made"); ("AREA_OR_POINT", "Area")]%string.
Definition ex_fs : files := fun n => if String.eqb n "dem.tif"%string then Some ex_ds else None.
Definition ex_conv : dtype -> val -> val := fun _ v => v.
Definition ex_load := loadGDAL ex_conv Int16 ex_fs "dem.tif"%string 1 1 5 1 false true.
Lemma ex_nd : of_double Int16 (GetNoDataValue ex_ds) = Ok (VI (-9999)).
Proof. unfold GetNoDataValue. cbn [ex_ds ds_nodata]. rewrite of_double_int by (reflexivity || lia). reflexivity. Qed.
Example C90_case : ex_fs "dem.tif"%string = Some ex_ds /\ wf ex_ds /\ of_double Int16 (GetNoDataValue ex_ds) = Ok (VI (-9999)) /\
  exists a, ex_load = Ok a /\ g_w a = 2 /\ g_h a = 1 /\ complete a [VI 11; VI 12] /\ length (g_geo a) = 6%nat.
Proof.
  assert (Wf : wf ex_ds) by (split; cbn; lia). split; [reflexivity|]. split; [exact Wf|]. split; [exact ex_nd|].
  destruct (C90_window ex_conv Int16 ex_fs "dem.tif"%string ex_ds 1 1 5 1 (VI (-9999)) eq_refl Wf eq_refl ex_nd) as (a & A1 & (S1 & S2 & l & S3 & S4 & S5) & A2 & A3 & _ & _ & _ & A7);
    try (cbn [ex_ds ds_w ds_h]; lia).
  cbn [ex_ds ds_w ds_h Z.eqb] in S1, S2, S4, S5. change (Z.min 5 (3 - 1)) with 2 in *. change (Z.min 1 (2 - 1)) with 1 in *.
  exists a. split; [exact A1|]. split; [exact S1|]. split; [exact S2|].
  assert (G : length (g_geo a) = 6%nat) by (rewrite A7; reflexivity). split; [|exact G].
  assert (L : l = [VI 11; VI 12]).
  { pose proof (S5 0 0 ltac:(lia) ltac:(lia)) as X0. pose proof (S5 1 0 ltac:(lia) ltac:(lia)) as X1. destruct l as [|v0 [|v1 [|]]]; cbn [length] in S4; try lia.
    change (v0 = VI 11) in X0. change (v1 = VI 12) in X1. subst. reflexivity. }
  subst l. unfold complete. rewrite A2, A3, S1, S2. split; [reflexivity|]. split; [lia|]. split; [lia|]. split; [exact S3|]. split; [reflexivity|]. split; [cbn; lia|].
  split; [right; exact G|]. rewrite (load_meta _ _ _ _ _ _ _ _ _ _ _ A1). constructor.
Qed.
(** opening it as a signed byte, as the command line tools do, is undefined *)
Example C90_case_int8 : loadGDAL ex_conv Int8 ex_fs "dem.tif"%string 0 0 0 0 false false = Undef.
Proof. apply (proj1 (C90_nodata_range ex_conv Int8 ex_fs "dem.tif"%string ex_ds 0 0 0 0 false false eq_refl eq_refl) (-9999)); [lia|reflexivity|cbn; lia]. Qed.
(** the rotated window comes back 5 units off *)
Example C90_case_rotated : forall a, ex_load = Ok a -> (Q2Qc (inject_Z 1) * nth 2 (g_geo a) 0 <> 0)%Qc.
Proof.
  intros a H. destruct (C90_window ex_conv Int16 ex_fs "dem.tif"%string ex_ds 1 1 5 1 (VI (-9999)) eq_refl ltac:(split; cbn; lia) eq_refl ex_nd) as (b & A1 & _ & _ & _ & _ & _ & _ & A7);
    try (cbn [ex_ds ds_w ds_h]; lia).
  unfold ex_load in H. rewrite A1 in H. injection H as <-. rewrite A7. cbn [ex_ds ds_geo map nth]. intros E. apply (f_equal this) in E. vm_compute in E. discriminate E.
Qed.
