(** C95: the command line programs for raster files. *)
From Coq Require Import ZArith List Lia Bool String Ascii QArith Qcanon.
From Flocq Require Import Core BinarySingleNaN.
From Verif Require Import Base Res ArrModel ArrSpec ArrProofs ArrProofs2 PropertiesArr FAFModel PropertiesEpsInt PyModel PyIntModel PyNumModel GDALModel GDALProofs PropertiesGDAL AppsGDALModel.
Open Scope Z_scope.
Open Scope list_scope.

(** the georeference of a file, or the standard one *)
Definition geo_of (ds : dataset) : list Qc := match ds_geo ds with Some g => g | None => map (fun z => Q2Qc (inject_Z z)) [1000; 1; 0; 1000; 0; -1] end.
(** a file the programs can open: a type they know, a georeference of six numbers or none, a NoData value its type can hold *)
Definition readable (ds : dataset) : Prop :=
  wf ds /\ has_gdal_type (ds_type ds) = true /\ length (geo_of ds) = 6%nat /\ exists nd, of_double (ds_type ds) (GetNoDataValue ds) = Ok nd.
(** same type, size and cells *)
Definition same_cells (ds ds' : dataset) : Prop :=
  ds_type ds' = ds_type ds /\ ds_w ds' = ds_w ds /\ ds_h ds' = ds_h ds /\
  forall x y, 0 <= x < ds_w ds -> 0 <= y < ds_h ds -> ds_cell ds' x y = ds_cell ds x y.
(** the history of what a program writes: one line *)
Definition one_line (now prog analysis : string) (ds : dataset) : Prop :=
  mget "PROCESSING_HISTORY" (ds_meta ds) = Some (String.append nl (String.append now (String.append " | " (String.append prog (String.append " | " analysis))))).

Lemma opened convert fs name ds nd : fs name = Some ds -> wf ds -> has_gdal_type (ds_type ds) = true -> of_double (ds_type ds) (GetNoDataValue ds) = Ok nd ->
  exists a0 l, loadGDAL convert (ds_type ds) fs name 0 0 0 0 false false = Ok a0 /\
    loadData convert fs a0 = Ok (mkG (ds_type ds) (ds_w ds) (ds_h ds) 0 0 nd (geo_of ds) (ds_proj ds) [] name (Some l)) /\
    Z.of_nat (List.length l) = ds_w ds * ds_h ds /\ forall x y, 0 <= x < ds_w ds -> 0 <= y < ds_h ds -> nth (Z.to_nat (y * ds_w ds + x)) l (VI 0) = ds_cell ds x y.
Proof.
  intros Hf [W1 W2] HT Hn. unfold loadGDAL. rewrite Hf, get_meta. cbn [bind]. rewrite Hn. cbn [bind]. rewrite !i32_ok by lia. cbn [bind andb].
  rewrite !Z.sub_0_r. destruct (Z.leb_spec (ds_w ds) (0 + 0)); [lia|]. destruct (Z.leb_spec (ds_h ds) (0 + 0)); [lia|]. cbn [Z.eqb].
  destruct (read_inside convert ds (ds_type ds) 0 0 (ds_w ds) (ds_h ds) (repeat (zero_of (ds_type ds)) (Z.to_nat (ds_w ds * ds_h ds)))) as (l & L1 & L2 & L3); try lia.
  eexists _, l. split; [reflexivity|]. unfold loadData. cbn [g_data g_file g_type g_w g_h g_xoff g_yoff g_nd g_geo g_proj g_meta]. rewrite Hf, HT. unfold resize_data.
  destruct (Z.ltb_spec (ds_w ds * ds_h ds) 0); [nia|]. cbn [bind negb]. rewrite L1. cbn [bind]. split; [reflexivity|]. split; [exact L2|].
  intros x y Hx Hy. rewrite L3 by lia. rewrite !Z.add_0_l. unfold as_type. rewrite dtype_eqb_refl. reflexivity.
Qed.

Lemma shifted_0 g : List.length g = 6%nat -> shifted g 0 0 = g.
Proof.
  intros Hg. destruct g as [|g0 [|g1 [|g2 [|g3 [|g4 [|g5 [|]]]]]]]; try discriminate Hg. unfold shifted. cbn [upd_nth nth].
  replace (Q2Qc (inject_Z 0)) with 0%Qc by reflexivity. f_equal; [ring|]. do 2 f_equal. f_equal. ring.
Qed.

Lemma saved now prog writable analysis fs T w h nd geo proj name l out : has_gdal_type T = true -> 1 <= w -> 1 <= h -> Z.of_nat (List.length l) = w * h ->
  List.length geo = 6%nat -> writable out = true ->
  exists fs' ds', save now prog writable analysis fs (mkG T w h 0 0 nd geo proj [] name (Some l)) out = Ok (0, fs') /\ fs' out = Some ds' /\
    (forall f, f <> out -> fs' f = fs f) /\ ds_type ds' = T /\ ds_w ds' = w /\ ds_h ds' = h /\ (forall x y, ds_cell ds' x y = nth (Z.to_nat (y * w + x)) l (VI 0)) /\
    ds_nodata ds' = Some (to_double nd) /\ ds_geo ds' = Some geo /\ ds_proj ds' = proj /\ one_line now prog analysis ds'.
Proof.
  intros HT Hw Hh HL Hg HW. unfold save, saveGDAL. cbn [g_data g_file g_type g_w g_h g_xoff g_yoff g_nd g_geo g_proj g_meta]. rewrite HT, HW.
  destruct (Z.ltb_spec w 1); [lia|]. destruct (Z.ltb_spec h 1); [lia|]. cbn [orb negb]. rewrite Hg. cbn [Nat.eqb negb andb].
  rewrite (proj2 (Z.eqb_eq _ _) HL). cbn [bind fst]. rewrite shifted_0 by exact Hg. eexists _, _. split; [reflexivity|]. split; [unfold upd_file; rewrite String.eqb_refl; reflexivity|].
  split; [intros f Hne; unfold upd_file; destruct (String.eqb_spec f out); [contradiction|reflexivity]|]. cbn [ds_type ds_w ds_h ds_cell ds_nodata ds_geo ds_proj].
  split; [reflexivity|]. split; [reflexivity|]. split; [reflexivity|]. split; [reflexivity|]. split; [reflexivity|]. split; [reflexivity|]. split; [reflexivity|].
  unfold one_line. cbn [ds_meta mset mget]. change (String.eqb HIST HIST) with true. cbv iota. cbn [mset mget List.length Nat.eqb negb getd]. cbn [String.append].
  unfold set_items. cbn [fold_left fst snd]. change "PROCESSING_HISTORY"%string with HIST. rewrite mget_mset.
  f_equal. unfold stamp. rewrite <- !append_assoc. reflexivity.
Qed.

(** C95. Every program opens the file as an array of its own type; a missing file is an error and a file of another type is left alone, with exit status 0. *)
Theorem C95_route : forall convert now prog writable stod analysis junk fs inp out nodata coefs templ,
  (fs inp = None -> rd_no_data convert now prog writable analysis fs inp out nodata = Thrown /\ rd_geotransform convert now prog writable stod analysis fs inp out coefs = Thrown /\
     rd_projection convert now prog writable analysis fs inp out templ = Thrown /\ rd_hist convert fs inp = Thrown /\
     (forall w h n m, stoi w = Ok n -> stoi h = Ok m -> rd_expand_dimensions convert now prog writable analysis junk fs inp out w h = Thrown) /\
     (forall B, rd_compare convert fs inp B = Thrown) /\ rd_no_data_show convert fs inp = Thrown /\ rd_geotransform_show convert fs inp = Thrown /\ rd_processing_history convert fs inp = Thrown) /\
  (forall ds, fs inp = Some ds -> has_gdal_type (ds_type ds) = false ->
     rd_no_data convert now prog writable analysis fs inp out nodata = Ok (0, fs) /\ rd_geotransform convert now prog writable stod analysis fs inp out coefs = Ok (0, fs) /\
     rd_projection convert now prog writable analysis fs inp out templ = Ok (0, fs) /\ rd_hist convert fs inp = Ok None /\
     (forall w h n m, stoi w = Ok n -> stoi h = Ok m -> rd_expand_dimensions convert now prog writable analysis junk fs inp out w h = Ok (0, fs)) /\
     (forall B, rd_compare convert fs inp B = Ok None)).
Proof.
  intros. split.
  - intros H. unfold rd_no_data, rd_geotransform, rd_projection, rd_hist, rd_compare, rd_no_data_show, rd_geotransform_show, rd_processing_history, route, peek, loadGDAL. rewrite H. cbn [bind main0].
    do 4 (split; [reflexivity|]). split; [|do 3 (split; [reflexivity|]); reflexivity]. intros w h n m Hw Hh. unfold rd_expand_dimensions, route. rewrite Hw, Hh, H. reflexivity.
  - intros ds H HT. unfold rd_no_data, rd_geotransform, rd_projection, rd_hist, rd_compare, route. rewrite H, HT.
    do 4 (split; [reflexivity|]). split; [|reflexivity]. intros w h n m Hw Hh. unfold rd_expand_dimensions, route. rewrite Hw, Hh, H, HT. reflexivity.
Qed.
Print Assumptions C95_route.

(** C95. rd_no_data <in> <out> <text>: the file written has the type, size, cells, projection and georeference of the input; its NoData value is the integer at the start of
    the text, exactly that if the type can hold it (for 32 bit floats: the nearest). The old NoData value disappears: cells that had it become data. *)
Theorem C95_no_data : forall convert now prog writable analysis fs inp out text ds n, fs inp = Some ds -> readable ds -> writable out = true -> stoi text = Ok n ->
  exists fs' ds', rd_no_data convert now prog writable analysis fs inp out text = Ok (0, fs') /\ fs' out = Some ds' /\ (forall f, f <> out -> fs' f = fs f) /\
    same_cells ds ds' /\ ds_proj ds' = ds_proj ds /\ ds_geo ds' = Some (geo_of ds) /\ one_line now prog analysis ds' /\
    (ds_type ds = Float64 -> ds_nodata ds' = Some (f64_of_Z n)) /\ (ds_type ds = Float32 -> ds_nodata ds' = Some (f64_of_f32 (f32_of_Z n))) /\
    (is_int (ds_type ds) = true -> dmin (ds_type ds) <= n <= dmax (ds_type ds) -> ds_nodata ds' = Some (f64_of_Z n)) /\
    (is_int (ds_type ds) = true -> exists m, ds_nodata ds' = Some (f64_of_Z m) /\ dmin (ds_type ds) <= m <= dmax (ds_type ds) /\ m mod dcount (ds_type ds) = n mod dcount (ds_type ds)).
Proof.
  intros convert now prog writable analysis fs inp out text ds n Hf (Wf & HT & Hg & nd & Hn) HW Ht. destruct (opened convert fs inp ds nd Hf Wf HT Hn) as (a0 & l & A0 & A1 & HL & HC).
  unfold rd_no_data, route, main0. rewrite Hf, HT, A0. cbn [bind]. rewrite A1. cbn [bind]. rewrite Ht. cbn [bind]. unfold set_nd. cbn [g_data g_file g_type g_w g_h g_xoff g_yoff g_nd g_geo g_proj g_meta].
  destruct Wf as [W1 W2].
  destruct (saved now prog writable analysis fs (ds_type ds) (ds_w ds) (ds_h ds) (cast_int (ds_type ds) n) (geo_of ds) (ds_proj ds) inp l out HT ltac:(lia) ltac:(lia) HL Hg HW)
    as (fs' & ds' & S1 & S2 & S3 & S4 & S5 & S6 & S7 & S8 & S9 & S10 & S11).
  rewrite S1. cbn [bind snd]. exists fs', ds'. split; [reflexivity|]. split; [exact S2|]. split; [exact S3|].
  split; [split; [exact S4|split; [exact S5|split; [exact S6|intros x y Hx Hy; rewrite S7; apply HC; assumption]]]|]. split; [exact S10|]. split; [exact S9|]. split; [exact S11|].
  rewrite S8. assert (IN : is_int (ds_type ds) = true -> cast_int (ds_type ds) n = VI (wrap_to (ds_type ds) n)) by (destruct (ds_type ds); try discriminate; reflexivity).
  split; [intros E; rewrite E; reflexivity|]. split; [intros E; rewrite E; reflexivity|].
  assert (DC : 0 < dcount (ds_type ds)) by (destruct (ds_type ds); cbn; lia).
  split; [intros Hi Hr|intros Hi]; rewrite IN by exact Hi; cbn [to_double].
  - do 2 f_equal. unfold wrap_to. unfold dmax in Hr. rewrite Z.mod_small by lia. lia.
  - eexists. split; [reflexivity|]. unfold wrap_to, dmax. pose proof (Z.mod_pos_bound (n - dmin (ds_type ds)) _ DC). split; [lia|].
    rewrite Z.add_mod_idemp_r by lia. f_equal. lia.
Qed.
Print Assumptions C95_no_data.

(** a decimal number as text: spaces, sign, digits, anything that does not start with a digit *)
Fixpoint positional (l : list Z) : Z := match l with [] => 0 | d :: r => d * 10 ^ Z.of_nat (List.length r) + positional r end.
Definition digit_text (l : list Z) : string := fold_right (fun d s => String (ascii_of_nat (Z.to_nat (48 + d))) s) EmptyString l.
Lemma digit_of d : 0 <= d <= 9 -> digit (ascii_of_nat (Z.to_nat (48 + d))) = Some d.
Proof. intros H. assert (E : d = 0 \/ d = 1 \/ d = 2 \/ d = 3 \/ d = 4 \/ d = 5 \/ d = 6 \/ d = 7 \/ d = 8 \/ d = 9) by lia. destruct E as [->|[->|[->|[->|[->|[->|[->|[->|[->| ->]]]]]]]]]; reflexivity. Qed.
Lemma digits_text l rest : Forall (fun d => 0 <= d <= 9) l -> starts_with_digit rest = false -> forall acc,
  digits (String.append (digit_text l) rest) acc = acc * 10 ^ Z.of_nat (List.length l) + positional l.
Proof.
  intros HF HR. induction l as [|d l IH]; intros acc.
  - change (digits rest acc = acc * 1 + 0). destruct rest as [|a r]; [cbn [digits]; lia|]. cbn [starts_with_digit] in HR. cbn [digits]. destruct (digit a); [discriminate|lia].
  - inversion HF as [|? ? Hd Hl]; subst. change (digit_text (d :: l)) with (String (ascii_of_nat (Z.to_nat (48 + d))) (digit_text l)). cbn [String.append digits]. rewrite digit_of by exact Hd.
    rewrite IH by exact Hl. cbn [List.length positional]. rewrite Nat2Z.inj_succ, Z.pow_succ_r by lia. ring.
Qed.
Definition sign_text (neg : bool) : string := if neg then "-"%string else EmptyString.
Fixpoint blanks (n : nat) : string := match n with O => EmptyString | S n => String " " (blanks n) end.
Theorem C95_stoi : forall (k : nat) (neg : bool) (l : list Z) (rest : string), l <> [] -> Forall (fun d => 0 <= d <= 9) l -> starts_with_digit rest = false ->
  let n := (if neg then -1 else 1) * positional l in
  stoi (String.append (blanks k) (String.append (sign_text neg) (String.append (digit_text l) rest))) = if (- 2 ^ 31 <=? n) && (n <? 2 ^ 31) then Ok n else Thrown.
Proof.
  intros k neg l rest Hl HF HR n. subst n. unfold stoi. destruct l as [|d l]; [contradiction|]. set (body := String.append (digit_text (d :: l)) rest).
  inversion HF as [|? ? Hd HF']; subst.
  assert (B : exists a r, body = String a r /\ digit a = Some d).
  { exists (ascii_of_nat (Z.to_nat (48 + d))), (String.append (digit_text l) rest). split; [reflexivity|apply digit_of; exact Hd]. }
  assert (D : digits body 0 = positional (d :: l)) by (unfold body; rewrite digits_text by assumption; lia).
  destruct B as (a & r & EB & Ea). 
  assert (NS : isspace a = false /\ Ascii.eqb a "-" = false /\ Ascii.eqb a "+" = false).
  { clear - Ea. unfold digit in Ea. destruct (((48 <=? Z.of_nat (nat_of_ascii a)) && (Z.of_nat (nat_of_ascii a) <=? 57))%Z) eqn:E; [|discriminate].
    rewrite andb_true_iff, !Z.leb_le in E. split; [|split].
    - unfold isspace. cbv zeta. apply orb_false_iff. split; [|apply Nat.eqb_neq; lia]. apply andb_false_iff. right. apply Nat.leb_gt. lia.
    - apply Ascii.eqb_neq. intros ->. cbn in E. lia.
    - apply Ascii.eqb_neq. intros ->. cbn in E. lia. }
  destruct NS as (N1 & N2 & N3).
  assert (SK : forall s : string, skip_space (String.append (blanks k) s) = skip_space s) by (induction k as [|k IH]; intros s; [reflexivity|apply IH]). rewrite SK.
  destruct neg; cbn [sign_text String.append].
  - cbn [skip_space]. change (isspace "-") with false. cbv iota. change (Ascii.eqb "-" "-") with true. cbv iota. rewrite D. rewrite EB. cbn [starts_with_digit]. rewrite Ea.
    replace (-1 * positional (d :: l)) with (- positional (d :: l)) by ring. reflexivity.
  - rewrite EB. cbn [skip_space]. rewrite N1. rewrite N2, N3. rewrite <- EB. rewrite D. rewrite EB. cbn [starts_with_digit]. rewrite Ea. rewrite Z.mul_1_l. reflexivity.
Qed.
Print Assumptions C95_stoi.

(** "The NoData value of the output is the one given" is false: fractions and exponents are dropped, values outside the range of the type wrap around, and what does not begin
    with an integer is an error. *)
Theorem C95_no_data_refuted : forall convert now prog writable analysis fs inp out ds, fs inp = Some ds -> readable ds -> writable out = true ->
  (ds_type ds = Float64 -> exists fs' ds', rd_no_data convert now prog writable analysis fs inp out "-3.4e38" = Ok (0, fs') /\ fs' out = Some ds' /\ ds_nodata ds' = Some (f64_of_Z (-3))) /\
  (ds_type ds = Uint8 -> exists fs' ds', rd_no_data convert now prog writable analysis fs inp out "-9999" = Ok (0, fs') /\ fs' out = Some ds' /\ ds_nodata ds' = Some (f64_of_Z 241)) /\
  (forall text, In text ["nan"; "inf"; ".5"; "-9999999999"]%string -> rd_no_data convert now prog writable analysis fs inp out text = Thrown).
Proof.
  intros convert now prog writable analysis fs inp out ds Hf R HW. split; [|split].
  - intros E. destruct (C95_no_data convert now prog writable analysis fs inp out "-3.4e38" ds (-3) Hf R HW eq_refl) as (fs' & ds' & A1 & A2 & _ & _ & _ & _ & _ & A8 & _). exists fs', ds'. auto.
  - intros E. destruct (C95_no_data convert now prog writable analysis fs inp out "-9999" ds (-9999) Hf R HW eq_refl) as (fs' & ds' & A1 & A2 & _ & _ & _ & _ & _ & _ & _ & _ & A8). exists fs', ds'.
    rewrite E in A8. destruct (A8 eq_refl) as (m & M1 & M2 & M3). change (dmin Uint8) with 0 in M2. change (dmax Uint8) with 255 in M2. change (dcount Uint8) with 256 in M3.
    change (-9999 mod 256) with 241 in M3. rewrite Z.mod_small in M3 by lia. subst m. auto.
  - intros text Ht. destruct R as (Wf & HT & Hg & nd & Hn). destruct (opened convert fs inp ds nd Hf Wf HT Hn) as (a0 & l & A0 & A1 & HL & HC).
    unfold rd_no_data, route, main0. rewrite Hf, HT, A0. cbn [bind]. rewrite A1. cbn [bind].
    destruct Ht as [<-|[<-|[<-|[<-|[]]]]]; reflexivity.
Qed.
Print Assumptions C95_no_data_refuted.

(** the georeference with the given coefficients: "x" keeps the old one *)
Definition coefs_spec (stod : string -> res Qc) (args : list string) (g g' : list Qc) : Prop :=
  List.length g' = List.length g /\ forall i, (i < List.length args)%nat ->
    if String.eqb (nth i args EmptyString) "x" then nth i g' 0%Qc = nth i g 0%Qc else stod (nth i args EmptyString) = Ok (nth i g' 0%Qc).
Lemma nth_upd (g : list Qc) i v j : (i < List.length g)%nat -> nth j (upd_nth i v g) 0%Qc = if Nat.eqb j i then v else nth j g 0%Qc.
Proof.
  revert i j. induction g as [|x g IH]; intros i j H; [cbn in H; lia|]. destruct i as [|i], j as [|j]; cbn [upd_nth nth Nat.eqb]; try reflexivity. apply IH. cbn in H; lia.
Qed.
Lemma set_coefs_spec stod args : forall i g, (i + List.length args <= List.length g)%nat -> (forall s, In s args -> s = "x"%string \/ exists v, stod s = Ok v) ->
  exists g', set_coefs stod args i g = Ok g' /\ List.length g' = List.length g /\
    (forall j, (j < i)%nat -> nth j g' 0%Qc = nth j g 0%Qc) /\
    forall j, (j < List.length args)%nat -> if String.eqb (nth j args EmptyString) "x" then nth (i + j) g' 0%Qc = nth (i + j) g 0%Qc else stod (nth j args EmptyString) = Ok (nth (i + j) g' 0%Qc).
Proof.
  induction args as [|s r IH]; intros i g HL HA; cbn [set_coefs].
  - exists g. split; [reflexivity|]. split; [reflexivity|]. split; [reflexivity|]. intros j Hj. cbn in Hj; lia.
  - cbn [List.length] in HL. destruct (String.eqb s "x") eqn:E.
    + destruct (IH (S i) g ltac:(lia) (fun t Ht => HA t (or_intror Ht))) as (g' & A1 & A2 & A3 & A4). exists g'. split; [exact A1|]. split; [exact A2|].
      split; [intros j Hj; apply A3; lia|]. intros [|j] Hj; cbn [nth].
      * rewrite E, Nat.add_0_r. apply A3. lia.
      * rewrite <- Nat.add_succ_comm. apply A4. cbn in Hj; lia.
    + destruct (HA s (or_introl eq_refl)) as [->|[v Hv]]; [discriminate|]. rewrite Hv. cbn [bind]. unfold wr. rewrite (proj2 (Z.leb_le 0 (Z.of_nat i))), (proj2 (Z.ltb_lt (Z.of_nat i) _)) by lia.
      rewrite Nat2Z.id. cbn [andb bind].
      assert (LL : List.length (upd_nth i v g) = List.length g).
      { clear - HL. revert i HL. induction g as [|x g IH]; intros [|i] HL; cbn [upd_nth List.length] in *; try reflexivity. rewrite (IH i) by lia. reflexivity. }
      destruct (IH (S i) (upd_nth i v g) ltac:(lia) (fun t Ht => HA t (or_intror Ht))) as (g' & A1 & A2 & A3 & A4). exists g'.
      split; [|split; [congruence|]].
      { exact A1. }
      split; [intros j Hj; rewrite A3 by lia; rewrite nth_upd by lia; destruct (Nat.eqb_spec j i); [lia|reflexivity]|].
      intros [|j] Hj; cbn [nth].
      * rewrite E, Nat.add_0_r, A3 by lia. rewrite nth_upd, Nat.eqb_refl by lia. exact Hv.
      * specialize (A4 j ltac:(cbn in Hj; lia)). rewrite <- Nat.add_succ_comm. destruct (String.eqb (nth j r EmptyString) "x"); [|exact A4]. rewrite A4, nth_upd by lia.
        destruct (Nat.eqb_spec (S i + j) i); [lia|reflexivity].
Qed.

(** C95. rd_geotransform <in> <out> <six coefficients>: the coefficients are replaced where the argument is not "x", everything else is kept. *)
Theorem C95_geotransform : forall convert now prog writable stod analysis fs inp out args ds nd, fs inp = Some ds -> readable ds -> of_double (ds_type ds) (GetNoDataValue ds) = Ok nd ->
  writable out = true -> List.length args = 6%nat -> (forall s, In s args -> s = "x"%string \/ exists v, stod s = Ok v) ->
  exists fs' ds' g', rd_geotransform convert now prog writable stod analysis fs inp out args = Ok (0, fs') /\ fs' out = Some ds' /\ (forall f, f <> out -> fs' f = fs f) /\
    same_cells ds ds' /\ ds_proj ds' = ds_proj ds /\ ds_nodata ds' = Some (to_double nd) /\ one_line now prog analysis ds' /\ ds_geo ds' = Some g' /\ coefs_spec stod args (geo_of ds) g'.
Proof.
  intros convert now prog writable stod analysis fs inp out args ds nd Hf (Wf & HT & Hg & _) Hn HW HL6 HA. destruct (opened convert fs inp ds nd Hf Wf HT Hn) as (a0 & l & A0 & A1 & HL & HC).
  unfold rd_geotransform, route, main0. rewrite Hf, HT, A0. cbn [bind]. rewrite A1. cbn [bind g_geo].
  destruct (set_coefs_spec stod args 0 (geo_of ds) ltac:(lia) HA) as (g' & G1 & G2 & _ & G4). rewrite G1. cbn [bind]. unfold set_geo. cbn [g_data g_file g_type g_w g_h g_xoff g_yoff g_nd g_geo g_proj g_meta].
  destruct Wf as [W1 W2].
  destruct (saved now prog writable analysis fs (ds_type ds) (ds_w ds) (ds_h ds) nd g' (ds_proj ds) inp l out HT ltac:(lia) ltac:(lia) HL ltac:(congruence) HW)
    as (fs' & ds' & S1 & S2 & S3 & S4 & S5 & S6 & S7 & S8 & S9 & S10 & S11).
  rewrite S1. cbn [bind snd]. exists fs', ds', g'. split; [reflexivity|]. split; [exact S2|]. split; [exact S3|].
  split; [split; [exact S4|split; [exact S5|split; [exact S6|intros x y Hx Hy; rewrite S7; apply HC; assumption]]]|]. split; [exact S10|]. split; [exact S8|]. split; [exact S11|].
  split; [exact S9|]. split; [exact G2|]. exact G4.
Qed.
Print Assumptions C95_geotransform.

(** C95. rd_projection <in> <out> <template>: the projection is the text after ":" or that of the template file - if that file can be opened as 8 bit integers -, everything
    else is kept. *)
Theorem C95_projection : forall convert now prog writable analysis fs inp out ds nd, fs inp = Some ds -> readable ds -> of_double (ds_type ds) (GetNoDataValue ds) = Ok nd -> writable out = true ->
  (forall templ p, templ = String.append ":" p \/ (String.get 0 templ <> Some ":"%char /\ exists t v, fs templ = Some t /\ wf t /\ of_double Int8 (GetNoDataValue t) = Ok v /\ ds_proj t = p) ->
   exists fs' ds', rd_projection convert now prog writable analysis fs inp out templ = Ok (0, fs') /\ fs' out = Some ds' /\ (forall f, f <> out -> fs' f = fs f) /\
    same_cells ds ds' /\ ds_proj ds' = p /\ ds_nodata ds' = Some (to_double nd) /\ one_line now prog analysis ds' /\ ds_geo ds' = Some (geo_of ds)) /\
  (forall templ, String.get 0 templ <> Some ":"%char -> fs templ = None -> rd_projection convert now prog writable analysis fs inp out templ = Thrown).
Proof.
  intros convert now prog writable analysis fs inp out ds nd Hf (Wf & HT & Hg & _) Hn HW. destruct (opened convert fs inp ds nd Hf Wf HT Hn) as (a0 & l & A0 & A1 & HL & HC). split.
  - intros templ p Hp. unfold rd_projection, route, main0. rewrite Hf, HT, A0. cbn [bind]. rewrite A1. cbn [bind].
    assert (P : (match templ with
              | String c r => if Ascii.eqb c ":" then Ok r else do t <- peek convert fs templ; Ok (g_proj t)
              | EmptyString => do t <- peek convert fs templ; Ok (g_proj t)
              end) = Ok p).
    { assert (K : forall t v, fs templ = Some t -> wf t -> of_double Int8 (GetNoDataValue t) = Ok v -> (do t <- peek convert fs templ; Ok (g_proj t)) = Ok (ds_proj t)).
      { intros t v T1 [T2 T3] T4. unfold peek, loadGDAL. rewrite T1, get_meta. cbn [bind]. rewrite T4. cbn [bind]. rewrite !i32_ok by lia. reflexivity. }
      destruct Hp as [->|[Hc (t & v & T1 & T2 & T3 & <-)]]; [reflexivity|]. specialize (K t v T1 T2 T3). destruct templ as [|c r]; [exact K|].
      cbn [String.get] in Hc. destruct (Ascii.eqb_spec c ":"); [congruence|exact K]. }
    rewrite P. cbn [bind]. unfold set_proj. cbn [g_data g_file g_type g_w g_h g_xoff g_yoff g_nd g_geo g_proj g_meta]. destruct Wf as [W1 W2].
    destruct (saved now prog writable analysis fs (ds_type ds) (ds_w ds) (ds_h ds) nd (geo_of ds) p inp l out HT ltac:(lia) ltac:(lia) HL Hg HW)
      as (fs' & ds' & S1 & S2 & S3 & S4 & S5 & S6 & S7 & S8 & S9 & S10 & S11).
    rewrite S1. cbn [bind snd]. exists fs', ds'. split; [reflexivity|]. split; [exact S2|]. split; [exact S3|].
    split; [split; [exact S4|split; [exact S5|split; [exact S6|intros x y Hx Hy; rewrite S7; apply HC; assumption]]]|]. split; [exact S10|]. split; [exact S8|]. split; [exact S11|exact S9].
  - intros templ Hc Ht. unfold rd_projection, route, main0. rewrite Hf, HT, A0. cbn [bind]. rewrite A1. cbn [bind].
    assert (K : (do t <- peek convert fs templ; Ok (g_proj t)) = Thrown) by (unfold peek, loadGDAL; rewrite Ht; reflexivity).
    destruct templ as [|c r]; [rewrite K; reflexivity|]. cbn [String.get] in Hc. destruct (Ascii.eqb_spec c ":"); [congruence|]. rewrite K. reflexivity.
Qed.
Print Assumptions C95_projection.

(** "The programs show a file's NoData value, georeference and history" is false. They open it as 8 bit integers: undefined if the file has no NoData value or an integer one
    outside -128..127. If the value fits, rd_no_data prints the character with that code, and rd_processing_history always says that there is no history. The georeference and the
    size are then shown rightly. *)
Theorem C95_display_refuted : forall convert fs inp ds, fs inp = Some ds -> wf ds ->
  ((ds_nodata ds = None \/ exists z, Z.abs z <= 2 ^ 53 /\ ds_nodata ds = Some (f64_of_Z z) /\ ~ -128 <= z <= 127) ->
     rd_no_data_show convert fs inp = Undef /\ rd_geotransform_show convert fs inp = Undef /\ rd_processing_history convert fs inp = Undef) /\
  (forall z, -128 <= z <= 127 -> ds_nodata ds = Some (f64_of_Z z) ->
     rd_no_data_show convert fs inp = Ok (String (ascii_of_N (Z.to_N (z mod 256))) EmptyString) /\
     rd_geotransform_show convert fs inp = Ok (geo_of ds, ds_w ds, ds_h ds) /\ rd_processing_history convert fs inp = Ok None).
Proof.
  intros convert fs inp ds Hf [W1 W2]. split.
  - intros H. assert (E : peek convert fs inp = Undef).
    { destruct (C90_nodata_range convert Int8 fs inp ds 0 0 0 0 false false Hf eq_refl) as [N1 N2]. unfold peek. destruct H as [H|(z & Hz & Hn & Hr)].
      - apply N2; [exact H|discriminate].
      - apply (N1 z Hz Hn). exact Hr. }
    unfold rd_no_data_show, rd_geotransform_show, rd_processing_history. rewrite E. auto.
  - intros z Hz Hn. assert (E : of_double Int8 (GetNoDataValue ds) = Ok (VI z)).
    { unfold GetNoDataValue. rewrite Hn, of_double_int by (reflexivity || lia). change (dmin Int8) with (-128). change (dmax Int8) with 127.
      rewrite (proj2 (Z.leb_le _ _)), (proj2 (Z.leb_le _ _)) by lia. reflexivity. }
    unfold rd_no_data_show, rd_geotransform_show, rd_processing_history, peek, loadGDAL. rewrite Hf, get_meta. cbn [bind]. rewrite E. cbn [bind]. rewrite !i32_ok by lia.
    cbn [bind andb]. rewrite !Z.sub_0_r. rewrite !(proj2 (Z.leb_gt (ds_w ds) (0 + 0))), !(proj2 (Z.leb_gt (ds_h ds) (0 + 0))) by lia. cbn [bind andb Z.eqb]. split; [reflexivity|]. split; reflexivity.
Qed.
Print Assumptions C95_display_refuted.

(** C95. rd_expand_dimensions: the raster in the upper left corner of the new size, its NoData value elsewhere; a size smaller than the raster's is refused, though with exit
    status 0. *)
Theorem C95_expand : forall convert now prog writable analysis junk fs inp out w h ds nd nw nh, fs inp = Some ds -> readable ds -> of_double (ds_type ds) (GetNoDataValue ds) = Ok nd ->
  writable out = true -> (forall n, List.length (junk n) = n) -> stoi w = Ok nw -> stoi h = Ok nh ->
  (ds_w ds <= nw <= 2 ^ 31 - 3 -> ds_h ds <= nh -> nw * nh < 2 ^ 31 ->
   exists fs' ds', rd_expand_dimensions convert now prog writable analysis junk fs inp out w h = Ok (0, fs') /\ fs' out = Some ds' /\ (forall f, f <> out -> fs' f = fs f) /\
     ds_type ds' = ds_type ds /\ ds_w ds' = nw /\ ds_h ds' = nh /\
     (forall x y, 0 <= x < nw -> 0 <= y < nh -> ds_cell ds' x y = if inGrid (ds_w ds) (ds_h ds) x y then ds_cell ds x y else nd) /\
     ds_proj ds' = ds_proj ds /\ ds_nodata ds' = Some (to_double nd) /\ one_line now prog analysis ds' /\ ds_geo ds' = Some (geo_of ds)) /\
  (nw < ds_w ds \/ nh < ds_h ds -> rd_expand_dimensions convert now prog writable analysis junk fs inp out w h = Ok (0, fs)).
Proof.
  intros convert now prog writable analysis junk fs inp out w h ds nd nw nh Hf (Wf & HT & Hg & _) Hn HW HJ Hw Hh. destruct (opened convert fs inp ds nd Hf Wf HT Hn) as (a0 & l & A0 & A1 & HL & HC).
  destruct Wf as [W1 W2]. unfold rd_expand_dimensions. rewrite Hw, Hh. cbn [bind]. unfold route, main0. rewrite Hf, HT, A0. cbn [bind]. rewrite A1. cbn [bind].
  cbn [g_data g_file g_type g_w g_h g_xoff g_yoff g_nd g_geo g_proj g_meta]. split.
  - intros Bw Bh Bs. destruct (Z.ltb_spec nw (ds_w ds)); [lia|]. destruct (Z.ltb_spec nh (ds_h ds)); [lia|].
    set (a := mkA (ds_w ds) (ds_h ds) nd NO_I (nshift_table (ds_w ds)) true l).
    assert (WA : well_formed a) by (constructor; subst a; cbn [a_w a_h a_data a_nshift]; try lia; try nia; reflexivity).
    destruct (C13_expand junk a nw nh nd HJ WA eq_refl) as (b & B1 & B2 & B3 & B4 & B5 & B6); try (subst a; cbn [a_w a_h]; nia).
    rewrite B1. cbn [bind]. rewrite B3, B4, B5. subst a. cbn [a_nodata a_w a_h] in *. pose proof (wf_len b B2) as LB. rewrite B3, B4 in LB.
    destruct (saved now prog writable analysis fs (ds_type ds) nw nh nd (geo_of ds) (ds_proj ds) inp (a_data b) out HT ltac:(lia) ltac:(lia) LB Hg HW)
      as (fs' & ds' & S1 & S2 & S3 & S4 & S5 & S6 & S7 & S8 & S9 & S10 & S11).
    rewrite S1. cbn [bind snd]. exists fs', ds'. split; [reflexivity|]. split; [exact S2|]. split; [exact S3|]. split; [exact S4|]. split; [exact S5|]. split; [exact S6|].
    split; [|split; [exact S10|split; [exact S8|split; [exact S11|exact S9]]]]. intros x y Hx Hy. rewrite S7. specialize (B6 x y Hx Hy). unfold cell in B6. rewrite B3, B4 in B6. cbn [a_data a_w a_h] in B6.
    replace (inGrid nw nh x y) with true in B6 by (symmetry; unfold inGrid; rewrite !andb_true_iff, !Z.leb_le, !Z.ltb_lt; lia).
    destruct (inGrid (ds_w ds) (ds_h ds) x y) eqn:G.
    + unfold inGrid in G. rewrite !andb_true_iff, !Z.leb_le, !Z.ltb_lt in G. assert (LT : (Z.to_nat (y * ds_w ds + x) < List.length l)%nat) by (assert (0 <= y * ds_w ds + x < ds_w ds * ds_h ds) by nia; lia).
      erewrite nth_error_nth; [|exact (eq_trans B6 (nth_error_nth' l (VI 0) LT))]. apply HC; lia.
    + apply nth_error_nth. exact B6.
  - intros H. destruct (Z.ltb_spec nw (ds_w ds)); [reflexivity|]. destruct (Z.ltb_spec nh (ds_h ds)); [reflexivity|lia].
Qed.
Print Assumptions C95_expand.

(** the positions of the cells, and how many of them satisfy a test *)
Definition how_many (w h : Z) (p : Z -> Z -> bool) : Z :=
  Z.of_nat (List.length (filter (fun q => p (fst q) (snd q)) (flat_map (fun y => map (fun x => (x, y)) (zrange 0 (Z.to_nat w))) (zrange 0 (Z.to_nat h))))).
(** what a program reads in the cells of a file *)
Lemma data_is ds l : 0 <= ds_w ds -> 0 <= ds_h ds -> Z.of_nat (List.length l) = ds_w ds * ds_h ds ->
  (forall x y, 0 <= x < ds_w ds -> 0 <= y < ds_h ds -> nth (Z.to_nat (y * ds_w ds + x)) l (VI 0) = ds_cell ds x y) -> l = window (ds_cell ds) 0 0 (ds_w ds) (ds_h ds).
Proof.
  intros Hw Hh HL HC. transitivity (window (cell_at (ds_w ds) l) 0 0 (ds_w ds) (ds_h ds)); [symmetry; apply window_id; lia|].
  apply window_ext. intros x y Hx Hy. rewrite !Z.add_0_l. apply HC; assumption.
Qed.
Lemma window_positions (cell : Z -> Z -> val) w h : window cell 0 0 w h =
  map (fun q => cell (fst q) (snd q)) (flat_map (fun y => map (fun x => (x, y)) (zrange 0 (Z.to_nat w))) (zrange 0 (Z.to_nat h))).
Proof.
  unfold window. induction (zrange 0 (Z.to_nat h)) as [|y r IH]; [reflexivity|]. cbn [flat_map]. rewrite map_app, <- IH. f_equal. rewrite map_map. apply map_ext. intros x. reflexivity.
Qed.
Lemma size_of w h nd l : 0 <= w -> 0 <= h -> w * h < 2 ^ 31 -> size (mkA w h nd NO_I [] true l : arr val) = Ok (w * h).
Proof.
  intros Hw Hh Hs. assert (0 <= w * h) by nia. unfold size. cbn [a_w a_h]. rewrite (proj2 (Z.leb_le _ _)), (proj2 (Z.ltb_lt _ _)) by lia. cbn [andb]. rewrite w32_id by lia. reflexivity.
Qed.

Lemma rd_mid {A} (pre : list A) d suf : rd (pre ++ d :: suf) (Z.of_nat (List.length pre)) = Ok d.
Proof. apply rd_Ok, ix_app_mid. Qed.
(** the loop of rd_compare over two lists of which the second is at least as long *)
Lemma compare_loop (p : val -> val -> bool) suf : forall pre pre2 suf2 c, List.length pre = List.length pre2 -> (List.length suf <= List.length suf2)%nat ->
  forM (zrange (Z.of_nat (List.length pre)) (List.length suf)) (fun i c => do x <- rd (pre ++ suf) i; do y <- rd (pre2 ++ suf2) i; Ok (if p x y then c + 1 else c)) c
  = Ok (c + Z.of_nat (List.length (filter (fun q => p (fst q) (snd q)) (combine suf suf2)))).
Proof.
  induction suf as [|d suf IH]; intros pre pre2 suf2 c H1 H2; cbn [List.length zrange forM combine filter]; [f_equal; lia|].
  destruct suf2 as [|e suf2]; [cbn in H2; lia|]. rewrite rd_mid. cbn [bind]. rewrite H1 at 1. rewrite rd_mid. cbn [bind].
  specialize (IH (pre ++ [d]) (pre2 ++ [e]) suf2 (if p d e then c + 1 else c)). rewrite !app_length in IH. cbn [List.length] in IH. rewrite <- !app_assoc in IH. cbn [app] in IH.
  replace (Z.of_nat (List.length pre) + 1) with (Z.of_nat (List.length pre + 1)) by lia. rewrite IH by (cbn in H2; lia). cbn [combine filter fst snd]. destruct (p d e); cbn [List.length]; f_equal; lia.
Qed.
Lemma compare_short (p : val -> val -> bool) suf : forall pre pre2 suf2 c, List.length pre = List.length pre2 -> (List.length suf2 < List.length suf)%nat ->
  forM (zrange (Z.of_nat (List.length pre)) (List.length suf)) (fun i c => do x <- rd (pre ++ suf) i; do y <- rd (pre2 ++ suf2) i; Ok (if p x y then c + 1 else c)) c = Undef.
Proof.
  induction suf as [|d suf IH]; intros pre pre2 suf2 c H1 H2; [cbn in H2; lia|]. cbn [List.length zrange forM]. rewrite rd_mid. cbn [bind].
  destruct suf2 as [|e suf2].
  - rewrite app_nil_r. unfold rd. rewrite (proj2 (Z.ltb_ge _ _)) by lia. rewrite andb_false_r. reflexivity.
  - rewrite H1 at 1. rewrite rd_mid. cbn [bind].
    specialize (IH (pre ++ [d]) (pre2 ++ [e]) suf2 (if p d e then c + 1 else c)). rewrite !app_length in IH. cbn [List.length] in IH. rewrite <- !app_assoc in IH. cbn [app] in IH.
    replace (Z.of_nat (List.length pre) + 1) with (Z.of_nat (List.length pre + 1)) by lia. apply IH; [lia|cbn in H2; lia].
Qed.

(** are two values of the same type different numbers? NaN differs from itself *)
Definition different (v w : val) : bool :=
  match v, w with VI a, VI b => negb (a =? b) | VF a, VF b => negb (Beqb a b) | VD a, VD b => negb (Beqb a b) | _, _ => true end.
Lemma differ_same T v w : has_gdal_type T = true -> typed T v -> typed T w -> differ T T v w = different v w.
Proof.
  intros HT Hv Hw. unfold differ, is_type. destruct T; try discriminate HT; destruct v as [a|a|a], w as [b|b|b]; cbn [typed] in Hv, Hw; try contradiction; cbn [dtype_eqb orb to_Z to_double to_f32 different]; try reflexivity.
  cbn in Hv, Hw. rewrite !Z.mod_small by lia. reflexivity.
Qed.

Lemma of_double_typed T x v : of_double T x = Ok v -> typed T v.
Proof.
  destruct T; cbn [of_double]; intros H; try discriminate H; try (injection H as <-; exact I).
  all: match type of H with (if ?c then _ else _) = _ => destruct c eqn:E; [|discriminate H] end; injection H as <-; cbn [typed]; rewrite !andb_true_iff, !Z.leb_le in E; lia.
Qed.

(** C95. rd_compare with two files of the same type and size: exactly the cells that differ are counted - none of them if the files have the same cells, unless there is a NaN -
    and a difference of the georeferences, NoData values and projections is reported. *)
Theorem C95_compare : forall convert fs A B a b na nb, fs A = Some a -> fs B = Some b -> readable a -> readable b -> of_double (ds_type a) (GetNoDataValue a) = Ok na ->
  of_double (ds_type b) (GetNoDataValue b) = Ok nb -> ds_type b = ds_type a -> ds_w b = ds_w a -> ds_h b = ds_h a -> ds_w a * ds_h a < 2 ^ 31 ->
  (forall x y, 0 <= x < ds_w a -> 0 <= y < ds_h a -> typed (ds_type a) (ds_cell a x y) /\ typed (ds_type a) (ds_cell b x y)) ->
  exists c, rd_compare convert fs A B = Ok (Some c) /\ cmp_count c = how_many (ds_w a) (ds_h a) (fun x y => different (ds_cell a x y) (ds_cell b x y)) /\
    (cmp_geo c = false <-> geo_of a = geo_of b) /\ (cmp_proj c = false <-> ds_proj a = ds_proj b) /\ cmp_w c = false /\ cmp_h c = false /\ cmp_nd c = different na nb.
Proof.
  intros convert fs A B a b na nb Ha Hb (Wa & Ta & _) (Wb & Tb & _) Na Nb ET EW EH Hs HT. destruct (opened convert fs A a na Ha Wa Ta Na) as (a0 & la & A0 & A1 & LA & CA).
  destruct (opened convert fs B b nb Hb Wb Tb Nb) as (b0 & lb & B0 & B1 & LB & CB). destruct Wa as [Wa1 Wa2], Wb as [Wb1 Wb2].
  unfold rd_compare, route. rewrite Ha, Ta, A0. cbn [bind]. rewrite Hb, Tb, B0. cbn [bind]. unfold compare_arrays. rewrite A1. cbn [bind]. rewrite B1. cbn [bind].
  cbn [g_data g_file g_type g_w g_h g_xoff g_yoff g_nd g_geo g_proj g_meta]. rewrite size_of by lia. cbn [bind]. rewrite <- LA, Nat2Z.id.
  pose proof (compare_loop (differ (ds_type a) (ds_type b)) la [] [] lb 0 eq_refl ltac:(nia)) as CL. change (Z.of_nat (List.length (@nil val))) with 0 in CL. cbn [app] in CL. rewrite CL. cbn [bind].
  eexists. split; [reflexivity|]. cbn [cmp_count cmp_geo cmp_nd cmp_proj cmp_w cmp_h]. split; [|split; [|split; [|split; [|split]]]].
  - rewrite Z.add_0_l. unfold how_many. do 2 f_equal. apply data_is in CA; [|lia|lia|exact LA]. apply data_is in CB; [|lia|lia|exact LB]. rewrite EW, EH in CB. subst la lb. rewrite !window_positions.
    set (ps := flat_map _ _).
    assert (IN : forall x y, In (x, y) ps -> 0 <= x < ds_w a /\ 0 <= y < ds_h a).
    { intros x y Hin. subst ps. apply in_flat_map in Hin. destruct Hin as (y' & Hy & Hin). apply in_map_iff in Hin. destruct Hin as (x' & E & Hx). injection E as -> ->.
      apply zrange_In in Hx, Hy. lia. }
    clearbody ps. rewrite ET. clear CL A1 B1 LA LB. induction ps as [|[x y] ps IH]; [reflexivity|]. cbn [map combine filter fst snd].
    destruct (IN x y (or_introl eq_refl)) as [Hx Hy]. specialize (IH (fun x y H => IN x y (or_intror H))).
    rewrite differ_same by (assumption || apply HT; assumption). destruct (different _ _); cbn [map List.length]; rewrite IH; reflexivity.
  - destruct (list_eq_dec _ _ _); split; congruence.
  - rewrite negb_false_iff, String.eqb_eq. reflexivity.
  - rewrite EW, Z.eqb_refl. reflexivity.
  - rewrite EH, Z.eqb_refl. reflexivity.
  - rewrite ET in *. apply differ_same; [exact Ta| |]; eapply of_double_typed; eassumption.
Qed.
Print Assumptions C95_compare.
Lemma how_many_0 w h p : how_many w h p = 0 <-> forall x y, 0 <= x < w -> 0 <= y < h -> p x y = false.
Proof.
  unfold how_many. set (ps := flat_map _ _). assert (IN : forall x y, In (x, y) ps <-> 0 <= x < w /\ 0 <= y < h).
  { intros x y. subst ps. rewrite in_flat_map. split.
    - intros (y' & Hy & Hin). apply in_map_iff in Hin. destruct Hin as (x' & E & Hx). injection E as -> ->. apply zrange_In in Hx, Hy. lia.
    - intros [Hx Hy]. exists y. split; [apply zrange_In; lia|]. apply in_map_iff. exists x. split; [reflexivity|apply zrange_In; lia]. }
  split.
  - intros E x y Hx Hy. destruct (p x y) eqn:P; [|reflexivity]. exfalso. assert (I : In (x, y) (filter (fun q => p (fst q) (snd q)) ps)) by (apply filter_In; split; [apply IN; auto|exact P]).
    destruct (filter _ ps); [exact I|cbn in E; lia].
  - intros H. replace (filter (fun q => p (fst q) (snd q)) ps) with (@nil (Z * Z)); [reflexivity|]. symmetry. destruct (filter _ ps) as [|[x y] r] eqn:E; [reflexivity|].
    exfalso. assert (I : In (x, y) (filter (fun q => p (fst q) (snd q)) ps)) by (rewrite E; left; reflexivity). apply filter_In in I. destruct I as [I P]. apply IN in I. cbn [fst snd] in P. rewrite H in P by lia. discriminate.
Qed.

(** C95. The count is 0 exactly if there is no cell that differs; for integers: exactly if the cells are the same. *)
Corollary C95_compare_equal : forall convert fs A B a b na nb, fs A = Some a -> fs B = Some b -> readable a -> readable b -> of_double (ds_type a) (GetNoDataValue a) = Ok na ->
  of_double (ds_type b) (GetNoDataValue b) = Ok nb -> ds_type b = ds_type a -> ds_w b = ds_w a -> ds_h b = ds_h a -> ds_w a * ds_h a < 2 ^ 31 -> is_int (ds_type a) = true ->
  (forall x y, 0 <= x < ds_w a -> 0 <= y < ds_h a -> typed (ds_type a) (ds_cell a x y) /\ typed (ds_type a) (ds_cell b x y)) ->
  exists c, rd_compare convert fs A B = Ok (Some c) /\ (cmp_count c = 0 <-> forall x y, 0 <= x < ds_w a -> 0 <= y < ds_h a -> ds_cell a x y = ds_cell b x y).
Proof.
  intros convert fs A B a b na nb Ha Hb Ra Rb Na Nb ET EW EH Hs HI HT. destruct (C95_compare convert fs A B a b na nb Ha Hb Ra Rb Na Nb ET EW EH Hs HT) as (c & C1 & C2 & _).
  exists c. split; [exact C1|]. rewrite C2, how_many_0. split; intros H x y Hx Hy; specialize (H x y Hx Hy); destruct (HT x y Hx Hy) as [T1 T2]; clear - H T1 T2 HI.
  - destruct (ds_type a); try discriminate HI; destruct (ds_cell a x y), (ds_cell b x y); cbn [typed] in T1, T2; try contradiction; cbn [different] in H; apply negb_false_iff, Z.eqb_eq in H; congruence.
  - rewrite H in *. destruct (ds_type a); try discriminate HI; destruct (ds_cell b x y); cbn [typed] in T2; try contradiction; cbn [different]; rewrite Z.eqb_refl; reflexivity.
Qed.
Print Assumptions C95_compare_equal.

(** "rd_compare tells in what ways two rasters differ" is false for rasters of different sizes or types, and for NaN: if the second has fewer cells, cells beyond its end are read;
    cells it has beyond the number of the first are not looked at; int32 -1 and uint32 4294967295 count as equal; a file that contains NaN differs from itself. *)
Theorem C95_compare_refuted : forall convert fs A B a b na nb, fs A = Some a -> fs B = Some b -> readable a -> readable b -> of_double (ds_type a) (GetNoDataValue a) = Ok na ->
  of_double (ds_type b) (GetNoDataValue b) = Ok nb -> ds_w a * ds_h a < 2 ^ 31 ->
  (ds_w b * ds_h b < ds_w a * ds_h a -> rd_compare convert fs A B = Undef) /\
  (ds_type b = ds_type a -> ds_w b = ds_w a -> ds_h a <= ds_h b -> (forall x y, 0 <= x < ds_w a -> 0 <= y < ds_h a -> is_int (ds_type a) = true /\ typed (ds_type a) (ds_cell a x y) /\ ds_cell b x y = ds_cell a x y) ->
     exists c, rd_compare convert fs A B = Ok (Some c) /\ cmp_count c = 0) /\
  (ds_type a = Int32 -> ds_type b = Uint32 -> ds_w b = ds_w a -> ds_h b = ds_h a -> (forall x y, ds_cell a x y = VI (-1) /\ ds_cell b x y = VI 4294967295) ->
     exists c, rd_compare convert fs A B = Ok (Some c) /\ cmp_count c = 0) /\
  (ds_type a = Float64 -> (forall x y, ds_cell a x y = VD B754_nan) -> exists c, rd_compare convert fs A A = Ok (Some c) /\ cmp_count c = ds_w a * ds_h a).
Proof.
  intros convert fs A B a b na nb Ha Hb (Wa & Ta & Ga & Ra) (Wb & Tb & Gb & Rb) Na Nb Hs. destruct (opened convert fs A a na Ha Wa Ta Na) as (a0 & la & A0 & A1 & LA & CA).
  destruct (opened convert fs B b nb Hb Wb Tb Nb) as (b0 & lb & B0 & B1 & LB & CB). pose proof Wa as [Wa1 Wa2]. pose proof Wb as [Wb1 Wb2].
  assert (RUN : rd_compare convert fs A B = do c <- forM (zrange 0 (List.length la)) (fun i c => do x <- rd la i; do y <- rd lb i; Ok (if differ (ds_type a) (ds_type b) x y then c + 1 else c)) 0;
        Ok (Some (mkCmp (if list_eq_dec Qc_eq_dec (geo_of a) (geo_of b) then false else true) (differ (ds_type a) (ds_type b) na nb)
              (negb (String.eqb (ds_proj a) (ds_proj b))) (negb (ds_w a =? ds_w b)) (negb (ds_h a =? ds_h b)) c))).
  { unfold rd_compare, route. rewrite Ha, Ta, A0. cbn [bind]. rewrite Hb, Tb, B0. cbn [bind]. unfold compare_arrays. rewrite A1. cbn [bind]. rewrite B1. cbn [bind].
    cbn [g_data g_file g_type g_w g_h g_xoff g_yoff g_nd g_geo g_proj g_meta]. rewrite size_of by lia. cbn [bind]. rewrite <- LA, Nat2Z.id. destruct (forM _ _ _); reflexivity. }
  assert (LONG : forall q, (List.length la <= List.length lb)%nat -> q = filter (fun q => differ (ds_type a) (ds_type b) (fst q) (snd q)) (combine la lb) ->
     exists c, rd_compare convert fs A B = Ok (Some c) /\ cmp_count c = Z.of_nat (List.length q)).
  { intros q HL ->. pose proof (compare_loop (differ (ds_type a) (ds_type b)) la [] [] lb 0 eq_refl HL) as CL. change (Z.of_nat (List.length (@nil val))) with 0 in CL. cbn [app] in CL.
    rewrite RUN, CL. cbn [bind]. eexists. split; [reflexivity|]. cbn [cmp_count]. lia. }
  split; [|split; [|split]].
  - intros H. pose proof (compare_short (differ (ds_type a) (ds_type b)) la [] [] lb 0 eq_refl ltac:(lia)) as CL. change (Z.of_nat (List.length (@nil val))) with 0 in CL. cbn [app] in CL.
    rewrite RUN, CL. reflexivity.
  - intros ET EW EH HC. destruct (LONG [] ltac:(nia)) as (c & C1 & C2); [|exists c; auto]. symmetry.
    assert (E : forall i, (i < List.length la)%nat -> nth i lb (VI 0) = nth i la (VI 0) /\ differ (ds_type a) (ds_type b) (nth i la (VI 0)) (nth i la (VI 0)) = false).
    { intros i Hi. assert (X : exists x y, 0 <= x < ds_w a /\ 0 <= y < ds_h a /\ i = Z.to_nat (y * ds_w a + x)).
      { exists (Z.of_nat i mod ds_w a), (Z.of_nat i / ds_w a). pose proof (Z.mod_pos_bound (Z.of_nat i) (ds_w a) ltac:(lia)) as M. pose proof (Z.div_mod (Z.of_nat i) (ds_w a) ltac:(lia)) as D.
        split; [lia|]. split; [split; [apply Z.div_pos; lia|apply Z.div_lt_upper_bound; lia]|]. lia. }
      destruct X as (x & y & Hx & Hy & ->). destruct (HC x y Hx Hy) as (I1 & I2 & I3). rewrite (CA x y) by lia. pose proof (CB x y ltac:(lia) ltac:(lia)) as EB. rewrite EW in EB. rewrite EB, I3.
      split; [reflexivity|]. rewrite ET, differ_same by assumption. destruct (ds_type a); try discriminate I1; destruct (ds_cell a x y); cbn [typed] in I2; try contradiction; cbn [different]; rewrite Z.eqb_refl; reflexivity. }
    assert (HL : (List.length la <= List.length lb)%nat) by nia. clear - E HL. revert lb E HL. induction la as [|v la IH]; intros lb E HL; [reflexivity|]. destruct lb as [|w lb]; [cbn in HL; lia|].
    cbn [combine filter fst snd]. destruct (E 0%nat ltac:(cbn; lia)) as [E1 E2]. cbn [nth] in E1, E2. subst w. rewrite E2. apply IH; [|cbn in HL; lia]. intros i Hi. exact (E (S i) ltac:(cbn; lia)).
  - intros T1 T2 EW EH HC. destruct (LONG [] ltac:(nia)) as (c & C1 & C2); [|exists c; auto]. symmetry. rewrite T1, T2. apply data_is in CA; [|lia|lia|exact LA]. apply data_is in CB; [|lia|lia|exact LB].
    rewrite window_positions in CA, CB. rewrite EW, EH in CB. subst la lb. set (ps := flat_map _ _). clearbody ps. clear - HC. induction ps as [|[x y] ps IH]; [reflexivity|]. cbn [map combine filter fst snd].
    destruct (HC x y) as [-> ->]. change (differ Int32 Uint32 (VI (-1)) (VI 4294967295)) with false. cbv iota. exact IH.
  - intros T1 HC. destruct (C95_compare convert fs A A a a na na Ha Ha (conj Wa (conj Ta (conj Ga Ra))) (conj Wa (conj Ta (conj Ga Ra))) Na Na eq_refl eq_refl eq_refl Hs) as (c & C1 & C2 & _).
    { intros x y _ _. rewrite T1, HC. split; exact I. }
    exists c. split; [exact C1|]. rewrite C2, <- LA. unfold how_many. apply data_is in CA; [|lia|lia|exact LA]. rewrite window_positions in CA. subst la. rewrite map_length. do 2 f_equal. set (ps := flat_map _ _). clearbody ps. clear - HC.
    induction ps as [|[x y] ps IH]; [reflexivity|]. cbn [filter fst snd]. rewrite !HC. cbn [different]. change (negb (Beqb B754_nan B754_nan)) with true. cbv iota. rewrite IH. reflexivity.
Qed.
Print Assumptions C95_compare_refuted.

(** ** rd_hist *)
Lemma count_in_sum T v m : fold_right Z.add 0 (map snd (count_in T v m)) = fold_right Z.add 0 (map snd m) + 1.
Proof. induction m as [|[k n] m IH]; cbn [count_in map snd fold_right]; [lia|]. destruct (differ T T v k); cbn [map snd fold_right]; lia. Qed.
Definition ints (T : dtype) (l : list val) : Prop := has_gdal_type T = true /\ is_int T = true /\ Forall (typed T) l.
Lemma differ_int T v w : has_gdal_type T = true -> is_int T = true -> typed T v -> typed T w -> (differ T T v w = false <-> v = w).
Proof.
  intros HG HI Hv Hw. rewrite differ_same by assumption. destruct T; try discriminate HI; destruct v as [a|a|a], w as [b|b|b]; cbn [typed] in Hv, Hw; try contradiction; cbn [different];
    rewrite negb_false_iff, Z.eqb_eq; split; congruence.
Qed.
(** how many elements are equal to a number *)
Definition occurrences (z : Z) (l : list val) : Z := Z.of_nat (List.length (filter (fun v => match v with VI a => a =? z | _ => false end) l)).
Lemma hist_inv T l : has_gdal_type T = true -> is_int T = true -> Forall (typed T) l ->
  let m := fold_left (fun m d => count_in T d m) l [] in
  Forall (typed T) (map fst m) /\ NoDup (map fst m) /\ (forall z n, In (VI z, n) m -> n = occurrences z l) /\ (forall v, In v (map fst m) <-> In v l).
Proof.
  intros HG HI. induction l as [|d l IH] using rev_ind; intros HF; cbv zeta.
  - cbn. repeat split; try constructor; intros; contradiction.
  - rewrite fold_left_app. cbn [fold_left]. apply Forall_app in HF. destruct HF as [HF Hd]. inversion Hd as [|? ? Hd' _]; subst. destruct (IH HF) as (I1 & I2 & I3 & I4).
    set (m := fold_left _ l []) in *. clearbody m.
    assert (OC : forall z, occurrences z (l ++ [d]) = occurrences z l + (if match d with VI a => a =? z | _ => false end then 1 else 0)).
    { intros z. unfold occurrences. rewrite filter_app, app_length. cbn [filter]. destruct (match d with VI a => a =? z | _ => false end); cbn [List.length]; lia. }
    assert (D : exists q, d = VI q) by (destruct T; try discriminate HI; destruct d; cbn [typed] in Hd'; try contradiction; eauto). destruct D as [q ->].
    assert (K : forall v, In v (map fst (count_in T (VI q) m)) <-> v = VI q \/ In v (map fst m)).
    { clear - HG HI Hd' I1. induction m as [|[k n] m IH]; intros v; cbn [count_in map fst In]; [split; intros [H|H]; auto; contradiction|]. inversion I1 as [|? ? Hk Hm]; subst. specialize (IH Hm).
      destruct (differ T T (VI q) k) eqn:E; cbn [map fst In].
      - rewrite IH. tauto.
      - apply differ_int in E; try assumption. subst k. split; [intros [H|H]|intros [->|H]]; auto. }
    split; [|split; [|split]].
    + rewrite Forall_forall. intros v Hv. apply K in Hv. destruct Hv as [->|Hv]; [exact Hd'|]. rewrite Forall_forall in I1. auto.
    + clear - HG HI Hd' I1 I2 K. revert I1 I2 K. induction m as [|[k n] m IH]; intros I1 I2 K; cbn [count_in map fst].
      * constructor; [intros []|constructor].
      * cbn [map fst] in I1, I2. inversion I1 as [|? ? Hk Hm]; subst. inversion I2 as [|? ? Nk Nm]; subst.
        assert (KK : forall v, In v (map fst (count_in T (VI q) m)) -> v = VI q \/ In v (map fst m)).
        { clear - m. induction m as [|[k n] m IH]; intros v; cbn [count_in map fst In]; [intros [H|[]]; auto|]. destruct (differ T T (VI q) k); cbn [map fst In]; [intros [H|H]; [auto|destruct (IH v H); auto]|auto]. }
        destruct (differ T T (VI q) k) eqn:E; cbn [map fst]; [|constructor; assumption]. constructor.
        -- intros H. apply KK in H. destruct H as [H|H]; [|contradiction]. subst k. assert (differ T T (VI q) (VI q) = false) by (apply differ_int; auto). congruence.
        -- clear - HG HI Hd' Hm Nm IH. apply IH; auto. clear - HG HI Hd' Hm. revert Hm. induction m as [|[k n] m IH]; intros Hm v; cbn [count_in map fst In]; [split; intros [H|H]; auto; contradiction|].
           cbn [map fst] in Hm. inversion Hm as [|? ? Hk Hm']; subst. specialize (IH Hm'). destruct (differ T T (VI q) k) eqn:E; cbn [map fst In].
           ++ rewrite IH. tauto.
           ++ apply differ_int in E; try assumption. subst k. split; [intros [H|H]|intros [->|H]]; auto.
    + intros z n Hin. rewrite OC. assert (M : forall z n, In (VI z, n) m -> n = occurrences z l) by exact I3. assert (NM : ~ In (VI q) (map fst m) -> occurrences q l = 0).
      { intros Hn. unfold occurrences. replace (filter _ l) with (@nil val); [reflexivity|]. symmetry. destruct (filter _ l) as [|v r] eqn:EF; [reflexivity|]. exfalso. apply Hn, I4.
        assert (X : In v (filter (fun v => match v with VI a => a =? q | _ => false end) l)) by (rewrite EF; left; reflexivity). apply filter_In in X. destruct X as [X1 X2].
        destruct v as [a|a|a]; try discriminate X2. apply Z.eqb_eq in X2. subst a. exact X1. }
      clear - HG HI Hd' I1 I2 M NM Hin. revert I1 I2 M NM Hin. induction m as [|[k c] m IH]; intros I1 I2 M NM Hin; cbn [count_in] in Hin.
      * destruct Hin as [E|[]]. injection E as -> <-. rewrite Z.eqb_refl, NM by (intros []). lia.
      * cbn [map fst] in I1, I2. inversion I1 as [|? ? Hk Hm]; subst. inversion I2 as [|? ? Nk Nm]; subst. destruct (differ T T (VI q) k) eqn:E.
        -- destruct Hin as [E'|Hin].
           ++ injection E' as -> ->. destruct (Z.eqb_spec q z) as [->|]; [|rewrite <- (M z n) by (left; reflexivity); lia].
              assert (differ T T (VI z) (VI z) = false) by (apply differ_int; auto). congruence.
           ++ apply IH; auto.
              { intros z' n' H'. apply M. right. exact H'. }
              { intros Hn. apply NM. intros [H'|H']; [|contradiction]. cbn in H'. subst k. assert (differ T T (VI q) (VI q) = false) by (apply differ_int; auto). congruence. }
        -- apply differ_int in E; try assumption. subst k. destruct Hin as [E'|Hin].
           ++ injection E' as -> <-. rewrite Z.eqb_refl, <- (M z c) by (left; reflexivity). lia.
           ++ destruct (Z.eqb_spec q z) as [->|]; [|rewrite <- (M z n) by (right; exact Hin); lia]. exfalso. apply Nk. apply in_map_iff. exists (VI z, n). auto.
    + intros v. rewrite K, I4, in_app_iff. cbn [In]. split; [intros [->|H]; auto|intros [H|[H|[]]]; auto].
Qed.

(** C95. rd_hist with a file of integers: each value that occurs is listed once, with the number of its cells; the counts of any file add up to the number of its cells. *)
Theorem C95_hist : forall convert fs inp ds nd, fs inp = Some ds -> readable ds -> of_double (ds_type ds) (GetNoDataValue ds) = Ok nd -> ds_w ds * ds_h ds < 2 ^ 31 ->
  (forall z, as_int nd = Ok z -> exists m, rd_hist convert fs inp = Ok (Some (z, m)) /\ fold_right Z.add 0 (map snd m) = ds_w ds * ds_h ds /\
     (is_int (ds_type ds) = true -> (forall x y, 0 <= x < ds_w ds -> 0 <= y < ds_h ds -> typed (ds_type ds) (ds_cell ds x y)) ->
        NoDup (map fst m) /\ (forall v, In v (map fst m) <-> exists x y, 0 <= x < ds_w ds /\ 0 <= y < ds_h ds /\ ds_cell ds x y = v) /\
        forall v n, In (VI v, n) m -> n = how_many (ds_w ds) (ds_h ds) (fun x y => match ds_cell ds x y with VI u => u =? v | _ => false end))) /\
  (as_int nd = Undef -> rd_hist convert fs inp = Undef).
Proof.
  intros convert fs inp ds nd Hf (Wf & HT & Hg & _) Hn Hs. destruct (opened convert fs inp ds nd Hf Wf HT Hn) as (a0 & l & A0 & A1 & HL & HC). destruct Wf as [W1 W2].
  assert (RUN : rd_hist convert fs inp = do nd' <- as_int nd; Ok (Some (nd', fold_left (fun m d => count_in (ds_type ds) d m) l []))).
  { unfold rd_hist, route. rewrite Hf, HT, A0. cbn [bind]. rewrite A1. cbn [bind]. cbn [g_data g_file g_type g_w g_h g_xoff g_yoff g_nd g_geo g_proj g_meta]. rewrite size_of by lia. cbn [bind].
    rewrite <- HL, Nat2Z.id. pose proof (forM_fold (fun d m => count_in (ds_type ds) d m) l [] []) as FF. change (Z.of_nat (List.length (@nil val))) with 0 in FF. cbn [app] in FF. rewrite FF. reflexivity. }
  split; [|intros E; rewrite RUN, E; reflexivity]. intros z Ez. rewrite RUN, Ez. cbn [bind]. eexists. split; [reflexivity|]. split.
  - rewrite <- HL. clear. transitivity (fold_right Z.add 0 (map snd (@nil (val * Z))) + Z.of_nat (List.length l)); [|reflexivity]. generalize (@nil (val * Z)).
    induction l as [|d l IH]; intros m; cbn [fold_left List.length]; [lia|]. rewrite IH, count_in_sum. lia.
  - intros HI HTy. apply data_is in HC; [|lia|lia|exact HL]. rewrite window_positions in HC. set (ps := flat_map _ _) in HC.
    assert (IN : forall x y, In (x, y) ps <-> 0 <= x < ds_w ds /\ 0 <= y < ds_h ds).
    { intros x y. subst ps. rewrite in_flat_map. split.
      - intros (y' & Hy & Hin). apply in_map_iff in Hin. destruct Hin as (x' & E & Hx). injection E as -> ->. apply zrange_In in Hx, Hy. lia.
      - intros [Hx Hy]. exists y. split; [apply zrange_In; lia|]. apply in_map_iff. exists x. split; [reflexivity|apply zrange_In; lia]. }
    destruct (hist_inv (ds_type ds) l HT HI) as (I1 & I2 & I3 & I4).
    { rewrite Forall_forall. intros v Hv. subst l. apply in_map_iff in Hv. destruct Hv as ([x y] & <- & Hq). apply IN in Hq. destruct Hq as [Q1 Q2]. apply HTy; assumption. }
    split; [exact I2|]. split.
    + intros v. rewrite I4. subst l. rewrite in_map_iff. split.
      * intros ([x y] & E & Hq). apply IN in Hq. exists x, y. tauto.
      * intros (x & y & Hx & Hy & E). exists (x, y). split; [exact E|]. apply IN. auto.
    + intros v n Hv. rewrite (I3 v n Hv). unfold occurrences, how_many. fold ps. subst l. clear. f_equal. induction ps as [|q ps IH]; [reflexivity|]. cbn [map filter]. destruct (match ds_cell ds (fst q) (snd q) with VI u => u =? v | _ => false end); cbn [List.length]; rewrite IH; reflexivity.
Qed.
Print Assumptions C95_hist.

(** Cases that meet the hypotheses: the 3x2 file of PropertiesGDAL, and others. *)
Lemma ex_readable : readable ex_ds.
Proof. split; [split; cbn; lia|]. split; [reflexivity|]. split; [reflexivity|]. eexists. exact ex_nd. Qed.
Definition any_name : string -> bool := fun _ => true.
Definition num (s : string) : res Qc := if String.eqb s "30" then Ok (Q2Qc 30) else Thrown.
Example C95_case_no_data : exists fs' ds', rd_no_data ex_conv "now" "prog" any_name "rd_no_data" ex_fs "dem.tif" "out.tif" "0" = Ok (0, fs') /\ fs' "out.tif"%string = Some ds' /\ same_cells ex_ds ds' /\ ds_nodata ds' = Some (f64_of_Z 0).
Proof.
  destruct (C95_no_data ex_conv "now" "prog" any_name "rd_no_data" ex_fs "dem.tif" "out.tif" "0" ex_ds 0 eq_refl ex_readable eq_refl eq_refl) as (fs' & ds' & A1 & A2 & _ & A4 & _ & _ & _ & _ & _ & A9 & _).
  exists fs', ds'. split; [exact A1|]. split; [exact A2|]. split; [exact A4|]. apply A9; [reflexivity|cbn; lia].
Qed.
Example C95_case_geo : exists fs' ds' g', rd_geotransform ex_conv "now" "prog" any_name num "c" ex_fs "dem.tif" "out.tif" ["x"; "30"; "x"; "x"; "30"; "x"]%string = Ok (0, fs') /\ fs' "out.tif"%string = Some ds' /\ ds_geo ds' = Some g' /\
  nth 0 g' 0%Qc = Q2Qc 100 /\ nth 4 g' 0%Qc = Q2Qc 30.
Proof.
  destruct (C95_geotransform ex_conv "now" "prog" any_name num "c" ex_fs "dem.tif" "out.tif" ["x"; "30"; "x"; "x"; "30"; "x"]%string ex_ds _ eq_refl ex_readable ex_nd eq_refl eq_refl) as (fs' & ds' & g' & A1 & A2 & _ & _ & _ & _ & _ & A8 & A9 & A10).
  { intros s H. destruct H as [<-|[<-|[<-|[<-|[<-|[<-|[]]]]]]]; auto; right; eexists; reflexivity. }
  exists fs', ds', g'. split; [exact A1|]. split; [exact A2|]. split; [exact A8|]. split.
  - exact (A10 0%nat ltac:(cbn; lia)).
  - pose proof (A10 4%nat ltac:(cbn; lia)) as H. cbn [nth] in H. change (Ok (Q2Qc 30) = Ok (nth 4 g' 0%Qc)) in H. injection H as H. symmetry. exact H.
Qed.
Example C95_case_expand : exists fs' ds', rd_expand_dimensions ex_conv "now" "prog" any_name "c" (fun n => repeat (VI 7) n) ex_fs "dem.tif" "out.tif" "4" " +3 rows" = Ok (0, fs') /\ fs' "out.tif"%string = Some ds' /\
  ds_cell ds' 2 1 = VI 12 /\ ds_cell ds' 3 1 = VI (-9999) /\ ds_cell ds' 0 2 = VI (-9999).
Proof.
  destruct (C95_expand ex_conv "now" "prog" any_name "c" (fun n => repeat (VI 7) n) ex_fs "dem.tif" "out.tif" "4" " +3 rows" ex_ds _ 4 3 eq_refl ex_readable ex_nd eq_refl (repeat_length _) eq_refl eq_refl) as [E _].
  destruct E as (fs' & ds' & A1 & A2 & _ & _ & _ & _ & A7 & _); try (cbn [ex_ds ds_w ds_h]; lia).
  exists fs', ds'. split; [exact A1|]. split; [exact A2|]. rewrite !A7 by lia. repeat split.
Qed.
Definition ex_ds2 : dataset := mkDS Int16 3 2 (fun x y => VI (if (x =? 1) && (y =? 1) then 50 else 10 * y + x)) (Some (f64_of_Z (-9999))) (ds_geo ex_ds) "EPSG:4326" [].
Definition ex_fs2 : files := fun n => if String.eqb n "a.tif" then Some ex_ds else if String.eqb n "b.tif" then Some ex_ds2 else None.
Example C95_case_compare : exists c, rd_compare ex_conv ex_fs2 "a.tif" "b.tif" = Ok (Some c) /\ cmp_count c = 1 /\ cmp_proj c = true /\ cmp_geo c = false /\ cmp_nd c = false.
Proof.
  assert (N2 : of_double (ds_type ex_ds2) (GetNoDataValue ex_ds2) = Ok (VI (-9999))) by exact ex_nd.
  assert (R2 : readable ex_ds2) by (split; [split; cbn; lia|split; [reflexivity|split; [reflexivity|eexists; exact N2]]]).
  destruct (C95_compare ex_conv ex_fs2 "a.tif" "b.tif" ex_ds ex_ds2 _ _ eq_refl eq_refl ex_readable R2 ex_nd N2 eq_refl eq_refl eq_refl) as (c & C1 & C2 & C3 & C4 & _ & _ & C7); [cbn; lia| |].
  { intros x y Hx Hy. cbn [ex_ds ex_ds2 ds_w ds_h ds_type ds_cell typed] in *. change (dmin Int16) with (-32768). change (dmax Int16) with 32767. destruct ((x =? 1) && (y =? 1)); lia. }
  exists c. split; [exact C1|]. split; [rewrite C2; reflexivity|]. split; [|split; [apply C3; reflexivity|exact C7]]. destruct (cmp_proj c); [reflexivity|]. exfalso. assert (F : ds_proj ex_ds = ds_proj ex_ds2) by (apply C4; reflexivity). discriminate F.
Qed.
Example C95_case_hist : exists m, rd_hist ex_conv ex_fs "dem.tif" = Ok (Some (-9999, m)) /\ (forall n, In (VI 12, n) m -> n = 1) /\ In (VI 12) (map fst m).
Proof.
  destruct (C95_hist ex_conv ex_fs "dem.tif" ex_ds _ eq_refl ex_readable ex_nd) as [H _]; [cbn; lia|]. destruct (H (-9999) eq_refl) as (m & M1 & M2 & M3). exists m. split; [exact M1|].
  destruct M3 as (_ & M4 & M5); [reflexivity| |].
  { intros x y Hx Hy. cbn [ex_ds ds_w ds_h ds_type ds_cell typed] in *. change (dmin Int16) with (-32768). change (dmax Int16) with 32767. lia. }
  split; [intros n Hn; rewrite (M5 12 n Hn); reflexivity|]. apply M4. exists 2, 1. cbn. repeat split; lia.
Qed.
(** a file with an integer NoData value outside a byte cannot be shown, one with 65 shows "A" *)
Example C95_case_show : rd_no_data_show ex_conv ex_fs "dem.tif" = Undef /\
  rd_no_data_show ex_conv (fun _ => Some (mkDS Int16 3 2 (fun x y => VI 0) (Some (f64_of_Z 65)) None EmptyString [])) "dem.tif" = Ok "A"%string.
Proof.
  split.
  - apply (proj1 (C95_display_refuted ex_conv ex_fs "dem.tif" ex_ds eq_refl ltac:(split; cbn; lia))). right. exists (-9999). split; [lia|]. split; [reflexivity|lia].
  - refine (proj1 (proj2 (C95_display_refuted ex_conv _ "dem.tif" (mkDS Int16 3 2 (fun x y => VI 0) (Some (f64_of_Z 65)) None EmptyString []) eq_refl _) 65 _ eq_refl)); [split; cbn; lia|lia].
Qed.
