(** C96: rd_raster_inspect and rd_raster_display. *)
From Coq Require Import ZArith List Lia Bool String Ascii QArith Qcanon.
From Flocq Require Import Core BinarySingleNaN.
From Verif Require Import Base Res ArrModel ArrSpec ArrProofs PropertiesArr FAFModel PropertiesEpsInt PyModel PyIntModel PyNumModel GDALModel GDALProofs PropertiesGDAL AppsGDALModel PropertiesAppsGDAL AppsShowModel.
Open Scope Z_scope.
Open Scope list_scope.

Lemma mapM_spec {A B} (f : A -> res B) (g : A -> B) l : (forall x, In x l -> f x = Ok (g x)) -> mapM f l = Ok (map g l).
Proof. induction l as [|x l IH]; intros H; cbn [mapM map]; [reflexivity|]. rewrite H by (left; reflexivity). cbn [bind]. rewrite IH by (intros; apply H; right; assumption). reflexivity. Qed.
Lemma mapM_undef {A B} (f : A -> res B) l : (forall x, In x l -> f x <> Thrown) -> (exists x, In x l /\ f x = Undef) -> mapM f l = Undef.
Proof.
  induction l as [|x l IH]; intros H (z & Hz & Ez); [destruct Hz|]. cbn [mapM]. destruct (f x) eqn:E; cbn [bind]; [|exfalso; exact (H x (or_introl eq_refl) E)|reflexivity].
  destruct Hz as [->|Hz]; [congruence|]. rewrite IH; [reflexivity|intros; apply H; right; assumption|exists z; auto].
Qed.
Lemma mapM_not_thrown {A B} (f : A -> res B) l : (forall x, In x l -> f x <> Thrown) -> mapM f l <> Thrown.
Proof.
  induction l as [|x l IH]; intros H; cbn [mapM]; [discriminate|]. destruct (f x) eqn:E; cbn [bind]; [|exfalso; exact (H x (or_introl eq_refl) E)|discriminate].
  specialize (IH (fun y Hy => H y (or_intror Hy))). destruct (mapM f l); cbn [bind]; congruence.
Qed.
Lemma rd_not_thrown {A} (l : list A) i : rd l i <> Thrown.
Proof. unfold rd. destruct (_ && _); [|discriminate]. destruct (nth_error _ _); discriminate. Qed.
Lemma zrange_nth' a n k : (k < n)%nat -> nth_error (zrange a n) k = Some (a + Z.of_nat k).
Proof.
  revert a k. induction n as [|n IH]; intros a k H; [lia|]. destruct k as [|k]; cbn [zrange nth_error]; [f_equal; lia|]. rewrite IH by lia. f_equal. lia.
Qed.

(** what is printed for column i, row j *)
Definition shown (t : table) (i j : Z) : option val :=
  match nth_error (t_rows t) (Z.to_nat (j - t_y0 t)) with Some r => nth_error r (Z.to_nat (i - t_x0 t)) | None => None end.

Lemma get_flat (a : arr val) x y : well_formed a -> 0 <= x < 2 ^ 31 -> 0 <= y < 2 ^ 31 -> y * a_w a + x < 2 ^ 32 ->
  get a x y = if y * a_w a + x <? a_w a * a_h a then Ok (nth (Z.to_nat (y * a_w a + x)) (a_data a) (VI 0)) else Undef.
Proof.
  intros W Hx Hy Hb. pose proof (wf_w a W). pose proof (wf_h a W). pose proof (wf_len a W) as L. unfold get, xyToI. rewrite !(w32_id x), !(w32_id y), !(w32_id (a_w a)) by lia. assert (0 <= y * a_w a) by nia. rewrite w32_id by lia.
  unfold rd. rewrite L. rewrite (proj2 (Z.leb_le 0 _)) by lia. cbn [andb]. destruct (Z.ltb_spec (y * a_w a + x) (a_w a * a_h a)); [|reflexivity].
  rewrite (nth_error_nth' (a_data a) (VI 0)) by lia. reflexivity.
Qed.

Lemma cells_of_ok (a : arr val) x0 x1 y0 y1 : well_formed a -> 0 <= x0 <= x1 -> 0 <= y0 <= y1 -> x1 < 2 ^ 31 -> y1 < 2 ^ 31 -> y1 * a_w a + x1 < a_w a * a_h a ->
  exists rows, cells_of a x0 x1 y0 y1 = Ok rows /\ List.length rows = Z.to_nat (y1 + 1 - y0) /\ (forall r, In r rows -> List.length r = Z.to_nat (x1 + 1 - x0)) /\
    forall i j m, x0 <= i <= x1 -> y0 <= j <= y1 -> shown (mkT x0 x1 y0 y1 rows m) i j = Some (nth (Z.to_nat (j * a_w a + i)) (a_data a) (VI 0)).
Proof.
  intros W Hx Hy B1 B2 Hb. pose proof (wf_small a W) as S. pose proof (wf_w a W) as WW.
  eexists. split; [unfold cells_of; apply mapM_spec with (g := fun y => map (fun x => nth (Z.to_nat (y * a_w a + x)) (a_data a) (VI 0)) (zrange x0 (Z.to_nat (x1 + 1 - x0))))|].
  - intros y Iy. apply zrange_In in Iy. apply mapM_spec. intros x Ix. apply zrange_In in Ix. assert (y * a_w a <= y1 * a_w a) by nia. rewrite get_flat by (assumption || lia).
    destruct (Z.ltb_spec (y * a_w a + x) (a_w a * a_h a)); [reflexivity|lia].
  - split; [rewrite map_length, zrange_length; reflexivity|]. split; [intros r Hr; apply in_map_iff in Hr; destruct Hr as (y & <- & _); rewrite map_length, zrange_length; reflexivity|].
    intros i j m Hi Hj. unfold shown. cbn [t_rows t_x0 t_y0]. erewrite map_nth_error by (apply zrange_nth'; lia). erewrite map_nth_error by (apply zrange_nth'; lia). do 3 f_equal. rewrite !Z2Nat.id by lia. f_equal; [f_equal|]; lia.
Qed.
Lemma cells_of_outside (a : arr val) x0 x1 y0 y1 : well_formed a -> 0 <= x0 <= x1 -> 0 <= y0 <= y1 -> x1 < 2 ^ 31 -> y1 < 2 ^ 31 -> a_w a * a_h a <= y1 * a_w a + x1 < 2 ^ 32 -> cells_of a x0 x1 y0 y1 = Undef.
Proof.
  intros W Hx Hy B1 B2 Hb. unfold cells_of. apply mapM_undef.
  - intros y _. apply mapM_not_thrown. intros x _. apply rd_not_thrown.
  - exists y1. split; [apply zrange_In; lia|]. apply mapM_undef; [intros x _; apply rd_not_thrown|]. exists x1. split; [apply zrange_In; lia|]. rewrite get_flat by (assumption || lia).
    destruct (Z.ltb_spec (y1 * a_w a + x1) (a_w a * a_h a)); [lia|reflexivity].
Qed.

(** ** The command line *)
Definition is_V (s : string) : bool := String.eqb s "--flipV" || String.eqb s "-V".
Definition is_H (s : string) : bool := String.eqb s "--flipH" || String.eqb s "-H".
(** the arguments that are not one of the four flags *)
Definition plain_args (args : list string) : list string := filter (fun s => negb (is_V s || is_H s)) args.
Definition with_flags (v h : bool) (o : iopts) : iopts := mkI (i_flipV o || v) (i_flipH o || h) (i_file o) (i_minx o) (i_maxx o) (i_miny o) (i_maxy o).
Definition lift (k : iopts -> iopts) (r : res (option iopts)) : res (option iopts) := do q <- r; Ok (option_map k q).
Lemma parse_one_flags v h s o : parse_one s (with_flags v h o) = lift (with_flags v h) (parse_one s o).
Proof.
  destruct o as [v0 h0 f x0 x1 y0 y1]. unfold with_flags, parse_one, lift, num_arg. cbn [i_flipV i_flipH i_file i_minx i_maxx i_miny i_maxy].
  repeat match goal with |- (if ?c then _ else _) = _ => destruct c; [try (destruct (stoi_arg s) as [[n|]| |]; reflexivity); try reflexivity|] end; try reflexivity.
Qed.
Lemma parse_with_flags v h args : forall o, parse args (with_flags v h o) = lift (with_flags v h) (parse args o).
Proof.
  induction args as [|s r IH]; intros o; cbn [parse]; [reflexivity|]. rewrite parse_one_flags. unfold lift at 1. destruct (parse_one s o) as [[o'|]| |]; cbn [bind option_map]; try reflexivity. apply IH.
Qed.
Lemma lift_id r : lift (with_flags false false) r = r.
Proof. unfold lift. destruct r as [[o|]| |]; cbn [bind option_map]; try reflexivity. do 2 f_equal. destruct o; unfold with_flags; cbn. rewrite !orb_false_r. reflexivity. Qed.
Lemma lift_lift v h v' h' r : lift (with_flags v h) (lift (with_flags v' h') r) = lift (with_flags (v' || v) (h' || h)) r.
Proof. unfold lift. destruct r as [[o|]| |]; cbn [bind option_map]; try reflexivity. do 2 f_equal. destruct o; unfold with_flags; cbn. rewrite !orb_assoc. reflexivity. Qed.
(** flags may stand anywhere *)
Lemma parse_split args : forall o, parse args o = lift (with_flags (existsb is_V args) (existsb is_H args)) (parse (plain_args args) o).
Proof.
  induction args as [|s r IH]; intros o; cbn [parse plain_args filter existsb].
  - symmetry. apply lift_id.
  - unfold plain_args in IH. destruct (is_H s) eqn:EH.
    + rewrite orb_true_r. cbn [negb]. assert (P : parse_one s o = Ok (Some (with_flags false true o))).
      { unfold parse_one, is_H in *. destruct o. rewrite EH. unfold with_flags. cbn. rewrite orb_false_r, orb_true_r. reflexivity. }
      assert (EV : is_V s = false) by (unfold is_V, is_H in *; apply orb_prop in EH; destruct EH as [E|E]; apply String.eqb_eq in E; subst s; reflexivity).
      rewrite P. cbn [bind]. rewrite IH, parse_with_flags, lift_lift, EV. cbn [orb]. reflexivity.
    + destruct (is_V s) eqn:EV.
      * cbn [orb negb]. assert (P : parse_one s o = Ok (Some (with_flags true false o))).
        { unfold parse_one, is_H, is_V in *. destruct o. rewrite EH, EV. unfold with_flags. cbn. rewrite orb_false_r, orb_true_r. reflexivity. }
        rewrite P. cbn [bind]. rewrite IH, parse_with_flags, lift_lift. reflexivity.
      * cbn [orb negb parse]. destruct (parse_one s o) as [[o'|]| |]; cbn [bind]; try reflexivity. apply IH.
Qed.
Lemma not_dash_plain s : starts_with "-" s = false -> is_V s || is_H s = false.
Proof. intros H. unfold is_V, is_H. repeat match goal with |- context[String.eqb s ?t] => destruct (String.eqb_spec s t) as [->|]; [discriminate H|] end. reflexivity. Qed.

Lemma stoi_arg_ok s n : stoi s = Ok n -> stoi_arg s = Ok (Some n).
Proof. intros H. unfold stoi_arg. rewrite H. reflexivity. Qed.
Lemma parse_numbers inp texts : inp <> EmptyString -> starts_with "-" inp = false -> (forall t, In t texts -> starts_with "-" t = false) ->
  forall nums, Forall2 (fun t n => stoi t = Ok n /\ n <> -1) texts nums ->
  parse (inp :: texts) i_start = if (List.length nums <=? 4)%nat then Ok (Some (mkI false false inp (nth 0 nums (-1)) (nth 1 nums (-1)) (nth 2 nums (-1)) (nth 3 nums (-1)))) else Ok None.
Proof.
  intros Hi Hd HT nums HF. cbn [parse]. unfold parse_one at 1. cbn [i_start].
  assert (E0 : forall s, starts_with "-" s = false -> (String.eqb s "--flipH" || String.eqb s "-H") = false /\ (String.eqb s "--flipV" || String.eqb s "-V") = false).
  { intros s Hs. apply not_dash_plain in Hs. apply orb_false_iff in Hs. unfold is_V, is_H in Hs. tauto. }
  destruct (E0 inp Hd) as [-> ->]. rewrite Hd. cbn [String.eqb bind].
  assert (EI : String.eqb inp EmptyString = false) by (apply String.eqb_neq; exact Hi).
  assert (ST : forall t n v h x0 x1 y0 y1, starts_with "-" t = false -> stoi t = Ok n -> parse_one t (mkI v h inp x0 x1 y0 y1) =
     if x0 =? -1 then Ok (Some (mkI v h inp n x1 y0 y1)) else if x1 =? -1 then Ok (Some (mkI v h inp x0 n y0 y1)) else if y0 =? -1 then Ok (Some (mkI v h inp x0 x1 n y1))
     else if y1 =? -1 then Ok (Some (mkI v h inp x0 x1 y0 n)) else Ok None).
  { intros t n v h x0 x1 y0 y1 Ht Hn. unfold parse_one. destruct (E0 t Ht) as [-> ->]. rewrite Ht, EI. unfold num_arg. rewrite (stoi_arg_ok t n Hn). reflexivity. }
  inversion HF as [|t0 n0 T0 N0 [A0 B0] F0]; subst; [reflexivity|]. cbn [parse nth]. rewrite (ST t0 n0) by (auto; apply HT; left; reflexivity). cbn [Z.eqb bind Pos.eqb].
  inversion F0 as [|t1 n1 T1 N1 [A1 B1] F1]; subst; [reflexivity|]. cbn [parse nth]. rewrite (ST t1 n1) by (auto; apply HT; right; left; reflexivity).
  rewrite ?(proj2 (Z.eqb_neq n0 (-1))) by lia. cbn [Z.eqb bind Pos.eqb].
  inversion F1 as [|t2 n2 T2 N2 [A2 B2] F2]; subst; [reflexivity|]. cbn [parse nth]. rewrite (ST t2 n2) by (auto; apply HT; right; right; left; reflexivity).
  rewrite ?(proj2 (Z.eqb_neq n0 (-1))) by lia. rewrite ?(proj2 (Z.eqb_neq n1 (-1))) by lia. cbn [Z.eqb bind Pos.eqb].
  inversion F2 as [|t3 n3 T3 N3 [A3 B3] F3]; subst; [reflexivity|]. cbn [parse nth]. rewrite (ST t3 n3) by (auto; apply HT; right; right; right; left; reflexivity).
  rewrite ?(proj2 (Z.eqb_neq n0 (-1))) by lia. rewrite ?(proj2 (Z.eqb_neq n1 (-1))) by lia. rewrite ?(proj2 (Z.eqb_neq n2 (-1))) by lia. cbn [Z.eqb bind Pos.eqb].
  inversion F3 as [|t4 n4 T4 N4 [A4 B4] F4]; subst; [reflexivity|]. cbn [parse]. rewrite (ST t4 n4) by (auto; apply HT; right; right; right; right; left; reflexivity).
  rewrite ?(proj2 (Z.eqb_neq n0 (-1))) by lia. rewrite ?(proj2 (Z.eqb_neq n1 (-1))) by lia. rewrite ?(proj2 (Z.eqb_neq n2 (-1))) by lia. rewrite ?(proj2 (Z.eqb_neq n3 (-1))) by lia. reflexivity.
Qed.

Lemma parse_plain inp texts : inp <> EmptyString -> starts_with "-" inp = false -> (forall t, In t texts -> starts_with "-" t = false) ->
  forall nums, Forall2 (fun t n => stoi t = Ok n /\ 0 <= n) texts nums -> (List.length nums <= 4)%nat ->
  parse (inp :: texts) i_start = Ok (Some (mkI false false inp (nth 0 nums (-1)) (nth 1 nums (-1)) (nth 2 nums (-1)) (nth 3 nums (-1)))).
Proof.
  intros Hi Hd HT nums HF HL. rewrite (parse_numbers inp texts Hi Hd HT nums), (proj2 (Nat.leb_le _ _) HL); [reflexivity|].
  clear -HF. induction HF as [|t n ts ns [A B] _ IH]; constructor; [split; [exact A|lia]|exact IH].
Qed.

(** ** What is inspected *)
(** flipped sideways, upside down: flag or georeference, not both *)
Definition sideways (args : list string) (ds : dataset) : bool := xorb (existsb is_H args) (neg (nth 1 (geo_of ds) 0%Qc)).
Definition upside_down (args : list string) (ds : dataset) : bool := xorb (existsb is_V args) (pos (nth 5 (geo_of ds) 0%Qc)).
(** cell (i,j) of the raster as it is shown *)
Definition flipped (ds : dataset) (down : bool) (i j : Z) : val := ds_cell ds i (if down then ds_h ds - 1 - j else j).

Lemma rd_geo (g : list Qc) k : (k < List.length g)%nat -> rd g (Z.of_nat k) = Ok (nth k g 0%Qc).
Proof. intros H. unfold rd. rewrite (proj2 (Z.leb_le _ _)), (proj2 (Z.ltb_lt _ _)) by lia. cbn [andb]. rewrite Nat2Z.id, (nth_error_nth' g 0%Qc) by exact H. reflexivity. Qed.

Lemma flips ds nd (l : list val) (down : bool) : wf ds -> ds_w ds <= 2 ^ 31 - 3 -> ds_w ds * ds_h ds < 2 ^ 31 -> Z.of_nat (List.length l) = ds_w ds * ds_h ds ->
  (forall x y, 0 <= x < ds_w ds -> 0 <= y < ds_h ds -> nth (Z.to_nat (y * ds_w ds + x)) l (VI 0) = ds_cell ds x y) ->
  exists b, flip_if down flipVert (mkA (ds_w ds) (ds_h ds) nd NO_I (nshift_table (ds_w ds)) true l) = Ok b /\ well_formed b /\ a_w b = ds_w ds /\ a_h b = ds_h ds /\
    forall x y, 0 <= x < ds_w ds -> 0 <= y < ds_h ds -> nth (Z.to_nat (y * ds_w ds + x)) (a_data b) (VI 0) = flipped ds down x y.
Proof.
  intros [W1 W2] Hw Hs HL HC. set (a := mkA _ _ _ _ _ _ _). assert (WA : well_formed a) by (constructor; subst a; cbn [a_w a_h a_data a_nshift]; try lia; try nia; reflexivity).
  unfold flipped. destruct down; cbn [flip_if].
  - destruct (C12_flipVert a WA) as [(b & B1 & B2 & (S1 & S2 & _) & B4) _]. exists b. split; [exact B1|]. split; [exact B2|]. change (a_w a) with (ds_w ds) in *. change (a_h a) with (ds_h ds) in *.
    split; [exact S1|]. split; [exact S2|]. intros x y Hx Hy. specialize (B4 x y Hx Hy). unfold cell in B4. rewrite S1, S2 in B4. change (a_w a) with (ds_w ds) in *. change (a_h a) with (ds_h ds) in *.
    assert (IG : forall u v, 0 <= u < ds_w ds -> 0 <= v < ds_h ds -> inGrid (ds_w ds) (ds_h ds) u v = true) by (intros u v Hu Hv; unfold inGrid; rewrite !andb_true_iff, !Z.leb_le, !Z.ltb_lt; lia).
    rewrite !IG in B4 by lia. rewrite <- HC by lia. change (a_data a) with l in B4.
    assert (LT : (Z.to_nat ((ds_h ds - 1 - y) * ds_w ds + x) < List.length l)%nat) by (assert (0 <= (ds_h ds - 1 - y) * ds_w ds + x < ds_w ds * ds_h ds) by nia; lia).
    apply nth_error_nth. rewrite B4. apply nth_error_nth'. exact LT.
  - exists a. split; [reflexivity|]. split; [exact WA|]. split; [reflexivity|]. split; [reflexivity|]. exact HC.
Qed.

Lemma run convert fs args inp texts nums ds nd : fs inp = Some ds -> readable ds -> of_double (ds_type ds) (GetNoDataValue ds) = Ok nd -> ds_w ds <= 2 ^ 31 - 3 -> ds_w ds * ds_h ds < 2 ^ 31 ->
  plain_args args = inp :: texts -> inp <> EmptyString -> starts_with "-" inp = false -> (forall t, In t texts -> starts_with "-" t = false) ->
  Forall2 (fun t n => stoi t = Ok n /\ 0 <= n) texts nums -> (List.length nums <= 4)%nat ->
  let o := mkI (existsb is_V args) (existsb is_H args) inp (nth 0 nums (-1)) (nth 1 nums (-1)) (nth 2 nums (-1)) (nth 3 nums (-1)) in
  acceptable o = true ->
  (sideways args ds = true -> rd_raster_inspect convert fs args = Undef) /\
  (sideways args ds = false -> exists b, well_formed b /\ a_w b = ds_w ds /\ a_h b = ds_h ds /\
     (forall x y, 0 <= x < ds_w ds -> 0 <= y < ds_h ds -> nth (Z.to_nat (y * ds_w ds + x)) (a_data b) (VI 0) = flipped ds (upside_down args ds) x y) /\
     rd_raster_inspect convert fs args = do t <- (do q <- (if i_maxy o =? -1
               then let cx := i_minx o in let cy := i_maxx o in let radius := i_miny o in
                    do ax <- i32 (cx - radius); do bx <- i32 (cx + radius); do ay <- i32 (cy - radius); do by' <- i32 (cy + radius);
                    Ok (Z.max ax 0, Z.min bx (a_w b - 1), Z.max ay 0, Z.min by' (a_h b - 1), (cx, cy))
               else Ok (i_minx o, i_maxx o, i_miny o, i_maxy o, (-1, -1)));
      let '(x0, x1, y0, y1, mark) := q in
      if x1 <? x0 then Thrown else if y1 <? y0 then Thrown
      else do rows <- cells_of b x0 x1 y0 y1; Ok (mkT x0 x1 y0 y1 rows mark)); Ok (Some t)).
Proof.
  intros Hf (Wf & HT & Hg & _) Hn Hw Hs HP Hi Hd HTx HF HL o HA. destruct (opened convert fs inp ds nd Hf Wf HT Hn) as (a0 & l & A0 & A1 & LL & HC).
  assert (PR : parse args i_start = Ok (Some o)).
  { rewrite parse_split, HP, (parse_plain inp texts Hi Hd HTx nums HF HL). unfold lift. cbn [bind option_map]. reflexivity. }
  destruct (flips ds nd l (upside_down args ds) Wf Hw Hs LL HC) as (b & B1 & B2 & B3 & B4 & B5).
  assert (G : forall (k : nat), (k < 6)%nat -> rd (geo_of ds) (Z.of_nat k) = Ok (nth k (geo_of ds) 0%Qc)) by (intros k Hk; apply rd_geo; lia).
  pose proof (G 1%nat ltac:(lia)) as G1. pose proof (G 5%nat ltac:(lia)) as G5. change (Z.of_nat 1) with 1 in G1. change (Z.of_nat 5) with 5 in G5.
  assert (EV : (if pos (nth 5 (geo_of ds) 0%Qc) then negb (existsb is_V args) else existsb is_V args) = upside_down args ds) by (unfold upside_down; destruct (pos _), (existsb is_V args); reflexivity).
  assert (EH : (if neg (nth 1 (geo_of ds) 0%Qc) then negb (existsb is_H args) else existsb is_H args) = sideways args ds) by (unfold sideways; destruct (neg _), (existsb is_H args); reflexivity).
  assert (RUN : forall z, flip_if (sideways args ds) flipHorz b = z -> rd_raster_inspect convert fs args = do t <- (do b <- z; do q <- (if i_maxy o =? -1
               then let cx := i_minx o in let cy := i_maxx o in let radius := i_miny o in
                    do ax <- i32 (cx - radius); do bx <- i32 (cx + radius); do ay <- i32 (cy - radius); do by' <- i32 (cy + radius);
                    Ok (Z.max ax 0, Z.min bx (a_w b - 1), Z.max ay 0, Z.min by' (a_h b - 1), (cx, cy))
               else Ok (i_minx o, i_maxx o, i_miny o, i_maxy o, (-1, -1)));
      let '(x0, x1, y0, y1, mark) := q in
      if x1 <? x0 then Thrown else if y1 <? y0 then Thrown
      else do rows <- cells_of b x0 x1 y0 y1; Ok (mkT x0 x1 y0 y1 rows mark)); Ok (Some t)).
  { intros z Hz. unfold rd_raster_inspect. rewrite PR. cbn [bind]. rewrite HA. cbn [negb]. change (i_file o) with inp. rewrite Hf. unfold route. rewrite Hf, HT, A0. cbn [bind]. rewrite A1. cbn [bind].
    unfold inspect. cbn [g_data g_geo]. rewrite G1, G5. cbn [bind]. change (i_flipV o) with (existsb is_V args). change (i_flipH o) with (existsb is_H args). rewrite EV, EH.
    unfold arr_of. cbn [g_w g_h g_nd]. rewrite B1. cbn [bind]. rewrite Hz. reflexivity. }
  split; intros HS; rewrite HS in RUN; cbn [flip_if] in RUN.
  - destruct Wf as [W1 W2]. rewrite (RUN Undef); [reflexivity|]. apply C12_flipHorz_out_of_bounds_refuted; [exact B2|lia|lia].
  - exists b. split; [exact B2|]. split; [exact B3|]. split; [exact B4|]. split; [exact B5|]. rewrite (RUN (Ok b) eq_refl). reflexivity.
Qed.

(** C96. rd_raster_inspect <file> <x> <y> <radius>: exactly the cells at most [radius] columns and rows away are shown, in the raster as the georeference (and --flipV) says is upside
    down or not; flags may stand anywhere. If there is none, an error. *)
Theorem C96_centre : forall convert fs args inp tx ty tr x y r ds nd, fs inp = Some ds -> readable ds -> of_double (ds_type ds) (GetNoDataValue ds) = Ok nd ->
  ds_w ds <= 2 ^ 31 - 3 -> ds_w ds * ds_h ds < 2 ^ 31 -> plain_args args = [inp; tx; ty; tr] -> inp <> EmptyString -> (forall t, In t [inp; tx; ty; tr] -> starts_with "-" t = false) ->
  stoi tx = Ok x -> stoi ty = Ok y -> stoi tr = Ok r -> 0 <= x -> 0 <= y -> 0 <= r -> x + r < 2 ^ 31 -> y + r < 2 ^ 31 -> sideways args ds = false ->
  (x - r < ds_w ds -> y - r < ds_h ds -> exists t, rd_raster_inspect convert fs args = Ok (Some t) /\ t_mark t = (x, y) /\
     t_x0 t = Z.max 0 (x - r) /\ t_x1 t = Z.min (ds_w ds - 1) (x + r) /\ t_y0 t = Z.max 0 (y - r) /\ t_y1 t = Z.min (ds_h ds - 1) (y + r) /\
     (forall i j, t_x0 t <= i <= t_x1 t -> t_y0 t <= j <= t_y1 t -> shown t i j = Some (flipped ds (upside_down args ds) i j)) /\
     List.length (t_rows t) = Z.to_nat (t_y1 t + 1 - t_y0 t) /\ forall row, In row (t_rows t) -> List.length row = Z.to_nat (t_x1 t + 1 - t_x0 t)) /\
  (ds_w ds <= x - r \/ ds_h ds <= y - r -> rd_raster_inspect convert fs args = Thrown).
Proof.
  intros convert fs args inp tx ty tr x y r ds nd Hf R Hn Hw Hs HP Hi HD Ex Ey Er Px Py Pr Bx By HS.
  assert (AC : acceptable (mkI (existsb is_V args) (existsb is_H args) inp x y r (-1)) = true).
  { unfold acceptable. cbn [i_file i_minx i_maxx i_miny i_maxy]. rewrite (proj2 (String.eqb_neq inp EmptyString) Hi). destruct (Z.eqb_spec x (-1)); [lia|]. destruct (Z.eqb_spec y (-1)); [lia|]. destruct (Z.eqb_spec r (-1)); [lia|].
    cbn [orb negb andb Z.eqb Pos.eqb]. destruct (Z.ltb_spec x 0); [lia|]. destruct (Z.ltb_spec y 0); [lia|]. destruct (Z.ltb_spec r 0); [lia|]. reflexivity. }
  assert (F2 : Forall2 (fun t n => stoi t = Ok n /\ 0 <= n) [tx; ty; tr] [x; y; r]) by (repeat (constructor; [auto|]); constructor).
  destruct (run convert fs args inp [tx; ty; tr] [x; y; r] ds nd Hf R Hn Hw Hs HP Hi (HD inp (or_introl eq_refl)) (fun t H => HD t (or_intror H)) F2 ltac:(cbn; lia) AC) as [_ RUN].
  destruct (RUN HS) as (b & B1 & B2 & B3 & B4 & E). cbn [nth i_minx i_maxx i_miny i_maxy Z.eqb Pos.eqb] in E. cbv zeta in E. rewrite !i32_ok in E by lia. cbn [bind] in E. rewrite B2, B3 in E. destruct R as ([W1 W2] & _).
  split.
  - intros Hx Hy. destruct (Z.ltb_spec (Z.min (x + r) (ds_w ds - 1)) (Z.max (x - r) 0)); [lia|]. destruct (Z.ltb_spec (Z.min (y + r) (ds_h ds - 1)) (Z.max (y - r) 0)); [lia|].
    destruct (cells_of_ok b (Z.max (x - r) 0) (Z.min (x + r) (ds_w ds - 1)) (Z.max (y - r) 0) (Z.min (y + r) (ds_h ds - 1)) B1) as (rows & R1 & R2 & R3 & R4); try lia; [rewrite B2, B3; nia|].
    rewrite R1 in E. cbn [bind] in E. eexists. split; [exact E|]. cbn [t_mark t_x0 t_x1 t_y0 t_y1 t_rows]. split; [reflexivity|]. split; [lia|]. split; [lia|]. split; [lia|]. split; [lia|].
    split; [|split; [exact R2|exact R3]]. intros i j Hi' Hj'. rewrite R4 by assumption. f_equal. rewrite B2. apply B4; lia.
  - intros H. rewrite E. destruct (Z.ltb_spec (Z.min (x + r) (ds_w ds - 1)) (Z.max (x - r) 0)); [reflexivity|]. destruct (Z.ltb_spec (Z.min (y + r) (ds_h ds - 1)) (Z.max (y - r) 0)); [reflexivity|lia].
Qed.
Print Assumptions C96_centre.

(** C96. rd_raster_inspect <file> <min x> <max x> <min y> <max y>, with the window inside the raster: exactly its cells. A minimum above the maximum is refused. *)
Theorem C96_range : forall convert fs args inp ta tb tc td x0 x1 y0 y1 ds nd, fs inp = Some ds -> readable ds -> of_double (ds_type ds) (GetNoDataValue ds) = Ok nd ->
  ds_w ds <= 2 ^ 31 - 3 -> ds_w ds * ds_h ds < 2 ^ 31 -> plain_args args = [inp; ta; tb; tc; td] -> inp <> EmptyString -> (forall t, In t [inp; ta; tb; tc; td] -> starts_with "-" t = false) ->
  stoi ta = Ok x0 -> stoi tb = Ok x1 -> stoi tc = Ok y0 -> stoi td = Ok y1 -> 0 <= x0 -> 0 <= x1 -> 0 <= y0 -> 0 <= y1 ->
  (x1 < x0 \/ y1 < y0 -> rd_raster_inspect convert fs args = Ok None) /\
  (x0 <= x1 < ds_w ds -> y0 <= y1 < ds_h ds -> sideways args ds = false ->
     exists t, rd_raster_inspect convert fs args = Ok (Some t) /\ t_mark t = (-1, -1) /\ t_x0 t = x0 /\ t_x1 t = x1 /\ t_y0 t = y0 /\ t_y1 t = y1 /\
     (forall i j, x0 <= i <= x1 -> y0 <= j <= y1 -> shown t i j = Some (flipped ds (upside_down args ds) i j)) /\
     List.length (t_rows t) = Z.to_nat (y1 + 1 - y0) /\ forall row, In row (t_rows t) -> List.length row = Z.to_nat (x1 + 1 - x0)).
Proof.
  intros convert fs args inp ta tb tc td x0 x1 y0 y1 ds nd Hf R Hn Hw Hs HP Hi HD Ea Eb Ec Ed P0 P1 P2 P3.
  assert (F2 : Forall2 (fun t n => stoi t = Ok n /\ 0 <= n) [ta; tb; tc; td] [x0; x1; y0; y1]) by (repeat (constructor; [auto|]); constructor).
  assert (AC : acceptable (mkI (existsb is_V args) (existsb is_H args) inp x0 x1 y0 y1) = (x0 <=? x1) && (y0 <=? y1)).
  { unfold acceptable. cbn [i_file i_minx i_maxx i_miny i_maxy]. rewrite (proj2 (String.eqb_neq inp EmptyString) Hi).
    rewrite !(proj2 (Z.eqb_neq _ (-1))) by lia. rewrite !(proj2 (Z.ltb_ge _ 0)) by lia. cbn [orb negb andb]. rewrite !andb_true_r, !Z.ltb_antisym, !negb_involutive. reflexivity. }
  split.
  - intros H. unfold rd_raster_inspect. rewrite parse_split, HP, (parse_plain inp [ta; tb; tc; td] Hi (HD inp (or_introl eq_refl)) (fun t H => HD t (or_intror H)) _ F2 ltac:(cbn; lia)). unfold lift. cbn [bind option_map nth].
    unfold with_flags. cbn [i_flipV i_flipH i_file i_minx i_maxx i_miny i_maxy orb]. rewrite AC. replace ((x0 <=? x1) && (y0 <=? y1)) with false; [reflexivity|]. symmetry. apply andb_false_iff. destruct H; [left|right]; apply Z.leb_gt; lia.
  - intros Hx Hy HS. destruct (run convert fs args inp [ta; tb; tc; td] [x0; x1; y0; y1] ds nd Hf R Hn Hw Hs HP Hi (HD inp (or_introl eq_refl)) (fun t H => HD t (or_intror H)) F2 ltac:(cbn; lia)) as [_ RUN].
    { cbn [nth]. rewrite AC. apply andb_true_iff; split; apply Z.leb_le; lia. }
    destruct (RUN HS) as (b & B1 & B2 & B3 & B4 & E). cbn [nth i_minx i_maxx i_miny i_maxy] in E. destruct (Z.eqb_spec y1 (-1)); [lia|]. cbn [bind] in E. destruct R as ([W1 W2] & _).
    destruct (Z.ltb_spec x1 x0); [lia|]. destruct (Z.ltb_spec y1 y0); [lia|].
    destruct (cells_of_ok b x0 x1 y0 y1 B1) as (rows & R1 & R2 & R3 & R4); try lia; [rewrite B2, B3; nia|].
    rewrite R1 in E. cbn [bind] in E. eexists. split; [exact E|]. cbn [t_mark t_x0 t_x1 t_y0 t_y1 t_rows]. do 5 (split; [reflexivity|]). split; [|split; [exact R2|exact R3]].
    intros i j Hi' Hj'. rewrite R4 by assumption. f_equal. rewrite B2. apply B4; lia.
Qed.
Print Assumptions C96_range.

(** "The values shown are those of the cells of the window" is false for windows that reach beyond the raster: right of it, cells of the following rows are shown; beyond the last cell,
    memory outside the raster is read. Flipping sideways, by flag or because the georeference has a negative cell width, is undefined for every raster. *)
Theorem C96_outside_refuted : forall convert fs args inp ta tb tc td x0 x1 y0 y1 ds nd, fs inp = Some ds -> readable ds -> of_double (ds_type ds) (GetNoDataValue ds) = Ok nd ->
  ds_w ds <= 2 ^ 31 - 3 -> ds_w ds * ds_h ds < 2 ^ 31 -> plain_args args = [inp; ta; tb; tc; td] -> inp <> EmptyString -> (forall t, In t [inp; ta; tb; tc; td] -> starts_with "-" t = false) ->
  stoi ta = Ok x0 -> stoi tb = Ok x1 -> stoi tc = Ok y0 -> stoi td = Ok y1 -> 0 <= x0 <= x1 -> 0 <= y0 <= y1 -> x1 < 2 ^ 31 -> y1 < 2 ^ 31 ->
  (sideways args ds = true -> rd_raster_inspect convert fs args = Undef) /\
  (sideways args ds = false -> y1 * ds_w ds + x1 < ds_w ds * ds_h ds -> exists t, rd_raster_inspect convert fs args = Ok (Some t) /\
     forall i j, x0 <= i <= x1 -> y0 <= j <= y1 -> shown t i j = Some (flipped ds (upside_down args ds) (i mod ds_w ds) (j + i / ds_w ds))) /\
  (sideways args ds = false -> ds_w ds * ds_h ds <= y1 * ds_w ds + x1 < 2 ^ 32 -> rd_raster_inspect convert fs args = Undef).
Proof.
  intros convert fs args inp ta tb tc td x0 x1 y0 y1 ds nd Hf R Hn Hw Hs HP Hi HD Ea Eb Ec Ed P0 P1 P2 P3.
  assert (F2 : Forall2 (fun t n => stoi t = Ok n /\ 0 <= n) [ta; tb; tc; td] [x0; x1; y0; y1]) by (repeat (constructor; [split; [assumption|lia]|]); constructor).
  destruct (run convert fs args inp [ta; tb; tc; td] [x0; x1; y0; y1] ds nd Hf R Hn Hw Hs HP Hi (HD inp (or_introl eq_refl)) (fun t H => HD t (or_intror H)) F2 ltac:(cbn; lia)) as [RUNH RUN].
  { cbn [nth]. unfold acceptable. cbn [i_file i_minx i_maxx i_miny i_maxy]. rewrite (proj2 (String.eqb_neq inp EmptyString) Hi).
    rewrite !(proj2 (Z.eqb_neq _ (-1))) by lia. rewrite !(proj2 (Z.ltb_ge _ _)) by lia. reflexivity. }
  split; [exact RUNH|].
  assert (X : sideways args ds = false -> exists b, well_formed b /\ a_w b = ds_w ds /\ a_h b = ds_h ds /\
     (forall x y, 0 <= x < ds_w ds -> 0 <= y < ds_h ds -> nth (Z.to_nat (y * ds_w ds + x)) (a_data b) (VI 0) = flipped ds (upside_down args ds) x y) /\
     rd_raster_inspect convert fs args = do rows <- cells_of b x0 x1 y0 y1; Ok (Some (mkT x0 x1 y0 y1 rows (-1, -1)))).
  { intros HS. destruct (RUN HS) as (b & B1 & B2 & B3 & B4 & E). cbn [nth i_minx i_maxx i_miny i_maxy] in E. destruct (Z.eqb_spec y1 (-1)); [lia|]. cbn [bind] in E.
    destruct (Z.ltb_spec x1 x0); [lia|]. destruct (Z.ltb_spec y1 y0); [lia|]. exists b. split; [exact B1|]. split; [exact B2|]. split; [exact B3|]. split; [exact B4|]. rewrite E. destruct (cells_of _ _ _ _ _); reflexivity. }
  destruct R as ([W1 W2] & _). split.
  - intros HS Hb. destruct (X HS) as (b & B1 & B2 & B3 & B4 & E). destruct (cells_of_ok b x0 x1 y0 y1 B1) as (rows & R1 & R2 & R3 & R4); try lia.
    rewrite R1 in E. cbn [bind] in E. eexists. split; [exact E|]. intros i j Hi' Hj'. rewrite R4 by assumption. f_equal. rewrite B2.
    pose proof (Z.div_mod i (ds_w ds) ltac:(lia)) as D. pose proof (Z.mod_pos_bound i (ds_w ds) ltac:(lia)) as M. assert (0 <= i / ds_w ds) by (apply Z.div_pos; lia).
    replace (j * ds_w ds + i) with ((j + i / ds_w ds) * ds_w ds + i mod ds_w ds) by nia. apply B4; [lia|]. split; [lia|]. assert (j * ds_w ds <= y1 * ds_w ds) by nia. nia.
  - intros HS Hb. destruct (X HS) as (b & B1 & B2 & B3 & B4 & E). rewrite E, cells_of_outside by (rewrite ?B2, ?B3; assumption || lia). reflexivity.
Qed.
Print Assumptions C96_outside_refuted.

(** C96. Refused, with nothing shown: an argument that begins with a dash and is not one of the flags, too few or too many numbers, a negative number (which must come with a space before it,
    so as not to be taken for a flag; -1 is taken for a number not given). *)
Theorem C96_refused : forall convert fs args,
  (forall s, In s args -> starts_with "-" s = true -> is_V s = false -> is_H s = false -> forall t, rd_raster_inspect convert fs args <> Ok (Some t)) /\
  (plain_args args = [] -> rd_raster_inspect convert fs args = Ok None) /\
  (forall inp texts nums, plain_args args = inp :: texts -> inp <> EmptyString -> (forall t, In t (inp :: texts) -> starts_with "-" t = false) ->
     Forall2 (fun t n => stoi t = Ok n /\ n <> -1) texts nums ->
     ((List.length nums < 3)%nat -> rd_raster_inspect convert fs args = Ok None) /\
     ((4 < List.length nums)%nat -> rd_raster_inspect convert fs args = Ok None) /\
     (forall k, (k < 3)%nat -> (k < List.length nums)%nat -> nth k nums 0 < 0 -> rd_raster_inspect convert fs args = Ok None)).
Proof.
  intros convert fs args. split; [|split].
  - intros s I D V H t E. assert (P : forall o o', parse args o <> Ok (Some o')).
    { clear E. induction args as [|a r IH]; [destruct I|]. intros o o' E. cbn [parse] in E. destruct I as [->|I].
      - assert (Q : parse_one s o = Ok None) by (unfold parse_one; destruct o; unfold is_V, is_H in *; rewrite V, H, D; reflexivity). rewrite Q in E. discriminate E.
      - destruct (parse_one a o) as [[o2|]| |]; try discriminate E. exact (IH I o2 o' E). }
    unfold rd_raster_inspect in E. destruct (parse args i_start) as [[o|]| |] eqn:Q; try discriminate E. exact (P _ _ Q).
  - intros E. unfold rd_raster_inspect. rewrite parse_split, E. reflexivity.
  - intros inp texts nums E Hi HD HF. assert (R : forall q, parse (inp :: texts) i_start = q -> rd_raster_inspect convert fs args = do q <- lift (with_flags (existsb is_V args) (existsb is_H args)) q;
       match q with None => Ok None | Some o => if negb (acceptable o) then Ok None else match fs (i_file o) with None => Thrown | Some _ => route convert fs (i_file o) (fun a => do a <- loadData convert fs a; do t <- inspect o a; Ok (Some t)) None end end).
    { intros q <-. unfold rd_raster_inspect. rewrite parse_split, E. reflexivity. }
    specialize (R _ (parse_numbers inp texts Hi (HD inp (or_introl eq_refl)) (fun t I => HD t (or_intror I)) nums HF)).
    split; [|split].
    + intros L. rewrite (proj2 (Nat.leb_le _ _)) in R by lia. unfold lift in R. cbn [bind option_map] in R. rewrite R.
      replace (acceptable _) with false; [reflexivity|]. symmetry. unfold acceptable, with_flags. cbn [i_file i_minx i_maxx i_miny i_maxy].
      destruct nums as [|n0 [|n1 [|n2 nums]]]; cbn [nth List.length] in *; try lia; rewrite ?orb_true_r; reflexivity.
    + intros L. rewrite (proj2 (Nat.leb_gt _ _)) in R by lia. exact R.
    + intros k K1 K2 K3. destruct (List.length nums <=? 4)%nat; [|exact R]. unfold lift in R. cbn [bind option_map] in R. rewrite R.
      replace (acceptable _) with false; [reflexivity|]. symmetry. unfold acceptable, with_flags. cbn [i_file i_minx i_maxx i_miny i_maxy].
      apply Z.ltb_lt in K3. destruct k as [|[|[|k]]]; [| | |lia]; rewrite (nth_indep nums (-1) 0 K2); rewrite K3; cbn [negb]; rewrite ?andb_false_r; reflexivity.
Qed.
Print Assumptions C96_refused.

(** ** rd_raster_display *)
Definition directive (flip : string) : option (bool * bool) :=
  if String.eqb flip "noflip" then Some (false, false) else if String.eqb flip "fliph" then Some (true, false) else if String.eqb flip "flipv" then Some (false, true)
  else if String.eqb flip "fliphv" then Some (true, true) else None.

(** C96. rd_raster_display: the whole raster, row by row, as integers (floats truncated), upside down or not as the georeference and the directive say. Undefined if it is to be flipped
    sideways or if a value is a float that does not fit an int (such as a usual NoData value, or NaN). An unknown directive prints nothing, with exit status 0. *)
Theorem C96_display : forall convert fs inp flip ds nd, fs inp = Some ds -> readable ds -> of_double (ds_type ds) (GetNoDataValue ds) = Ok nd -> ds_w ds <= 2 ^ 31 - 3 -> ds_w ds * ds_h ds < 2 ^ 31 ->
  let h := neg (nth 1 (geo_of ds) 0%Qc) in let v := pos (nth 5 (geo_of ds) 0%Qc) in
  (directive flip = None -> rd_raster_display convert fs inp flip = Ok None) /\
  (forall fh fv, directive flip = Some (fh, fv) ->
    (xorb h fh = true -> rd_raster_display convert fs inp flip = Undef) /\
    (xorb h fh = false ->
      (forall n, (forall x y, 0 <= x < ds_w ds -> 0 <= y < ds_h ds -> as_int (ds_cell ds x y) = Ok (n x y)) ->
         exists rows, rd_raster_display convert fs inp flip = Ok (Some (geo_of ds, rows)) /\ List.length rows = Z.to_nat (ds_h ds) /\ (forall r, In r rows -> List.length r = Z.to_nat (ds_w ds)) /\
           forall x y, 0 <= x < ds_w ds -> 0 <= y < ds_h ds ->
             match nth_error rows (Z.to_nat y) with Some r => nth_error r (Z.to_nat x) | None => None end = Some (n x (if xorb v fv then ds_h ds - 1 - y else y))) /\
      (forall x y, 0 <= x < ds_w ds -> 0 <= y < ds_h ds -> as_int (ds_cell ds x y) = Undef -> rd_raster_display convert fs inp flip = Undef))).
Proof.
  intros convert fs inp flip ds nd Hf (Wf & HT & Hg & _) Hn Hw Hs h v. destruct (opened convert fs inp ds nd Hf Wf HT Hn) as (a0 & l & A0 & A1 & LL & HC).
  assert (G : forall (k : nat), (k < 6)%nat -> rd (geo_of ds) (Z.of_nat k) = Ok (nth k (geo_of ds) 0%Qc)) by (intros k Hk; apply rd_geo; lia).
  pose proof (G 1%nat ltac:(lia)) as G1. pose proof (G 5%nat ltac:(lia)) as G5. change (Z.of_nat 1) with 1 in G1. change (Z.of_nat 5) with 5 in G5.
  set (d := if String.eqb flip "fliph" then Some (true, false) else if String.eqb flip "flipv" then Some (false, true)
               else if String.eqb flip "fliphv" then Some (true, true) else if String.eqb flip "noflip" then Some (false, false) else None).
  assert (DE : d = directive flip).
  { subst d. unfold directive. destruct (String.eqb_spec flip "noflip") as [->|]; [reflexivity|]. repeat match goal with |- context[if ?c then _ else _] => destruct c end; reflexivity. }
  unfold rd_raster_display, route. rewrite Hf, HT, A0. cbn [bind]. fold d. rewrite DE. clearbody d. clear DE d. split; [intros ->; reflexivity|]. intros fh fv ->.
  rewrite A1. cbn [bind g_data g_geo]. rewrite G1, G5. cbn [bind]. fold h v. unfold arr_of. cbn [g_w g_h g_nd]. split.
  - intros ->. cbn [flip_if]. rewrite C12_flipHorz_out_of_bounds_refuted; [reflexivity| |cbn [a_w]; destruct Wf; lia|cbn [a_h]; destruct Wf; lia].
    destruct Wf. constructor; cbn [a_w a_h a_data a_nshift]; try lia; try nia; reflexivity.
  - intros ->. cbn [flip_if bind]. destruct (flips ds nd l (xorb v fv) Wf Hw Hs LL HC) as (b & B1 & B2 & B3 & B4 & B5). rewrite B1. cbn [bind]. rewrite B3, B4. destruct Wf as [W1 W2].
    assert (GV : forall x y, 0 <= x < ds_w ds -> 0 <= y < ds_h ds -> get b x y = Ok (flipped ds (xorb v fv) x y)).
    { intros x y Hx Hy. rewrite get_flat by (try assumption; rewrite ?B3; nia). rewrite B3, B4. destruct (Z.ltb_spec (y * ds_w ds + x) (ds_w ds * ds_h ds)); [|nia]. rewrite B5 by assumption. reflexivity. }
    set (row y := if xorb v fv then ds_h ds - 1 - y else y). assert (ROW : forall y, 0 <= y < ds_h ds -> 0 <= row y < ds_h ds) by (intros y Hy; subst row; cbv beta; destruct (xorb v fv); lia).
    split.
    + intros n HN. rewrite mapM_spec with (g := fun y => map (fun x => n x (row y)) (zrange 0 (Z.to_nat (ds_w ds)))).
      2: { intros y Iy. apply zrange_In in Iy. apply mapM_spec. intros x Ix. apply zrange_In in Ix. rewrite GV by lia. cbn [bind]. unfold flipped. apply HN; [lia|apply ROW; lia]. }
      cbn [bind]. eexists. split; [reflexivity|]. split; [rewrite map_length, zrange_length; reflexivity|]. split; [intros r Hr; apply in_map_iff in Hr; destruct Hr as (y & <- & _); rewrite map_length, zrange_length; reflexivity|].
      intros x y Hx Hy. erewrite map_nth_error by (apply zrange_nth'; lia). erewrite map_nth_error by (apply zrange_nth'; lia). rewrite !Z2Nat.id, !Z.add_0_l by lia. reflexivity.
    + intros x y Hx Hy HU. rewrite mapM_undef; [reflexivity| |].
      * intros y' _. apply mapM_not_thrown. intros x' _. intros E. unfold get in E. pose proof (rd_not_thrown (a_data b) (xyToI b x' y')) as NT. destruct (rd (a_data b) _) as [q| |]; cbn [bind] in E; try congruence.
        unfold as_int in E. destruct q as [z|z|z]; [discriminate| |]; cbn [of_double] in E; match type of E with context[if ?c then _ else _] => destruct c end; cbn [bind] in E; discriminate.
      * exists (row y). split; [apply zrange_In; specialize (ROW y Hy); lia|]. apply mapM_undef.
        -- intros x' _. intros E. unfold get in E. pose proof (rd_not_thrown (a_data b) (xyToI b x' (row y))) as NT. destruct (rd (a_data b) _) as [q| |]; cbn [bind] in E; try congruence.
           unfold as_int in E. destruct q as [z|z|z]; [discriminate| |]; cbn [of_double] in E; match type of E with context[if ?c then _ else _] => destruct c end; cbn [bind] in E; discriminate.
        -- exists x. split; [apply zrange_In; lia|]. rewrite GV by (try apply ROW; assumption). cbn [bind]. unfold flipped. replace (if xorb v fv then ds_h ds - 1 - row y else row y) with y; [exact HU|]. subst row; cbv beta. destruct (xorb v fv); lia.
Qed.
Print Assumptions C96_display.

(** Cases: the 3x2 file of PropertiesGDAL. *)
Lemma neg_30 : neg (Q2Qc (inject_Z 30)) = false.
Proof. unfold neg. destruct (Qclt_le_dec (Q2Qc (inject_Z 30)) 0) as [H|H]; [|reflexivity]. exfalso. unfold Qclt in H. vm_compute in H. discriminate H. Qed.
Example C96_case : exists t, rd_raster_inspect ex_conv ex_fs ["-V"; "dem.tif"; "1"; "5"; "4"]%string = Ok (Some t) /\ t_x0 t = 0 /\ t_x1 t = 2 /\ t_y0 t = 1 /\ t_y1 t = 1 /\
  (shown t 2 1 = Some (VI 2)).
Proof.
  assert (SW : sideways ["-V"; "dem.tif"; "1"; "5"; "4"]%string ex_ds = false).
  { unfold sideways. cbn [existsb is_H]. change (nth 1 (geo_of ex_ds) 0%Qc) with (Q2Qc (inject_Z 30)). rewrite neg_30. reflexivity. }
  assert (UD : upside_down ["-V"; "dem.tif"; "1"; "5"; "4"]%string ex_ds = true).
  { unfold upside_down. change (nth 5 (geo_of ex_ds) 0%Qc) with (Q2Qc (inject_Z (-30))). unfold pos. destruct (Qclt_le_dec 0 (Q2Qc (inject_Z (-30)))) as [H|H]; [|reflexivity]. exfalso. unfold Qclt in H. vm_compute in H. discriminate H. }
  destruct (C96_centre ex_conv ex_fs ["-V"; "dem.tif"; "1"; "5"; "4"]%string "dem.tif" "1" "5" "4" 1 5 4 ex_ds _ eq_refl ex_readable ex_nd) as [E _]; try (cbn [ex_ds ds_w ds_h]; lia); try reflexivity; try exact SW.
  { discriminate. }
  { intros t H. destruct H as [<-|[<-|[<-|[<-|[]]]]]; reflexivity. }
  destruct E as (t & T1 & _ & T3 & T4 & T5 & T6 & T7 & _); try (cbn [ex_ds ds_w ds_h]; lia). cbn [ex_ds ds_w ds_h] in T3, T4, T5, T6. exists t. split; [exact T1|].
  split; [rewrite T3; lia|]. split; [rewrite T4; lia|]. split; [rewrite T5; lia|]. split; [rewrite T6; lia|]. rewrite T7 by (rewrite ?T3, ?T4, ?T5, ?T6; lia). rewrite UD. reflexivity.
Qed.
(** columns 2 to 3 of row 0: the second is cell (0,1) *)
Example C96_case_outside : exists t, rd_raster_inspect ex_conv ex_fs ["dem.tif"; "2"; "3"; "0"; "0"]%string = Ok (Some t) /\ shown t 3 0 = Some (VI 10).
Proof.
  assert (SW : sideways ["dem.tif"; "2"; "3"; "0"; "0"]%string ex_ds = false).
  { unfold sideways. change (nth 1 (geo_of ex_ds) 0%Qc) with (Q2Qc (inject_Z 30)). rewrite neg_30. reflexivity. }
  assert (UD : upside_down ["dem.tif"; "2"; "3"; "0"; "0"]%string ex_ds = false).
  { unfold upside_down. change (nth 5 (geo_of ex_ds) 0%Qc) with (Q2Qc (inject_Z (-30))). unfold pos. destruct (Qclt_le_dec 0 (Q2Qc (inject_Z (-30)))) as [H|H]; [|reflexivity]. exfalso. unfold Qclt in H. vm_compute in H. discriminate H. }
  destruct (C96_outside_refuted ex_conv ex_fs ["dem.tif"; "2"; "3"; "0"; "0"]%string "dem.tif" "2" "3" "0" "0" 2 3 0 0 ex_ds _ eq_refl ex_readable ex_nd) as (_ & E & _); try (cbn [ex_ds ds_w ds_h]; lia); try reflexivity.
  { discriminate. }
  { intros t H. destruct H as [<-|[<-|[<-|[<-|[<-|[]]]]]]; reflexivity. }
  destruct (E SW) as (t & T1 & T2); [cbn [ex_ds ds_w ds_h]; lia|]. exists t. split; [exact T1|]. rewrite T2 by lia. rewrite UD. reflexivity.
Qed.
Example C96_case_display : exists rows, rd_raster_display ex_conv ex_fs "dem.tif" "noflip" = Ok (Some (geo_of ex_ds, rows)) /\ List.length rows = 2%nat.
Proof.
  destruct (C96_display ex_conv ex_fs "dem.tif" "noflip" ex_ds _ eq_refl ex_readable ex_nd) as [_ E]; try (cbn [ex_ds ds_w ds_h]; lia). destruct (E false false eq_refl) as [_ E2].
  destruct E2 as [E3 _]. { change (nth 1 (geo_of ex_ds) 0%Qc) with (Q2Qc (inject_Z 30)). rewrite neg_30. reflexivity. }
  destruct (E3 (fun x y => 10 * y + x)) as (rows & R1 & R2 & _).
  { intros x y Hx Hy. cbn [ex_ds ds_w ds_h ds_cell] in *. unfold as_int. rewrite s32_id by lia. reflexivity. }
  exists rows. split; [exact R1|exact R2].
Qed.
Example C96_case_refused : rd_raster_inspect ex_conv ex_fs ["dem.tif"; " -5"; "3"; "-V"; "1"]%string = Ok None.
Proof.
  destruct (C96_refused ex_conv ex_fs ["dem.tif"; " -5"; "3"; "-V"; "1"]%string) as (_ & _ & H). destruct (H "dem.tif"%string [" -5"; "3"; "1"]%string [-5; 3; 1] eq_refl) as (_ & _ & K).
  { discriminate. }
  { intros t I. destruct I as [<-|[<-|[<-|[<-|[]]]]]; reflexivity. }
  { repeat (constructor; [split; [reflexivity|lia]|]). constructor. }
  apply (K 0%nat); cbn; lia.
Qed.
