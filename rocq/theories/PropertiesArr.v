(** C11-C15: rasters (Array2D). *)
From Coq Require Import ZArith List Lia Bool Permutation.
From Verif Require Import Base Res ArrModel ArrSpec ArrProofs ArrProofs2 ArrProofs3 CmpModel CacheModel CacheSpec CacheProofs.
Open Scope Z_scope.

(** A concrete raster used to show that hypotheses are met: 3 wide, 2 high. *)
Definition ex32 : arr Z := mkA 3 2 (-9) NO_I (nshift_table 3) true [1; 2; 3; 4; 5; 6].
Example ex32_wf : well_formed ex32.
Proof. constructor; cbn; try lia; reflexivity. Qed.
Definition junk0 (n : nat) : list Z := repeat 0 n.
Example junk0_ok : forall n, length (junk0 n) = n.
Proof. intros n. apply repeat_length. Qed.

(** ** C11 *)
(** Rasters built by the constructors satisfy the standing hypothesis of all theorems below. *)
Theorem C11_constructors {A} (junk : nat -> list A) (minus1 : A) (w h : Z) (v : A) (mem : list A) :
  (forall n, length (junk n) = n) -> 0 <= w <= 2 ^ 31 - 3 -> 0 <= h < 2 ^ 31 -> w * h < 2 ^ 31 ->
  (exists a, new_arr junk minus1 w h v = Ok a /\ well_formed a /\ a_w a = w /\ a_h a = h /\
     forall x y, 0 <= x < w -> 0 <= y < h -> cell a x y = Some v) /\
  (Z.of_nat (length mem) = w * h -> well_formed (wrap_arr minus1 mem w h) /\
     forall x y, 0 <= x < w -> 0 <= y < h -> cell (wrap_arr minus1 mem w h) x y = nth_error mem (Z.to_nat (y * w + x))).
Proof.
  intros HJ Hw Hh Hs. split.
  - destruct (resize_spec junk (mkA 0 0 minus1 NO_I [] true []) w h v HJ Hw Hh Hs (or_introl eq_refl))
      as [b [E [W [b1 [b2 [_ [_ [_ C]]]]]]]].
    exists b. auto.
  - intros L. split; [constructor; cbn; auto|]. intros x y Hx Hy. unfold cell, wrap_arr. cbn [a_w a_h a_data].
    assert (G : inGrid w h x y = true) by (apply inGrid_iff; lia). rewrite G. reflexivity.
Qed.
Print Assumptions C11_constructors.

Theorem C11_addressing_bijective {A} (a : arr A) :
  0 <= a_w a < 2 ^ 31 -> 0 <= a_h a < 2 ^ 31 -> a_w a * a_h a < 2 ^ 32 ->
  (forall x y, 0 <= x < a_w a -> 0 <= y < a_h a ->
     0 <= xyToI a x y < a_w a * a_h a /\ iToxy a (xyToI a x y) = Ok (x, y)) /\
  (forall i, 0 <= i < a_w a * a_h a ->
     exists x y, iToxy a i = Ok (x, y) /\ 0 <= x < a_w a /\ 0 <= y < a_h a /\ xyToI a x y = i).
Proof.
  intros H1 H2 H3. assert (D : dims_ok (a_w a) (a_h a)) by (split; auto).
  split; [intros; apply xy_i_roundtrip; auto|intros; apply i_xy_roundtrip; auto].
Qed.
Print Assumptions C11_addressing_bijective.

(** Displaced cell or the sentinel 2^32-1, for every int32 displacement; in particular for the eight neighbours. *)
Theorem C11_neighbour_lookup {A} (a : arr A) x y dx dy :
  0 <= a_w a < 2 ^ 31 -> 0 <= a_h a < 2 ^ 31 -> a_w a * a_h a < 2 ^ 32 ->
  0 <= x < a_w a -> 0 <= y < a_h a -> - 2 ^ 31 <= dx < 2 ^ 31 -> - 2 ^ 31 <= dy < 2 ^ 31 ->
  nToI a (xyToI a x y) dx dy =
    Ok (if inGrid (a_w a) (a_h a) (x + dx) (y + dy) then xyToI a (x + dx) (y + dy) else 2 ^ 32 - 1) /\
  (forall n, getN a (xyToI a x y) n =
    Ok (if inGrid (a_w a) (a_h a) (x + nth n d8x 0) (y + nth n d8y 0) then xyToI a (x + nth n d8x 0) (y + nth n d8y 0) else 2 ^ 32 - 1)) /\
  (forall x' y', 0 <= x' < a_w a -> 0 <= y' < a_h a -> xyToI a x' y' <> 2 ^ 32 - 1).
Proof.
  intros H1 H2 H3 Hx Hy Hdx Hdy. assert (D : dims_ok (a_w a) (a_h a)) by (split; auto).
  split; [apply nToI_val; auto|]. split.
  - intros n. pose proof (d8_small n). apply nToI_val; auto; pw; lia.
  - intros x' y' Hx' Hy'. pose proof (proj1 (xy_i_roundtrip a x' y' D Hx' Hy')). pw. lia.
Qed.
Print Assumptions C11_neighbour_lookup.

(** Adding nshift(n) to a cell's index (in uint32_t arithmetic) gives its n-th neighbour's index. *)
Theorem C11_nshift {A} (a : arr A) n x y : well_formed a -> (n <= 8)%nat -> 0 <= x < a_w a -> 0 <= y < a_h a ->
  0 <= x + nth n d8x 0 < a_w a -> 0 <= y + nth n d8y 0 < a_h a ->
  (xyToI a x y + nshift a n) mod 2 ^ 32 = xyToI a (x + nth n d8x 0) (y + nth n d8y 0).
Proof. exact (nshift_val a n x y). Qed.
Print Assumptions C11_nshift.

Theorem C11_edge_by_index {A} (a : arr A) x y :
  0 <= a_w a < 2 ^ 31 -> 0 <= a_h a < 2 ^ 31 -> a_w a * a_h a < 2 ^ 32 -> 0 <= x < a_w a -> 0 <= y < a_h a ->
  isEdgeCell_i a (xyToI a x y) = Ok ((x =? 0) || (y =? 0) || (x =? a_w a - 1) || (y =? a_h a - 1)).
Proof.
  intros H1 H2 H3 Hx Hy. assert (D : dims_ok (a_w a) (a_h a)) by (split; auto). unfold isEdgeCell_i.
  rewrite (proj2 (xy_i_roundtrip a x y D Hx Hy)). reflexivity.
Qed.
Print Assumptions C11_edge_by_index.

(** size() is only defined below 2^31 cells although indices are 32-bit unsigned. *)
Theorem C11_size_overflow {A} (a : arr A) : 0 <= a_w a < 2 ^ 31 -> 0 <= a_h a < 2 ^ 31 ->
  size a = if a_w a * a_h a <? 2 ^ 31 then Ok (a_w a * a_h a) else Undef.
Proof.
  intros Hw Hh. unfold size. pw. assert (0 <= a_w a * a_h a) by nia.
  destruct (Z.leb_spec (- (2147483648)) (a_w a * a_h a)); [|lia]. cbn [andb].
  destruct (Z.ltb_spec (a_w a * a_h a) 2147483648); [|reflexivity]. rewrite w32_id by (pw; lia). reflexivity.
Qed.
Print Assumptions C11_size_overflow.
Example C11_ex : xyToI ex32 2 1 = 5 /\ nToI ex32 5 1 0 = Ok NO_I /\ nToI ex32 5 (-2) (-1) = Ok 0 /\ getN ex32 4 3 = Ok 1.
Proof. vm_compute. auto. Qed.

(** Cell access *)
Theorem C11_get_set {A} (a : arr A) x y v : well_formed a -> 0 <= x < a_w a -> 0 <= y < a_h a ->
  (exists u, get a x y = Ok u /\ cell a x y = Some u) /\
  (exists b, set a x y v = Ok b /\ well_formed b /\ same_shape a b /\
    forall x' y', cell b x' y' = if (x' =? x) && (y' =? y) then Some v else cell a x' y').
Proof. intros H Hx Hy. split; [apply get_cell; auto|apply set_cell; auto]. Qed.
Print Assumptions C11_get_set.

(** ** C12 *)
Theorem C12_flipVert {A} (a : arr A) : well_formed a ->
  (exists b, flipVert a = Ok b /\ well_formed b /\ same_shape a b /\
    forall x y, 0 <= x < a_w a -> 0 <= y < a_h a -> cell b x y = cell a x (a_h a - 1 - y)) /\
  (do b <- flipVert a; flipVert b) = Ok a.
Proof. intros H. split; [apply flipVert_spec; auto|apply flipVert_involutive; auto]. Qed.
Print Assumptions C12_flipVert.
Example C12_flipVert_ex : exists b, flipVert ex32 = Ok b /\ a_data b = [4; 5; 6; 1; 2; 3].
Proof. eexists. split; reflexivity. Qed.

(** flipHorz accesses memory outside the raster for every non-empty raster. *)
Theorem C12_flipHorz_out_of_bounds_refuted {A} (a : arr A) :
  well_formed a -> 1 <= a_w a -> 1 <= a_h a -> flipHorz a = Undef.
Proof. exact (flipHorz_undefined a). Qed.
Print Assumptions C12_flipHorz_out_of_bounds_refuted.

(** transpose: identity on square rasters, correct on single rows and columns, otherwise only a
    rearrangement of the cells under swapped dimensions; the neighbour offsets are not updated. *)
Theorem C12_transpose {A} (a : arr A) : well_formed a ->
  (a_w a = a_h a -> transpose a = Ok a) /\
  (a_w a = 1 \/ a_h a = 1 -> exists b, transpose a = Ok b /\ a_w b = a_h a /\ a_h b = a_w a /\
     forall x y, 0 <= x < a_h a -> 0 <= y < a_w a -> cell b x y = cell a y x) /\
  (exists b, transpose a = Ok b /\ a_w b = a_h a /\ a_h b = a_w a /\ a_nshift b = a_nshift a /\ Permutation (a_data a) (a_data b)).
Proof. intros H. split; [apply transpose_square; auto|]. split; [apply transpose_line; auto|apply transpose_perm; auto]. Qed.
Print Assumptions C12_transpose.

Theorem C12_transpose_refuted :
  (exists (a b : arr Z) x y, well_formed a /\ a_w a = a_h a /\ transpose a = Ok b /\ 0 <= x < a_h a /\ 0 <= y < a_w a /\ cell b x y <> cell a y x) /\
  (exists (a b : arr Z) x y, well_formed a /\ a_w a <> a_h a /\ transpose a = Ok b /\ 0 <= x < a_h a /\ 0 <= y < a_w a /\ cell b x y <> cell a y x
     /\ a_nshift b <> nshift_table (a_w b)).
Proof.
  split.
  - exists (mkA 2 2 (-9) NO_I (nshift_table 2) true [1; 2; 3; 4]). eexists. exists 1, 0.
    split; [constructor; cbn; try lia; reflexivity|]. split; [reflexivity|]. split; [vm_compute; reflexivity|].
    split; [cbn; lia|]. split; [cbn; lia|]. vm_compute. discriminate.
  - exists ex32. eexists. exists 0, 1.
    split; [apply ex32_wf|]. split; [discriminate|]. split; [vm_compute; reflexivity|].
    split; [cbn; lia|]. split; [cbn; lia|]. split; vm_compute; discriminate.
Qed.
Print Assumptions C12_transpose_refuted.

(** ** C13 *)
Theorem C13_expand {A} (junk : nat -> list A) (a : arr A) nw nh v :
  (forall n, length (junk n) = n) -> well_formed a -> a_owned a = true ->
  a_w a <= nw <= 2 ^ 31 - 3 -> a_h a <= nh < 2 ^ 31 -> nw * nh < 2 ^ 31 ->
  exists b, expand junk a nw nh v = Ok b /\ well_formed b /\ a_w b = nw /\ a_h b = nh /\ a_nodata b = a_nodata a /\
    forall x y, 0 <= x < nw -> 0 <= y < nh ->
      cell b x y = if inGrid (a_w a) (a_h a) x y then cell a x y else Some v.
Proof. exact (expand_spec junk a nw nh v). Qed.
Print Assumptions C13_expand.

Theorem C13_expand_errors {A} (junk : nat -> list A) (a : arr A) nw nh v : well_formed a -> 0 <= nw -> 0 <= nh ->
  (nw < a_w a \/ nh < a_h a -> expand junk a nw nh v = Thrown) /\
  (a_owned a = false -> expand junk a nw nh v = if (nw =? a_w a) && (nh =? a_h a) then Ok a else Thrown).
Proof. intros H Hw Hh. split; [apply expand_throws; auto|intros; apply expand_wrapped; auto]. Qed.
Print Assumptions C13_expand_errors.
Example C13_ex : exists b, expand junk0 ex32 4 3 7 = Ok b /\ a_data b = [1; 2; 3; 7; 4; 5; 6; 7; 7; 7; 7; 7].
Proof. eexists. split; reflexivity. Qed.

(** ** C14 *)
(** A raster saved and loaded into a new object, or into itself after dumpData(), is unchanged. *)
Theorem C14_roundtrip k junk junk8 maxstr r :
  representable k r -> a_owned (r_arr r) = true -> (forall n, length (junk n) = n) -> length junk8 = 8%nat ->
  Z.of_nat (length (r_proj r)) <= maxstr ->
  (exists f, saveToCache k r = Ok f /\ loadNative k junk junk8 maxstr (fresh k) f = Ok r) /\
  (exists f d, dumpData k r = Ok (f, d) /\ a_data (r_arr d) = [] /\ loadData k junk junk8 maxstr d f = Ok r).
Proof.
  intros H Ho HJ H8 HM. split; [apply roundtrip; auto|].
  destruct (roundtrip k junk junk8 maxstr
     (mkR (mkA (a_w (r_arr r)) (a_h (r_arr r)) (a_nodata (r_arr r)) (a_ndc (r_arr r)) (a_nshift (r_arr r)) true []) (r_xoff r) (r_yoff r) (r_geo r) (r_proj r))
     r H Ho HJ H8 HM eq_refl eq_refl) as [f [E1 E2]].
  exists f. eexists. unfold dumpData. rewrite E1. cbn [bind]. split; [reflexivity|]. split; [reflexivity|]. exact E2.
Qed.
Print Assumptions C14_roundtrip.

(** A crash during saving leaves a prefix of the file. If the cut is after the fixed-size header
    (76+k bytes) loading reports success; every cell is truncated to the bytes that were written. *)
Theorem C14_truncated_file k junk junk8 maxstr r f m :
  representable k r -> (forall n, length (junk n) = n) -> length junk8 = 8%nat ->
  Z.of_nat (length (r_proj r)) <= maxstr ->
  saveToCache k r = Ok f -> (76 + k <= m <= length f)%nat ->
  length f = (76 + k + length (r_proj r) + k * length (a_data (r_arr r)))%nat /\
  exists r', loadNative k junk junk8 maxstr (fresh k) (firstn m f) = Ok r' /\
    a_w (r_arr r') = a_w (r_arr r) /\ a_h (r_arr r') = a_h (r_arr r) /\ a_nodata (r_arr r') = a_nodata (r_arr r) /\
    r_geo r' = r_geo r /\ length (r_proj r') = length (r_proj r) /\
    firstn (m - (76 + k)) (r_proj r') = firstn (m - (76 + k)) (r_proj r) /\
    forall c z, nth_error (a_data (r_arr r)) c = Some z ->
      nth_error (a_data (r_arr r')) c =
        Some (z mod 256 ^ Z.of_nat (Nat.min k (m - (76 + k + length (r_proj r) + c * k)))).
Proof.
  intros H HJ H8 HM Hf Hm. rewrite save_bytes in Hf by auto. assert (Ef : f = header k r ++ r_proj r ++ flat_map (le k) (a_data (r_arr r))) by congruence. clear Hf. subst f.
  pose proof (header_length k r (rp_geo k r H)) as HL.
  split; [rewrite (app_length (header k r)), app_length, HL, flat_map_le_length; lia|].
  destruct (load_cut k junk junk8 maxstr (fresh k) r (m - (76 + k)) H HJ H8 HM eq_refl eq_refl)
    as (r' & dat & E & Ea & Ex & Ey & Eg & Lp & Fp & Ld & C).
  exists r'. rewrite firstn_app, HL, firstn_all2 by (rewrite HL; lia). split; [exact E|]. rewrite Ea. cbn [a_w a_h a_nodata a_data].
  split; [auto|]. split; [auto|]. split; [auto|]. split; [auto|]. split; [auto|]. split; [auto|].
  intros c z Hc. rewrite (C c z Hc). replace (m - (76 + k) - length (r_proj r) - c * k)%nat with (m - (76 + k + length (r_proj r) + c * k))%nat by lia.
  reflexivity.
Qed.
Print Assumptions C14_truncated_file.

Definition exr : raster := mkR (mkA 3 2 255 6 (nshift_table 3) true [1; 2; 3; 4; 5; 6]) 0 0 [1; 2; 3; 4; 5; 6] [65; 66].
Example exr_ok : representable 1 exr.
Proof. constructor; cbn; unfold is_int32, is_byte; try lia; repeat constructor; cbn; lia. Qed.

(** Hence a truncated cache file is not detected and yields a different raster. *)
Theorem C14_truncation_undetected_refuted : exists r f r',
  representable 1 r /\ saveToCache 1 r = Ok f /\
  loadNative 1 junk0 (repeat 0 8) 1000 (fresh 1) (firstn (length f - 1) f) = Ok r' /\ a_data (r_arr r') <> a_data (r_arr r).
Proof.
  exists exr. eexists. eexists. split; [exact exr_ok|]. split; [vm_compute; reflexivity|].
  split; [vm_compute; reflexivity|]. vm_compute. discriminate.
Qed.
Print Assumptions C14_truncation_undetected_refuted.

(** Saving a raster whose geotransform was never set, or whose data are not loaded, is undefined. *)
Theorem C14_save_preconditions k r : well_formed (mkA (a_w (r_arr r)) (a_h (r_arr r)) (a_nodata (r_arr r)) 0 (nshift_table (a_w (r_arr r))) true
     (repeat 0 (Z.to_nat (a_w (r_arr r) * a_h (r_arr r))))) ->
  (length (r_geo r) < 6)%nat \/ Z.of_nat (length (a_data (r_arr r))) < a_w (r_arr r) * a_h (r_arr r) -> saveToCache k r = Undef.
Proof.
  intros W Hc. unfold saveToCache. destruct (Z.ltb_spec (Z.of_nat (length (r_geo r))) 6); [reflexivity|].
  assert (E : size (r_arr r) = Ok (a_w (r_arr r) * a_h (r_arr r))) by (exact (size_ok _ W)).
  rewrite E. cbn [bind]. destruct (Z.ltb_spec (Z.of_nat (length (a_data (r_arr r)))) (a_w (r_arr r) * a_h (r_arr r))); [reflexivity|lia].
Qed.
Print Assumptions C14_save_preconditions.

(** ** C15 *)
(** min()/max(): [None] is NaN, [M] the largest (smallest) value of the type. *)
Theorem C15_min_max (a : arr elev) M m0 : well_formed a ->
  (exists m, min_val feq flt (Some M) a = Ok (Some m) /\ m <= M /\
    (m = M \/ (In (Some m) (a_data a) /\ feq (Some m) (a_nodata a) = false)) /\
    (forall z, In (Some z) (a_data a) -> feq (Some z) (a_nodata a) = false -> m <= z)) /\
  (exists m, max_val feq flt (Some m0) a = Ok (Some m) /\ m0 <= m /\
    (m = m0 \/ (In (Some m) (a_data a) /\ feq (Some m) (a_nodata a) = false)) /\
    (forall z, In (Some z) (a_data a) -> feq (Some z) (a_nodata a) = false -> z <= m)).
Proof. intros H. split; [apply min_spec; auto|apply max_spec; auto]. Qed.
Print Assumptions C15_min_max.
Definition exf : arr elev := mkA 3 1 (Some (-9)) NO_I (nshift_table 3) true [None; Some (-9); Some 4].
Example exf_min : well_formed exf /\ min_val feq flt (Some 100) exf = Ok (Some 4) /\ max_val feq flt (Some (-100)) exf = Ok (Some 4).
Proof. split; [constructor; cbn; try lia; reflexivity|]. split; reflexivity. Qed.

Theorem C15_countval {A} (eqb : A -> A -> bool) (a : arr A) v : well_formed a ->
  countval eqb a v = Ok (Z.of_nat (length (filter (fun d => eqb d v) (a_data a)))).
Proof. exact (countval_spec eqb a v). Qed.
Print Assumptions C15_countval.

Theorem C15_replace {A} (eqb : A -> A -> bool) (a : arr A) oldv newv : well_formed a ->
  exists b, replace eqb a oldv newv = Ok b /\ well_formed b /\ same_shape a b /\
    forall x y, cell b x y = option_map (fun d => if eqb d oldv then newv else d) (cell a x y).
Proof. exact (replace_spec eqb a oldv newv). Qed.
Print Assumptions C15_replace.

Theorem C15_bulk_set {A} (a : arr A) v : well_formed a ->
  (exists b, setAll a v = Ok b /\ well_formed b /\ same_shape a b /\
     forall x y, 0 <= x < a_w a -> 0 <= y < a_h a -> cell b x y = Some v) /\
  (forall y, 0 <= y < a_h a -> exists b, setRow a y v = Ok b /\ well_formed b /\ same_shape a b /\
     forall x' y', cell b x' y' = if inGrid (a_w a) (a_h a) x' y' && (y' =? y) then Some v else cell a x' y') /\
  (forall x, 0 <= x < a_w a -> exists b, setCol a x v = Ok b /\ well_formed b /\ same_shape a b /\
     forall x' y', cell b x' y' = if inGrid (a_w a) (a_h a) x' y' && (x' =? x) then Some v else cell a x' y') /\
  (1 <= a_w a -> 1 <= a_h a -> exists b, setEdges a v = Ok b /\ well_formed b /\ same_shape a b /\
     forall x y, 0 <= x < a_w a -> 0 <= y < a_h a ->
       cell b x y = if (x =? 0) || (y =? 0) || (x =? a_w a - 1) || (y =? a_h a - 1) then Some v else cell a x y).
Proof.
  intros H. split; [apply setAll_spec; auto|]. split; [intros; apply setRow_spec; auto|].
  split; [intros; apply setCol_spec; auto|intros; apply setEdges_spec; auto].
Qed.
Print Assumptions C15_bulk_set.

Theorem C15_border_copies {A} (a : arr A) : well_formed a -> 1 <= a_w a -> 1 <= a_h a ->
  (exists r, topRow a = Ok r /\ Z.of_nat (length r) = a_w a /\ forall x, 0 <= x < a_w a -> nth_error r (Z.to_nat x) = cell a x 0) /\
  (exists r, bottomRow a = Ok r /\ Z.of_nat (length r) = a_w a /\ forall x, 0 <= x < a_w a -> nth_error r (Z.to_nat x) = cell a x (a_h a - 1)) /\
  (exists r, leftColumn a = Ok r /\ Z.of_nat (length r) = a_h a /\ forall y, 0 <= y < a_h a -> nth_error r (Z.to_nat y) = cell a 0 y) /\
  (exists r, rightColumn a = Ok r /\ Z.of_nat (length r) = a_h a /\ forall y, 0 <= y < a_h a -> nth_error r (Z.to_nat y) = cell a (a_w a - 1) y) /\
  (forall y, 0 <= y < a_h a -> exists r, getRowData a y = Ok r /\ Z.of_nat (length r) = a_w a /\ forall x, 0 <= x < a_w a -> nth_error r (Z.to_nat x) = cell a x y) /\
  (forall x, 0 <= x < a_w a -> exists r, getColData a x = Ok r /\ Z.of_nat (length r) = a_h a /\ forall y, 0 <= y < a_h a -> nth_error r (Z.to_nat y) = cell a x y).
Proof.
  intros H Hw Hh. split; [apply getRow_spec; auto; lia|]. split; [apply getRow_spec; auto; lia|].
  split; [apply getCol_spec; auto; lia|]. split; [apply getCol_spec; auto; lia|].
  split; intros; [apply getRow_spec; auto|apply getCol_spec; auto].
Qed.
Print Assumptions C15_border_copies.

(** numDataCells(): exact on first use; afterwards the remembered number whatever was written since. *)
Theorem C15_numDataCells {A} (eqb : A -> A -> bool) (a : arr A) : well_formed a ->
  (a_ndc a = NO_I ->
    let c := Z.of_nat (length (filter (fun d => negb (eqb d (a_nodata a))) (a_data a))) in
    exists b, numDataCells eqb a = Ok (c, b) /\ a_w b = a_w a /\ a_h b = a_h a /\ a_data b = a_data a /\ a_nodata b = a_nodata a /\
      forall l, exists b', numDataCells eqb (with_data b l) = Ok (c, b')) /\
  (a_ndc a <> NO_I -> numDataCells eqb a = Ok (a_ndc a, a)).
Proof.
  intros H. destruct (numDataCells_spec eqb a H) as [H1 H2]. split; [|exact H2].
  intros Hn c. destruct (H1 Hn) as (b & E & En & Ne & Ew & Eh & Ed & Ex). exists b. split; [exact E|].
  split; [auto|]. split; [auto|]. split; [auto|]. split; [auto|].
  intros l. unfold numDataCells. cbn [with_data a_ndc]. rewrite En.
  destruct (Z.eqb_spec (Z.of_nat (length (filter (fun d => negb (eqb d (a_nodata a))) (a_data a)))) NO_I); [contradiction|].
  eexists. reflexivity.
Qed.
Print Assumptions C15_numDataCells.

Theorem C15_numDataCells_stale_refuted : exists (a b c : arr Z) n m,
  well_formed a /\ numDataCells Z.eqb a = Ok (n, b) /\ setAll b (a_nodata b) = Ok c /\ numDataCells Z.eqb c = Ok (m, c) /\
  m <> Z.of_nat (length (filter (fun d => negb (Z.eqb d (a_nodata c))) (a_data c))).
Proof.
  exists ex32. eexists. eexists. exists 6, 6. split; [exact ex32_wf|]. split; [reflexivity|]. split; [reflexivity|].
  split; [reflexivity|]. vm_compute. discriminate.
Qed.
Print Assumptions C15_numDataCells_stale_refuted.

(** operator==: same dimensions, same NoData value and cellwise equal; [eqb] is the type's ==, so a
    raster with a NaN cell or NaN NoData is not even equal to itself. *)
Theorem C15_equality {A} (eqb : A -> A -> bool) (a b : arr A) : well_formed a -> well_formed b ->
  exists r, arr_eq eqb a b = Ok r /\
    (r = true <-> a_w a = a_w b /\ a_h a = a_h b /\ eqb (a_nodata a) (a_nodata b) = true /\
       forall x y u v, cell a x y = Some u -> cell b x y = Some v -> eqb u v = true).
Proof. exact (arr_eq_spec eqb a b). Qed.
Print Assumptions C15_equality.
Example C15_nan_ex : arr_eq feq exf exf = Ok false /\ arr_eq Z.eqb ex32 ex32 = Ok true.
Proof. split; reflexivity. Qed.
