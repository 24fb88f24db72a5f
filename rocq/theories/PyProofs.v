(** Proofs about the Python package: memory, views, copies. *)
From Coq Require Import ZArith List Lia Bool String.
From Verif Require Import Base Res PyModel PySpec.
Open Scope Z_scope.
Open Scope list_scope.

Lemma ix_nth {A} (l : list A) i : 0 <= i -> ix l i = nth_error l (Z.to_nat i).
Proof. intros H. unfold ix. destruct (Z.ltb_spec i 0); [lia|reflexivity]. Qed.
Lemma ix_neg {A} (l : list A) i : i < 0 -> ix l i = None.
Proof. intros H. unfold ix. destruct (Z.ltb_spec i 0); [reflexivity|lia]. Qed.
Lemma nth_error_skipn' {A} (l : list A) k i : nth_error (skipn k l) i = nth_error l (k + i)%nat.
Proof. revert l. induction k as [|k IH]; intros [|a l]; cbn; auto; destruct i; reflexivity. Qed.
Lemma nth_error_firstn' {A} (l : list A) k i : nth_error (firstn k l) i = if (i <? k)%nat then nth_error l i else None.
Proof.
  revert l i. induction k as [|k IH]; intros l i; cbn [firstn].
  - destruct i; reflexivity.
  - destruct l as [|a l]; [destruct i as [|i]; cbn [nth_error]; [reflexivity|destruct (Nat.ltb (S i) (S k)); reflexivity]|].
    destruct i as [|i]; [reflexivity|]. cbn [nth_error]. rewrite IH. reflexivity.
Qed.
Lemma nth_error_eq_ext {A} (l l' : list A) : (forall i, nth_error l i = nth_error l' i) -> l = l'.
Proof.
  revert l'. induction l as [|a l IH]; intros [|b l'] H; auto.
  - specialize (H 0%nat). discriminate.
  - specialize (H 0%nat). discriminate.
  - f_equal; [specialize (H 0%nat); cbn in H; congruence|]. apply IH. intros i. exact (H (S i)).
Qed.
Lemma upd_same {A} n (v : A) l : (n < length l)%nat -> nth_error (upd_nth n v l) n = Some v.
Proof. revert l. induction n as [|n IH]; intros [|a l] H; cbn in *; try lia; auto. apply IH. lia. Qed.
Lemma upd_other {A} n m (v : A) l : n <> m -> nth_error (upd_nth n v l) m = nth_error l m.
Proof. revert m l. induction n as [|n IH]; intros [|m] [|a l] H; cbn; try reflexivity; try congruence. apply IH. congruence. Qed.
Lemma nth_some_lt {A} (l : list A) n a : nth_error l n = Some a -> (n < length l)%nat.
Proof. intros H. apply nth_error_Some. congruence. Qed.

(** contiguous arrays: the strides that matter are those of C order *)
Lemma contig2 h w s0 s1 y x : 0 < h -> 0 < w -> c_contiguous [h; w] [s0; s1] = true -> 0 <= y < h -> 0 <= x < w ->
  dot [y; x] [s0; s1] = y * w + x.
Proof.
  intros Hh Hw C Hy Hx. unfold c_contiguous in C. cbn [existsb rev app] in C.
  destruct (Z.eqb_spec 0 h); [lia|]. destruct (Z.eqb_spec 0 w); [lia|]. cbn [orb] in C. unfold dot. cbn [contig_from] in C.
  destruct (Z.eqb_spec w 1) as [W|W].
  - assert (x = 0) by lia. subst x w. destruct (Z.eqb_spec h 1) as [H|H].
    + assert (y = 0) by lia. subst y. lia.
    + rewrite andb_true_iff in C. destruct C as [C _]. apply Z.eqb_eq in C. subst s0. lia.
  - rewrite andb_true_iff in C. destruct C as [C1 C2]. apply Z.eqb_eq in C1. subst s1. rewrite Z.mul_1_l in C2.
    destruct (Z.eqb_spec h 1) as [H|H].
    + assert (y = 0) by lia. subst y. lia.
    + rewrite andb_true_iff in C2. destruct C2 as [C2 _]. apply Z.eqb_eq in C2. subst s0. lia.
Qed.
Lemma c_strides_contig h w : 0 < h -> 0 < w -> c_contiguous [h; w] (c_strides [h; w]) = true.
Proof.
  intros Hh Hw. unfold c_contiguous. apply orb_true_iff. right. unfold c_strides, prodZ. cbn [fold_right rev app contig_from].
  rewrite Z.mul_1_r, Z.mul_1_l, !Z.eqb_refl. destruct (Z.eqb_spec w 1) as [W|W]; [subst w|]; destruct (h =? 1); reflexivity.
Qed.

Section P.
  Context {E : env}.
  Notation obj := (obj (F E)). Notation state := (state (F E) (V E)). Notation py := (py (F E) (V E)).

  (** row-major enumeration *)
  Lemma rows_eq (g : Z -> Z -> option (V E)) w : forall (n : nat) y0 l, 0 < w -> Z.of_nat (length l) = Z.of_nat n * w ->
    (forall y x, 0 <= y < Z.of_nat n -> 0 <= x < w -> g (y0 + y) x = ix l (y * w + x)) ->
    flat_map (fun y => map (g y) (zrange 0 (Z.to_nat w))) (zrange y0 n) = map Some l.
  Proof.
    induction n as [|n IH]; intros y0 l Hw L G.
    - destruct l; [reflexivity|cbn [length] in L; lia].
    - cbn [zrange flat_map].
      assert (L1 : length (firstn (Z.to_nat w) l) = Z.to_nat w) by (rewrite firstn_length; nia).
      assert (X : map (g y0) (zrange 0 (Z.to_nat w)) = map Some (firstn (Z.to_nat w) l)).
      { apply nth_error_eq_ext. intros i. rewrite !nth_error_map. destruct (Nat.ltb i (Z.to_nat w)) eqn:Hi.
        - apply Nat.ltb_lt in Hi. assert (Z1 : nth_error (zrange 0 (Z.to_nat w)) i = Some (Z.of_nat i)).
          { clear - Hi. enough (G : forall n a i, (i < n)%nat -> nth_error (zrange a n) i = Some (a + Z.of_nat i)).
            { rewrite G by lia. f_equal; lia. }
            clear. induction n as [|n IH]; intros a i Hi; [lia|]. destruct i as [|i]; cbn [zrange nth_error]; [f_equal; lia|].
            rewrite IH by lia. f_equal. lia. }
          rewrite Z1. cbn [option_map]. rewrite nth_error_firstn'. rewrite (proj2 (Nat.ltb_lt _ _) Hi).
          pose proof (G 0 (Z.of_nat i) ltac:(lia) ltac:(lia)) as Q. rewrite Z.add_0_r in Q. rewrite Q. rewrite ix_nth by lia.
          replace (Z.to_nat (0 * w + Z.of_nat i)) with i by lia.
          destruct (nth_error l i) eqn:N; [reflexivity|]. apply nth_error_None in N. nia.
        - apply Nat.ltb_ge in Hi. rewrite (proj2 (nth_error_None _ i)) by (rewrite zrange_length; lia).
          rewrite (proj2 (nth_error_None _ i)) by lia. reflexivity. }
      rewrite X, (IH (y0 + 1) (skipn (Z.to_nat w) l) Hw).
      + rewrite <- map_app, firstn_skipn. reflexivity.
      + rewrite skipn_length. nia.
      + intros y x Hy Hx. replace (y0 + 1 + y) with (y0 + (y + 1)) by lia. rewrite G by lia. rewrite !ix_nth by nia.
        rewrite nth_error_skipn'. f_equal. nia.
  Qed.

  Lemma allSome_map {A} (l : list A) : allSome (map Some l) = Some l.
  Proof. induction l as [|a l IH]; [reflexivity|]. cbn [map allSome fold_right]. unfold allSome in IH. rewrite IH. reflexivity. Qed.

  Lemma indices2 h w (f : list Z -> option (V E)) :
    map f (indices [h; w]) = flat_map (fun y => map (fun x => f [y; x]) (zrange 0 (Z.to_nat w))) (zrange 0 (Z.to_nat h)).
  Proof.
    assert (X : indices [w] = map (fun x => [x]) (zrange 0 (Z.to_nat w))).
    { cbn [indices map]. induction (zrange 0 (Z.to_nat w)) as [|x q IHq]; [reflexivity|]. cbn [flat_map map app]. rewrite IHq. reflexivity. }
    change (indices [h; w]) with (flat_map (fun i => map (cons i) (indices [w])) (zrange 0 (Z.to_nat h))). rewrite X. clear X.
    induction (zrange 0 (Z.to_nat h)) as [|y r IH]; [reflexivity|].
    cbn [flat_map]. rewrite map_app, IH. f_equal. rewrite !map_map. reflexivity.
  Qed.

  Lemma elems_list (s : state) (o : obj) h w l : 0 < h -> 0 < w -> o_shape o = [h; w] -> Z.of_nat (length l) = h * w ->
    (forall y x, 0 <= y < h -> 0 <= x < w -> elem s o [y; x] = ix l (y * w + x)) ->
    allSome (map (elem s o) (indices (o_shape o))) = Some l.
  Proof.
    intros Hh Hw S L G. rewrite S, indices2. rewrite (rows_eq (fun y x => elem s o [y; x]) w (Z.to_nat h) 0 l Hw).
    - apply allSome_map.
    - rewrite Z2Nat.id by lia. exact L.
    - intros y x Hy Hx. apply G; lia.
  Qed.

  (** the region of memory of a contiguous array *)
  Lemma region (s : state) (o : obj) h w l : 0 < h -> 0 < w -> o_shape o = [h; w] -> length (o_strides o) = 2%nat -> Z.of_nat (length l) = h * w ->
    c_contiguous (o_shape o) (o_strides o) = true ->
    (forall y x, 0 <= y < h -> 0 <= x < w -> elem s o [y; x] = ix l (y * w + x)) ->
    exists b, nth_error (s_mem s) (o_block o) = Some b /\ 0 <= o_off o /\ o_off o + h * w <= Z.of_nat (length b) /\
      firstn (Z.to_nat (h * w)) (skipn (Z.to_nat (o_off o)) b) = l.
  Proof.
    intros Hh Hw S St L C G. rewrite S in C. destruct (o_strides o) as [|s0 [|s1 [|? ?]]] eqn:Es; try discriminate.
    assert (D : forall y x, 0 <= y < h -> 0 <= x < w -> dot [y; x] (o_strides o) = y * w + x).
    { intros y x Hy Hx. rewrite Es. apply (contig2 h); auto. }
    assert (X : forall y x, 0 <= y < h -> 0 <= x < w -> exists v, ix l (y * w + x) = Some v).
    { intros y x Hy Hx. apply ix_some_iff. nia. }
    unfold elem in G. destruct (nth_error (s_mem s) (o_block o)) as [b|] eqn:Eb.
    2:{ destruct (X 0 0 ltac:(lia) ltac:(lia)) as [v V1]. rewrite <- G in V1 by lia. discriminate. }
    exists b. split; [reflexivity|].
    assert (I : forall y x, 0 <= y < h -> 0 <= x < w -> 0 <= o_off o + (y * w + x) < Z.of_nat (length b)).
    { intros y x Hy Hx. apply ix_some_iff. rewrite <- (D y x) by auto. rewrite G by auto. apply X; auto. }
    pose proof (I 0 0 ltac:(lia) ltac:(lia)) as I0. pose proof (I (h - 1) (w - 1) ltac:(lia) ltac:(lia)) as I1.
    split; [lia|]. split; [nia|].
    apply nth_error_eq_ext. intros i. rewrite nth_error_firstn', nth_error_skipn'. destruct (Nat.ltb_spec i (Z.to_nat (h * w))) as [Hi|Hi].
    - set (y := Z.of_nat i / w). set (x := Z.of_nat i mod w).
      assert (Ei : Z.of_nat i = y * w + x) by (unfold x, y; rewrite (Z.div_mod (Z.of_nat i) w) at 1 by lia; lia).
      assert (Hx : 0 <= x < w) by (apply Z.mod_pos_bound; lia). assert (Hy : 0 <= y < h).
      { unfold y. split; [apply Z.div_pos; lia|]. apply Z.div_lt_upper_bound; lia. }
      specialize (G y x Hy Hx). rewrite (D y x Hy Hx) in G. rewrite !ix_nth in G by nia.
      replace (Z.to_nat (o_off o) + i)%nat with (Z.to_nat (o_off o + (y * w + x))) by lia. rewrite G. f_equal. lia.
    - symmetry. apply nth_error_None. lia.
  Qed.

  (** what [wrap] gives for a usable raster *)
  Lemma wrap_raster (s : state) r (o : obj) h w l nd : raster s r o h w l nd ->
    wrap r s = Ret (mkW (if contiguous o then Some (o_block o, o_off o) else None) (o_dtype o) w h (1 * w * h) nd) s.
  Proof.
    intros [Ho [K [D [Hh [Hw [S [St [Sh C]]]]]]]]. unfold wrap, seq, getobj, construct. unfold object in Ho. rewrite Ho, K.
    assert (De : dtype_eqb (o_dtype o) Other = false) by (destruct (o_dtype o); try reflexivity; congruence).
    rewrite De. unfold seq, getobj. rewrite Ho, S. cbn [length Nat.eqb negb nth]. unfold ret. cbn [w_loc w_dtype w_w w_h w_len].
    replace (match o_nodata o with Some n => n | None => PInt (-9999) end) with (match o_nodata o with None => PInt (-9999) | Some n => n end) in C by reflexivity.
    rewrite C. unfold contiguous. rewrite S. reflexivity.
  Qed.

  Lemma load_region (s : state) b off n dt w h nd blk l : nth_error (s_mem s) b = Some blk -> 0 <= off -> off + n <= Z.of_nat (length blk) ->
    firstn (Z.to_nat n) (skipn (Z.to_nat off) blk) = l ->
    load (mkW (Some (b, off)) dt w h n nd) s = Ret (mkAval dt w h nd l) s.
  Proof.
    intros B O L Q. unfold load. cbn [w_loc w_len w_dtype w_w w_h w_nd]. rewrite B.
    rewrite (proj2 (Z.leb_le _ _) O), (proj2 (Z.leb_le _ _) L). cbn [andb]. rewrite Q. reflexivity.
  Qed.

  Definition splice (blk : list (V E)) (off n : Z) (d : list (V E)) : list (V E) :=
    firstn (Z.to_nat off) blk ++ firstn (Z.to_nat n) d ++ skipn (Z.to_nat off + length (firstn (Z.to_nat n) d)) blk.
  Lemma store_region (s : state) b off n dt w h nd blk d : nth_error (s_mem s) b = Some blk ->
    store (mkW (Some (b, off)) dt w h n nd) d s = Ret tt (mkState (upd_nth b (splice blk off n d) (s_mem s)) (s_objs s)).
  Proof. intros B. unfold store. cbn [w_loc w_len]. rewrite B. reflexivity. Qed.

  Lemma splice_ix blk off n d i : 0 <= off -> Z.of_nat (length d) = n -> off + n <= Z.of_nat (length blk) -> 0 <= i ->
    ix (splice blk off n d) i = if (off <=? i) && (i <? off + n) then ix d (i - off) else ix blk i.
  Proof.
    intros O L Q I. rewrite ix_nth by lia. unfold splice. rewrite (firstn_all2 (n := Z.to_nat n) d) by lia.
    assert (L1 : length (firstn (Z.to_nat off) blk) = Z.to_nat off) by (rewrite firstn_length; lia).
    destruct (Z.leb_spec off i) as [H|H].
    - rewrite nth_error_app2 by lia. rewrite L1. destruct (Z.ltb_spec i (off + n)) as [H2|H2]; cbn [andb].
      + rewrite nth_error_app1 by lia. rewrite ix_nth by lia. f_equal. lia.
      + rewrite nth_error_app2 by lia. rewrite nth_error_skipn', ix_nth by lia. f_equal. lia.
    - cbn [andb]. rewrite nth_error_app1 by lia. rewrite nth_error_firstn'. rewrite ix_nth by lia.
      destruct (Nat.ltb_spec (Z.to_nat i) (Z.to_nat off)); [reflexivity|lia].
  Qed.

  Lemma elem_mem (s : state) (o : obj) idx : elem s o idx = mem_at s (o_block o) (o_off o + dot idx (o_strides o)).
  Proof. reflexivity. Qed.

  (** memory after C++ has written [d] over a region *)
  Lemma mem_after (s : state) b off n blk d objs b' i : nth_error (s_mem s) b = Some blk -> 0 <= off -> Z.of_nat (length d) = n ->
    off + n <= Z.of_nat (length blk) ->
    mem_at (mkState (upd_nth b (splice blk off n d) (s_mem s)) objs) b' i =
    if ((b' =? b)%nat && (off <=? i) && (i <? off + n)) then ix d (i - off) else mem_at s b' i.
  Proof.
    intros B O L Q. unfold mem_at. cbn [s_mem]. destruct (Nat.eqb_spec b' b) as [->|N].
    - rewrite upd_same by (eapply nth_some_lt; eauto). rewrite B. cbn [andb]. destruct (Z_lt_ge_dec i 0) as [I|I].
      + rewrite !ix_neg by lia. destruct (Z.leb_spec off i); [lia|reflexivity].
      + apply splice_ix; auto; lia.
    - rewrite upd_other by congruence. reflexivity.
  Qed.

  Definition with_hist (o : obj) (a : string) : obj :=
    mkObj (o_kind o) (o_block o) (o_off o) (o_shape o) (o_strides o) (o_dtype o) (o_nodata o) (o_geo o) (o_proj o) (o_hist o ++ [a]).
  Definition with_nd (o : obj) (n : num (F E)) : obj :=
    mkObj (o_kind o) (o_block o) (o_off o) (o_shape o) (o_strides o) (o_dtype o) (Some n) (o_geo o) (o_proj o) (o_hist o).

  (** changing attributes that do not matter for the memory *)
  Lemma raster_upd (s : state) r (o : obj) (o' : obj) h w l nd : raster s r o h w l nd -> o_kind o' = o_kind o -> o_block o' = o_block o -> o_off o' = o_off o ->
    o_shape o' = o_shape o -> o_strides o' = o_strides o -> o_dtype o' = o_dtype o -> o_nodata o' = o_nodata o ->
    raster (mkState (s_mem s) (upd_nth r o' (s_objs s))) r o' h w l nd.
  Proof.
    intros [Ho [K [D [Hh [Hw [S [St [[o2 [Ho2 [S2 [L2 G]]]] C]]]]]]]] E1 E2 E3 E4 E5 E6 E7.
    assert (o2 = o) by congruence. subst o2. assert (X : object (mkState (s_mem s) (upd_nth r o' (s_objs s))) r = Some o').
    { unfold object. cbn [s_objs]. apply upd_same. unfold object in Ho. eapply nth_some_lt; eauto. }
    unfold raster. rewrite E1, E4, E5, E6, E7. repeat (split; [assumption|]). split; [|exact C].
    exists o'. rewrite E4. repeat (split; [assumption|]). intros y x Hy Hx. rewrite <- G by auto. rewrite !elem_mem, E2, E3, E5. reflexivity.
  Qed.

  Lemma add_analysis (s : state) r (o : obj) a : object s r = Some o -> o_kind o <> KNumpy ->
    AddAnalysis r a s = Ret tt (mkState (s_mem s) (upd_nth r (with_hist o a) (s_objs s))).
  Proof. intros H K. unfold AddAnalysis, seq, getobj. unfold object in H. rewrite H. destruct (o_kind o) eqn:Ek; try congruence; unfold setobj, with_hist; rewrite Ek; reflexivity. Qed.
  Lemma copy_from (s : state) r (o : obj) n : object s r = Some o -> copyFromWrapped r n s = Ret tt (mkState (s_mem s) (upd_nth r (with_nd o n) (s_objs s))).
  Proof. intros H. unfold copyFromWrapped, seq, getobj. unfold object in H. rewrite H. reflexivity. Qed.

  Lemma raster_region (s : state) r (o : obj) h w l nd : raster s r o h w l nd -> contiguous o = true ->
    exists b, nth_error (s_mem s) (o_block o) = Some b /\ 0 <= o_off o /\ o_off o + h * w <= Z.of_nat (length b) /\
      firstn (Z.to_nat (h * w)) (skipn (Z.to_nat (o_off o)) b) = l /\ Z.of_nat (length l) = h * w.
  Proof.
    intros [Ho [K [D [Hh [Hw [S [St [[o2 [Ho2 [S2 [L2 G]]]] C]]]]]]]] CC. assert (o2 = o) by congruence. subst o2.
    destruct (region s o h w l Hh Hw S St L2 CC G) as [b [B1 [B2 [B3 B4]]]]. exists b. auto.
  Qed.

  (** the cells of a contiguous raster are one stretch of memory *)
  Lemma cells_stretch (o : obj) h w b i : 0 < h -> 0 < w -> o_shape o = [h; w] -> length (o_strides o) = 2%nat -> contiguous o = true ->
    (cell_of o h w b i <-> b = o_block o /\ o_off o <= i < o_off o + h * w).
  Proof.
    intros Hh Hw S St C. unfold contiguous in C. rewrite S in C. destruct (o_strides o) as [|s0 [|s1 [|? ?]]] eqn:Es; try discriminate.
    unfold cell_of. rewrite Es. split.
    - intros [B [y [x [Hy [Hx ->]]]]]. split; [exact B|]. rewrite (contig2 h w s0 s1 y x Hh Hw C Hy Hx). nia.
    - intros [B I]. split; [exact B|]. exists ((i - o_off o) / w), ((i - o_off o) mod w).
      assert (Hx : 0 <= (i - o_off o) mod w < w) by (apply Z.mod_pos_bound; lia).
      assert (Hy : 0 <= (i - o_off o) / w < h) by (split; [apply Z.div_pos; lia|apply Z.div_lt_upper_bound; lia]).
      split; [exact Hy|]. split; [exact Hx|]. rewrite (contig2 h w s0 s1 _ _ Hh Hw C Hy Hx).
      pose proof (Z.div_mod (i - o_off o) w ltac:(lia)). lia.
  Qed.

  (** write [d] over the cells of [o] *)
  Definition overwrite (s : state) (o : obj) (h w : Z) (d : list (V E)) : state :=
    match nth_error (s_mem s) (o_block o) with
    | Some blk => mkState (upd_nth (o_block o) (splice blk (o_off o) (h * w) d) (s_mem s)) (s_objs s)
    | None => s
    end.
  Lemma overwrite_mem (s : state) r (o : obj) h w l nd d b i : raster s r o h w l nd -> contiguous o = true -> length d = length l ->
    mem_at (overwrite s o h w d) b i =
    if ((b =? o_block o)%nat && (o_off o <=? i) && (i <? o_off o + h * w)) then ix d (i - o_off o) else mem_at s b i.
  Proof.
    intros R C L. destruct (raster_region _ _ _ _ _ _ _ R C) as [blk [B1 [B2 [B3 [B4 B5]]]]]. unfold overwrite. rewrite B1.
    apply mem_after; auto; lia.
  Qed.
  Lemma overwrite_objs (s : state) (o : obj) h w d : s_objs (overwrite s o h w d) = s_objs s.
  Proof. unfold overwrite. destruct (nth_error (s_mem s) (o_block o)); reflexivity. Qed.

  Lemma overwrite_shows (s : state) r (o : obj) h w l nd d : raster s r o h w l nd -> contiguous o = true -> length d = length l ->
    forall y x, 0 <= y < h -> 0 <= x < w -> elem (overwrite s o h w d) o [y; x] = ix d (y * w + x).
  Proof.
    intros R C L y x Hy Hx. rewrite elem_mem, (overwrite_mem s r o h w l nd d _ _ R C L).
    destruct R as [Ho [K [D [Hh [Hw [S [St _]]]]]]]. unfold contiguous in C. rewrite S in C.
    destruct (o_strides o) as [|s0 [|s1 [|? ?]]] eqn:Es; try discriminate.
    rewrite (contig2 h w s0 s1 y x Hh Hw C Hy Hx). rewrite Nat.eqb_refl.
    destruct (Z.leb_spec (o_off o) (o_off o + (y * w + x))); [|nia].
    destruct (Z.ltb_spec (o_off o + (y * w + x)) (o_off o + h * w)); [|nia]. cbn [andb]. f_equal. lia.
  Qed.

  Lemma load_state (p : @warr E) (s : state) a s1 : load p s = Ret a s1 -> s1 = s.
  Proof.
    unfold load. destruct (w_loc p) as [[b off]|]; try discriminate. destruct (nth_error (s_mem s) b); try discriminate.
    destruct (_ && _); try discriminate. intros H. inversion H. reflexivity.
  Qed.
  Lemma loads_snoc (q : @warr E) (s : state) a : load q s = Ret a s -> forall ins vs, loads ins s = Ret vs s -> loads (ins ++ [q]) s = Ret (vs ++ [a]) s.
  Proof.
    intros Q. induction ins as [|p ins IH]; intros vs H; cbn [loads app] in *; unfold seq, ret in *.
    - inversion H; subst. rewrite Q. reflexivity.
    - destruct (load p s) as [a1 s1|s1|] eqn:Ep; try discriminate. apply load_state in Ep as Es. subst s1.
      destruct (loads ins s) as [l1 s1|s1|] eqn:El; try discriminate. inversion H; subst. rewrite (IH l1 eq_refl). reflexivity.
  Qed.
  (** a call that writes a contiguous raster; [vs]: the values of the arrays that are only read *)
  Lemma call_ok (s : state) r (o : obj) h w l nd f args ins vs d nd' : raster s r o h w l nd -> contiguous o = true ->
    loads ins s = Ret vs s -> eng E f args (vs ++ [mkAval (o_dtype o) w h nd l]) = EOk d nd' -> length d = length l ->
    call f args ins (mkW (Some (o_block o, o_off o)) (o_dtype o) w h (1 * w * h) nd) s = Ret (back E (o_dtype o) nd') (overwrite s o h w d).
  Proof.
    intros R C Ls Eg L. destruct (raster_region _ _ _ _ _ _ _ R C) as [blk [B1 [B2 [B3 [B4 B5]]]]]. unfold call, seq.
    replace (1 * w * h) with (h * w) by ring.
    rewrite (loads_snoc _ s (mkAval (o_dtype o) w h nd l) (load_region s _ _ _ _ _ _ _ blk l B1 B2 B3 B4) ins vs Ls).
    rewrite Eg. rewrite (store_region _ _ _ _ _ _ _ _ blk) by exact B1. unfold ret, overwrite. rewrite B1. reflexivity.
  Qed.

  (** ** FillDepressions, BreachDepressions, ResolveFlats after their checks *)
  Definition final (o : obj) (a : string) (n : num (F E)) : obj := with_nd (with_hist o a) n.
  Definition body (d : nat) (a f : string) : py unit :=
    let! _ := AddAnalysis d a; let! demw := wrap d; let! nd := call f [] [] demw; copyFromWrapped d nd.
  Lemma ip_true r a f (s : state) : in_place_or_copy r true a f s = match body r a f s with Ret _ s' => Ret None s' | Exn s' => Exn s' | Undefd => Undefd end.
  Proof.
    unfold in_place_or_copy, body, seq, ret. destruct (AddAnalysis r a s) as [? s1|s1|]; auto.
    destruct (wrap r s1) as [w s2|s2|]; auto. destruct (call f [] [] w s2) as [n s3|s3|]; auto.
  Qed.
  Lemma ip_false r a f (s : state) : in_place_or_copy r false a f s =
    match pycopy r s with
    | Ret k s1 => match body k a f s1 with Ret _ s' => Ret (Some k) s' | Exn s' => Exn s' | Undefd => Undefd end
    | Exn s' => Exn s' | Undefd => Undefd end.
  Proof.
    unfold in_place_or_copy, body, seq, ret. destruct (pycopy r s) as [k s0|s0|]; auto. destruct (AddAnalysis k a s0) as [? s1|s1|]; auto.
    destruct (wrap k s1) as [w s2|s2|]; auto. destruct (call f [] [] w s2) as [n s3|s3|]; auto.
  Qed.

  Lemma body_ok (s : state) r (o : obj) h w l nd a f d nd' : raster s r o h w l nd -> contiguous o = true ->
    eng E f [] [mkAval (o_dtype o) w h nd l] = EOk d nd' -> length d = length l ->
    exists s', body r a f s = Ret tt s' /\ object s' r = Some (final o a (back E (o_dtype o) nd')) /\
      (forall r' , r' <> r -> object s' r' = object s r') /\ length (s_objs s') = length (s_objs s) /\
      (forall b i, mem_at s' b i = mem_at (overwrite s o h w d) b i).
  Proof.
    intros R C Eg L. unfold body, seq. pose proof R as R0. destruct R0 as [Ho [K [D _]]].
    rewrite (add_analysis s r o a Ho) by congruence.
    set (s1 := mkState (s_mem s) (upd_nth r (with_hist o a) (s_objs s))).
    assert (R1 : raster s1 r (with_hist o a) h w l nd) by (apply (raster_upd s r o); auto).
    rewrite (wrap_raster s1 r _ _ _ _ _ R1). assert (C1 : contiguous (with_hist o a) = true) by exact C. rewrite C1.
    rewrite (call_ok s1 r _ h w l nd f [] [] [] d nd' R1 C1 eq_refl Eg L).
    assert (Ob : object (overwrite s1 (with_hist o a) h w d) r = Some (with_hist o a)).
    { unfold object. rewrite overwrite_objs. apply R1. }
    rewrite (copy_from _ r _ _ Ob).
    assert (Lr : (r < length (s_objs s))%nat) by (unfold object in Ho; eapply nth_some_lt; eauto).
    eexists. split; [reflexivity|]. unfold object. cbn [s_objs]. rewrite overwrite_objs. unfold s1 at 1 2 3. cbn [s_objs]. split.
    { rewrite upd_same; [reflexivity|]. rewrite upd_nth_length. exact Lr. }
    split. { intros r' N. rewrite !upd_other by congruence. reflexivity. }
    split. { rewrite !upd_nth_length. reflexivity. }
    intros b i. transitivity (mem_at (overwrite s1 (with_hist o a) h w d) b i); [reflexivity|].
    rewrite (overwrite_mem s1 r _ h w l nd d b i R1 C1 L), (overwrite_mem s r o h w l nd d b i R C L). reflexivity.
  Qed.

  Lemma pycopy_ok (s : state) r (o : obj) h w l nd : raster s r o h w l nd ->
    exists o1 s1, pycopy r s = Ret (length (s_objs s)) s1 /\ s1 = mkState (s_mem s ++ [l]) (s_objs s ++ [o1]) /\
      o1 = mkObj (o_kind o) (length (s_mem s)) 0 (o_shape o) (c_strides (o_shape o)) (o_dtype o) (o_nodata o) (o_geo o) (o_proj o) (o_hist o) /\
      raster s1 (length (s_objs s)) o1 h w l nd /\ contiguous o1 = true.
  Proof.
    intros [Ho [K [D [Hh [Hw [S [St [[o2 [Ho2 [S2 [L2 G]]]] C]]]]]]]]. assert (o2 = o) by congruence. subst o2.
    unfold pycopy, seq, getobj. unfold object in Ho. rewrite Ho. rewrite (elems_list s o h w l Hh Hw S L2 G). unfold alloc, newobj. cbn [s_mem s_objs].
    eexists _, _. split; [reflexivity|]. split; [reflexivity|]. split; [reflexivity|].
    assert (CC : c_contiguous (o_shape o) (c_strides (o_shape o)) = true) by (rewrite S; apply c_strides_contig; auto).
    split; [|exact CC]. assert (On : object (mkState (s_mem s ++ [l]) (s_objs s ++ [mkObj (o_kind o) (length (s_mem s)) 0 (o_shape o) (c_strides (o_shape o)) (o_dtype o) (o_nodata o) (o_geo o) (o_proj o) (o_hist o)])) (length (s_objs s)) = Some (mkObj (o_kind o) (length (s_mem s)) 0 (o_shape o) (c_strides (o_shape o)) (o_dtype o) (o_nodata o) (o_geo o) (o_proj o) (o_hist o))).
    { unfold object. cbn [s_objs]. rewrite nth_error_app2 by lia. rewrite Nat.sub_diag. reflexivity. }
    split; [exact On|]. cbn [o_kind o_dtype o_shape o_strides o_nodata]. split; [exact K|]. split; [exact D|]. split; [exact Hh|]. split; [exact Hw|]. split; [exact S|].
    split; [rewrite S; reflexivity|]. split; [|exact C]. eexists. split; [exact On|]. cbn [o_shape]. split; [exact S|]. split; [exact L2|].
    intros y x Hy Hx. rewrite elem_mem. unfold mem_at. cbn [s_mem o_block o_off o_strides]. rewrite nth_error_app2 by lia. rewrite Nat.sub_diag. cbn [nth_error].
    rewrite S in CC |- *. unfold c_strides, prodZ in *. cbn [fold_right] in *. rewrite (contig2 h w _ _ y x Hh Hw CC Hy Hx). f_equal. 
  Qed.
End P.
