(** Proofs about the depression hierarchy from Python. *)
From Coq Require Import ZArith List Lia Bool String QArith Qcanon Permutation.
From Verif Require Import Base Res RasterSpec FlatsSpec DHModel DHSpec FSMModel FSMSpec PyModel PyIntModel PySpec PyProofs PyProofs2 PyProofs3 PyProofs4 PyProofs5 PyDHModel.
Open Scope Z_scope.
Open Scope list_scope.

Section P.
  Context {E : env}.
  Notation num := (num (F E)). Notation obj := (obj (F E)). Notation state := (state (F E) (V E)). Notation py := (py (F E) (V E)).

  Lemma fold_upd {A B} (P : B -> bool) (pos : B -> nat) (v : A) : forall l blk,
    length (fold_left (fun b idx => if P idx then upd_nth (pos idx) v b else b) l blk) = length blk /\
    forall i, (i < length blk)%nat -> nth_error (fold_left (fun b idx => if P idx then upd_nth (pos idx) v b else b) l blk) i =
      if existsb (fun idx => P idx && (pos idx =? i)%nat) l then Some v else nth_error blk i.
  Proof.
    induction l as [|a l IH]; intros blk; cbn [fold_left existsb]; [split; [reflexivity|reflexivity]|].
    destruct (P a) eqn:Pa.
    - destruct (IH (upd_nth (pos a) v blk)) as [L G]. rewrite upd_nth_length in *. split; [exact L|]. intros i Hi. rewrite G by auto. cbn [andb].
      destruct (Nat.eqb_spec (pos a) i) as [<-|N]; cbn [orb].
      + rewrite upd_same by auto. destruct (existsb _ l); reflexivity.
      + rewrite upd_other by auto. reflexivity.
    - destruct (IH blk) as [L G]. split; [exact L|]. intros i Hi. rewrite G by auto. reflexivity.
  Qed.

  Lemma indices2_In h w idx : In idx (indices [h; w]) <-> exists y x, idx = [y; x] /\ 0 <= y < h /\ 0 <= x < w.
  Proof.
    cbn [indices]. rewrite in_flat_map. split.
    - intros [y [Iy Ix]]. apply zrange_In in Iy. apply in_map_iff in Ix. destruct Ix as [q [<- Iq]]. apply in_flat_map in Iq. destruct Iq as [x [Ix Iq]].
      apply zrange_In in Ix. cbn in Iq. destruct Iq as [<-|[]]. exists y, x. split; [reflexivity|]. lia.
    - intros [y [x [-> [Hy Hx]]]]. exists y. split; [apply zrange_In; lia|]. apply in_map. apply in_flat_map. exists x. split; [apply zrange_In; lia|]. left. reflexivity.
  Qed.

  Lemma fill_inner_ok (o : obj) v blk h w : o_shape o = [h; w] -> o_strides o = [w; 1] -> o_off o = 0 -> 0 < h -> 0 < w -> Z.of_nat (length blk) = h * w ->
    Z.of_nat (length (fill_inner o v blk)) = h * w /\
    forall y x, 0 <= y < h -> 0 <= x < w -> ix (fill_inner o v blk) (y * w + x) = if inner [h; w] [y; x] then Some v else ix blk (y * w + x).
  Proof.
    intros S St Of Hh Hw L. unfold fill_inner. rewrite S, St, Of.
    destruct (fold_upd (inner [h; w]) (fun idx => Z.to_nat (0 + dot idx [w; 1])) v (indices [h; w]) blk) as [L1 G]. split; [lia|].
    intros y x Hy Hx. rewrite !ix_nth by nia. rewrite G by nia.
    destruct (inner [h; w] [y; x]) eqn:I.
    - assert (X : existsb (fun idx => inner [h; w] idx && Nat.eqb (Z.to_nat (0 + dot idx [w; 1])) (Z.to_nat (y * w + x))) (indices [h; w]) = true).
      { apply existsb_exists. exists [y; x]. split; [apply indices2_In; eauto|]. rewrite I. cbn [andb dot]. apply Nat.eqb_eq. f_equal. ring. }
      rewrite X. reflexivity.
    - destruct (existsb _ (indices [h; w])) eqn:X; [|reflexivity]. exfalso. apply existsb_exists in X. destruct X as [idx [Ii X]].
      apply indices2_In in Ii. destruct Ii as [y' [x' [-> [Hy' Hx']]]]. apply andb_true_iff in X. destruct X as [X1 X2]. cbn [dot] in X2. apply Nat.eqb_eq in X2.
      assert (y' * w + x' = y * w + x) by nia. assert (y' = y) by nia. subst y'. assert (x' = x) by lia. subst x'. congruence.
  Qed.

  (** rdarray(np.full(shape, z), no_data=n, geotransform=g) *)
  Definition tmpl (sh : list Z) (g : geot) : obj := mkObj KRd 0 0 sh [] Other None g EmptyString [].
  Lemma full_ok2 (s : state) sh g dt z n :
    (let! k := npfull sh dt z; rd_new KRd k None (Some n) (Some g)) s = Ret (S (length (s_objs s))) (full_state s (tmpl sh g) dt z n).
  Proof.
    unfold seq at 1. rewrite npfull_ok. unfold rd_new, seq, getobj, newobj, ret. cbn [s_objs]. rewrite nth_error_app2 by lia.
    rewrite Nat.sub_diag. cbn [nth_error s_objs fst snd o_block o_off o_shape o_strides o_dtype s_mem]. rewrite app_length. cbn [length]. rewrite Nat.add_1_r. f_equal.
    unfold full_state, full_obj, tmpl. cbn [o_shape o_geo o_proj o_hist]. f_equal. rewrite <- app_assoc. reflexivity.
  Qed.

  Definition labels_obj (s : state) (h w : Z) (n : num) (g : geot) : obj := full_obj s (tmpl [h; w] g) Uint32 n.
  Definition labels_blk (s : state) (h w : Z) (n : num) (g : geot) : list (V E) :=
    fill_inner (labels_obj s h w n g) (lit E Uint32 NO_DEP) (repeat (lit E Uint32 OCEAN) (Z.to_nat (prodZ [h; w]))).
  Definition labels_state (s : state) (h w : Z) (n : num) (g : geot) : state :=
    mkState (s_mem s ++ [labels_blk s h w n g]) (s_objs (full_state s (tmpl [h; w] g) Uint32 OCEAN n)).
  Lemma upd_last {A} (l : list A) a b : upd_nth (length l) a (l ++ [b]) = l ++ [a].
  Proof. induction l as [|x l IH]; cbn; [reflexivity|]. rewrite IH. reflexivity. Qed.
  Lemma labels_run (s : state) h w n geo : 0 < h -> 0 < w ->
    get_new_depression_hierarchy_labels [h; w] n geo s =
    Ret (S (length (s_objs s))) (labels_state s h w n (match geo with Some g => g | None => STANDARD_GEOTRANSFORM end)).
  Proof.
    intros Hh Hw. unfold get_new_depression_hierarchy_labels. cbn [existsb]. destruct (Z.ltb_spec h 0); [lia|]. destruct (Z.ltb_spec w 0); [lia|]. cbn [orb].
    set (g := match geo with Some g => g | None => STANDARD_GEOTRANSFORM end).
    pose proof (full_ok2 s [h; w] g Uint32 OCEAN n) as Q. unfold seq at 1 in Q. unfold seq at 1. unfold seq at 1.
    destruct (npfull [h; w] Uint32 OCEAN s) as [k s1|s1|]; try discriminate. rewrite Q. unfold seq at 1, set_inner. unfold seq at 1, getobj.
    assert (Ob : nth_error (s_objs (full_state s (tmpl [h; w] g) Uint32 OCEAN n)) (S (length (s_objs s))) = Some (labels_obj s h w n g)).
    { unfold full_state. cbn [s_objs]. rewrite nth_error_app2 by lia. replace (S (length (s_objs s)) - length (s_objs s))%nat with 1%nat by lia. reflexivity. }
    rewrite Ob. cbn [labels_obj full_obj tmpl o_shape length Nat.ltb Nat.leb o_block]. unfold full_state at 1. cbn [s_mem]. rewrite nth_error_app2 by lia. rewrite Nat.sub_diag. cbn [nth_error].
    unfold ret. f_equal. unfold labels_state. f_equal. unfold full_state at 1. cbn [s_mem o_shape tmpl]. apply upd_last.
  Qed.
  Lemma labels_raster (s : state) h w n g nd : 0 < h -> 0 < w -> cvt E Uint32 n = Ok nd ->
    exists l, raster (labels_state s h w n g) (S (length (s_objs s))) (labels_obj s h w n g) h w l nd /\ contiguous (labels_obj s h w n g) = true /\
      (forall y x, 0 <= y < h -> 0 <= x < w -> ix l (y * w + x) = Some (lit E Uint32 (if inner [h; w] [y; x] then NO_DEP else OCEAN))).
  Proof.
    intros Hh Hw C. exists (labels_blk s h w n g).
    assert (P : prodZ [h; w] = h * w) by (unfold prodZ; cbn [fold_right]; ring).
    destruct (fill_inner_ok (labels_obj s h w n g) (lit E Uint32 NO_DEP) (repeat (lit E Uint32 OCEAN) (Z.to_nat (prodZ [h; w]))) h w) as [L G]; auto.
    { unfold labels_obj, full_obj, tmpl, c_strides, prodZ. cbn [o_strides o_shape fold_right]. f_equal; ring. }
    { rewrite repeat_length, P. nia. }
    fold (labels_blk s h w n g) in L, G.
    assert (On : object (labels_state s h w n g) (S (length (s_objs s))) = Some (labels_obj s h w n g)).
    { unfold object, labels_state, full_state. cbn [s_objs]. rewrite nth_error_app2 by lia. replace (S (length (s_objs s)) - length (s_objs s))%nat with 1%nat by lia. reflexivity. }
    assert (CC : c_contiguous [h; w] (c_strides [h; w]) = true) by (apply c_strides_contig; auto).
    split; [|split; [exact CC|]].
    - split; [exact On|]. split; [reflexivity|]. split; [discriminate|]. split; [exact Hh|]. split; [exact Hw|]. split; [reflexivity|]. split; [reflexivity|]. split; [|exact C].
      eexists. split; [exact On|]. split; [reflexivity|]. split; [exact L|]. intros y x Hy Hx. rewrite elem_mem. unfold mem_at, labels_state. cbn [s_mem labels_obj full_obj o_block o_off o_strides tmpl o_shape].
      rewrite nth_error_app2 by lia. rewrite Nat.sub_diag. cbn [nth_error]. unfold c_strides, prodZ in *. cbn [fold_right] in *. rewrite (contig2 h w _ _ y x Hh Hw CC Hy Hx). reflexivity.
    - intros y x Hy Hx. rewrite G by auto. destruct (inner [h; w] [y; x]); [reflexivity|]. rewrite ix_nth by nia. rewrite P. 
      rewrite (nth_error_nth' _ (lit E Uint32 OCEAN)) by (rewrite repeat_length; nia). f_equal. apply nth_repeat.
  Qed.
  Lemma labels_new (s : state) h w n g :
    (forall r x, object s r = Some x -> object (labels_state s h w n g) r = Some x) /\
    (forall b i v, mem_at s b i = Some v -> mem_at (labels_state s h w n g) b i = Some v) /\
    object s (S (length (s_objs s))) = None /\ nth_error (s_mem s) (o_block (labels_obj s h w n g)) = None.
  Proof.
    split; [|split; [|split]].
    - intros r x H. unfold object, labels_state, full_state. cbn [s_objs]. apply object_app. exact H.
    - intros b i v H. apply mem_app. exact H.
    - unfold object. apply nth_error_None. lia.
    - apply nth_error_None. cbn [labels_obj full_obj o_block]. lia.
  Qed.

  (** after writing to one raster, the others are as they were, if they share no memory with it *)
  Lemma raster_overwrite (s : state) r o h w l nd r2 o2 h2 w2 l2 nd2 d : raster s r o h w l nd -> raster s r2 o2 h2 w2 l2 nd2 -> contiguous o2 = true -> length d = length l2 ->
    o_block o <> o_block o2 -> raster (overwrite s o2 h2 w2 d) r o h w l nd.
  Proof.
    intros [Ho [K [D [Hh [Hw [S [St [[o' [Ho2 [S2 [L2 G]]]] C]]]]]]]] R2 C2 L N. assert (o' = o) by congruence. subst o'.
    assert (X : object (overwrite s o2 h2 w2 d) r = Some o) by (unfold object; rewrite overwrite_objs; exact Ho).
    unfold raster. repeat (split; [assumption|]). split; [|exact C]. exists o. repeat (split; [assumption|]).
    intros y x Hy Hx. rewrite <- G by auto. rewrite !elem_mem, (overwrite_mem s r2 o2 h2 w2 l2 nd2 d _ _ R2 C2 L).
    rewrite (proj2 (Nat.eqb_neq _ _) N). reflexivity.
  Qed.
  Lemma raster_overwritten (s : state) r o h w l nd d : raster s r o h w l nd -> contiguous o = true -> length d = length l -> raster (overwrite s o h w d) r o h w d nd.
  Proof.
    intros R C L. pose proof (overwrite_shows s r o h w l nd d R C L) as G. destruct R as [Ho [K [D [Hh [Hw [S [St [[o' [Ho2 [S2 [L2 G2]]]] Cv]]]]]]]].
    assert (X : object (overwrite s o h w d) r = Some o) by (unfold object; rewrite overwrite_objs; exact Ho).
    unfold raster. repeat (split; [assumption|]). split; [|exact Cv]. exists o. split; [exact X|]. split; [exact S|]. split; [lia|]. exact G.
  Qed.
  Lemma store_raster (s : state) r o h w l nd d : raster s r o h w l nd -> contiguous o = true -> 
    store (mkW (Some (o_block o, o_off o)) (o_dtype o) w h (1 * w * h) nd) d s = Ret tt (overwrite s o h w d).
  Proof.
    intros R C. destruct (raster_region _ _ _ _ _ _ _ R C) as [blk [B1 _]]. rewrite (store_region s _ _ _ _ _ _ _ blk) by exact B1.
    unfold overwrite. rewrite B1. replace (1 * w * h) with (h * w) by ring. reflexivity.
  Qed.

  Section Gdh.
    Context {H : Type} (gdh : aval (V E) -> aval (V E) -> aval (V E) -> gout H (V E))
      (fsm : aval (V E) -> aval (V E) -> aval (V E) -> H -> aval (V E) -> fout H (V E)).
    Definition fd_state (s : state) (h w : Z) : state := full_state s (tmpl [h; w] STANDARD_GEOTRANSFORM) Int8 0 (PInt (-9999)).
    Definition fd_obj (s : state) (h w : Z) : obj := full_obj s (tmpl [h; w] STANDARD_GEOTRANSFORM) Int8 (PInt (-9999)).

    Definition gdh_tail (fd : nat) (demw labelsw fdw : @warr E) : py (H * nat) :=
      if negb (dtype_eqb (w_dtype demw) Float64 && dtype_eqb (w_dtype labelsw) Uint32) then raise
      else let! a := load demw; let! b := load labelsw; let! c := load fdw;
           match gdh a b c with
           | GOk dh l f => let! _ := store labelsw l; let! _ := store fdw f; ret (dh, fd)
           | GThrow l f => let! _ := store labelsw l; let! _ := store fdw f; raise
           | GUndef => fun _ => Undefd
           end.
    Lemma gdh_unfold (s : state) dem o h w l nd lab ol hl wl ll ndl ndf : raster s dem o h w l nd -> raster s lab ol hl wl ll ndl -> cvt E Int8 (PInt (-9999)) = Ok ndf ->
      get_depression_hierarchy gdh dem lab s =
      gdh_tail (S (length (s_objs s))) (mkW (if contiguous o then Some (o_block o, o_off o) else None) (o_dtype o) w h (1 * w * h) nd)
        (mkW (if contiguous ol then Some (o_block ol, o_off ol) else None) (o_dtype ol) wl hl (1 * wl * hl) ndl)
        (mkW (Some (length (s_mem s), 0)) Int8 w h (1 * w * h) ndf) (fd_state s h w).
    Proof.
      intros R Rl Cv. pose proof R as [Ho [K [D [Hh [Hw [S0 _]]]]]]. unfold get_depression_hierarchy. unfold seq at 1, getobj. unfold object in Ho. rewrite Ho.
      unfold is_rd. rewrite K. cbn [negb]. unfold seq at 1. rewrite (wrap_raster s dem o h w l nd R). unfold seq at 1. rewrite (wrap_raster s lab ol hl wl ll ndl Rl).
      rewrite S0. pose proof (full_ok2 s [h; w] STANDARD_GEOTRANSFORM Int8 0 (PInt (-9999))) as Q. unfold seq at 1 in Q. unfold seq at 1.
      destruct (npfull [h; w] Int8 0 s) as [k s1|s1|]; try discriminate. unfold seq at 1. rewrite Q. fold (fd_state s h w).
      destruct (full_raster s (tmpl [h; w] STANDARD_GEOTRANSFORM) Int8 0 (PInt (-9999)) h w ndf Hh Hw eq_refl ltac:(discriminate) Cv) as [Rf Cf].
      fold (fd_state s h w) (fd_obj s h w) in Rf, Cf.
      unfold seq at 1. rewrite (wrap_raster (fd_state s h w) _ _ h w _ ndf Rf). rewrite Cf. reflexivity.
    Qed.

    Lemma gdh_loads (s : state) dem o h w l nd lab ol hl wl ll ndl ndf : raster s dem o h w l nd -> contiguous o = true -> o_dtype o = Float64 ->
      raster s lab ol hl wl ll ndl -> contiguous ol = true -> o_dtype ol = Uint32 -> cvt E Int8 (PInt (-9999)) = Ok ndf ->
      get_depression_hierarchy gdh dem lab s =
      match gdh (mkAval Float64 w h nd l) (mkAval Uint32 wl hl ndl ll) (mkAval Int8 w h ndf (repeat (lit E Int8 0) (Z.to_nat (h * w)))) with
      | GOk dh l' f => Ret (dh, S (length (s_objs s))) (overwrite (overwrite (fd_state s h w) ol hl wl l') (fd_obj s h w) h w f)
      | GThrow l' f => Exn (overwrite (overwrite (fd_state s h w) ol hl wl l') (fd_obj s h w) h w f)
      | GUndef => Undefd
      end.
    Proof.
      intros R C D Rl Cl Dl Cv. rewrite (gdh_unfold s dem o h w l nd lab ol hl wl ll ndl ndf R Rl Cv), C, Cl.
      pose proof R as [Ho [K [_ [Hh [Hw [S0 _]]]]]].
      destruct (full_raster s (tmpl [h; w] STANDARD_GEOTRANSFORM) Int8 0 (PInt (-9999)) h w ndf Hh Hw eq_refl ltac:(discriminate) Cv) as [Rf Cf].
      fold (fd_state s h w) (fd_obj s h w) in Rf, Cf.
      assert (R1 : raster (fd_state s h w) dem o h w l nd) by (apply raster_grow; exact R).
      assert (Rl1 : raster (fd_state s h w) lab ol hl wl ll ndl) by (apply raster_grow; exact Rl).
      unfold gdh_tail. cbn [w_dtype]. rewrite D, Dl. cbn [dtype_eqb andb negb].
      pose proof (load_raster _ _ _ _ _ _ _ R1 C) as Q1. rewrite D in Q1. unfold seq at 1. rewrite Q1.
      pose proof (load_raster _ _ _ _ _ _ _ Rl1 Cl) as Q2. rewrite Dl in Q2. unfold seq at 1. rewrite Q2.
      pose proof (load_raster _ _ _ _ _ _ _ Rf Cf) as Q3. unfold seq at 1. cbn [fd_obj full_obj o_block o_off o_dtype] in Q3. rewrite Q3.
      assert (ST : forall l' f, exists s', store (mkW (Some (o_block ol, o_off ol)) Uint32 wl hl (1 * wl * hl) ndl) l' (fd_state s h w) = Ret tt s' /\
        s' = overwrite (fd_state s h w) ol hl wl l' /\ store (mkW (Some (length (s_mem s), 0)) Int8 w h (1 * w * h) ndf) f s' = Ret tt (overwrite s' (fd_obj s h w) h w f)).
      { intros l' f. pose proof (store_raster _ _ _ _ _ _ _ l' Rl1 Cl) as Q4. rewrite Dl in Q4. eexists. split; [exact Q4|]. split; [reflexivity|].
        assert (B : exists blk, nth_error (s_mem (overwrite (fd_state s h w) ol hl wl l')) (length (s_mem s)) = Some blk).
        { unfold overwrite. destruct (raster_region _ _ _ _ _ _ _ Rl1 Cl) as [blk [B1 _]]. rewrite B1. cbn [s_mem].
          destruct (raster_region _ _ _ _ _ _ _ Rf Cf) as [blk2 [B2 _]]. cbn [fd_obj full_obj o_block] in B2.
          destruct (Nat.eq_dec (o_block ol) (length (s_mem s))) as [Eq|Ne].
          - rewrite Eq, upd_same; eauto. eapply nth_some_lt; eauto.
          - rewrite upd_other by auto. eauto. }
        destruct B as [blk B]. rewrite (store_region _ _ _ _ _ _ _ _ blk) by exact B. set (s2 := overwrite (fd_state s h w) ol hl wl l') in *. unfold overwrite. cbn [fd_obj full_obj o_block o_off]. rewrite B.
        replace (1 * w * h) with (h * w) by ring. reflexivity. }
      destruct (gdh _ _ _) as [dh l' f|l' f|]; [| |reflexivity].
      - destruct (ST l' f) as [s' [Q4 [-> Q5]]]. unfold seq at 1. rewrite Q4. unfold seq at 1. rewrite Q5. reflexivity.
      - destruct (ST l' f) as [s' [Q4 [-> Q5]]]. unfold seq at 1. rewrite Q4. unfold seq at 1. rewrite Q5. reflexivity.
    Qed.

    (** the state it leaves behind *)
    Lemma gdh_effect (s : state) lab ol hl wl ll ndl h w ndf l' f s' : raster s lab ol hl wl ll ndl -> contiguous ol = true -> 0 < h -> 0 < w -> cvt E Int8 (PInt (-9999)) = Ok ndf ->
      length l' = length ll -> Z.of_nat (length f) = h * w ->
      s' = overwrite (overwrite (fd_state s h w) ol hl wl l') (fd_obj s h w) h w f ->
      (forall r o, object s r = Some o -> object s' r = Some o) /\
      (forall b i v, ~ cell_of ol hl wl b i -> mem_at s b i = Some v -> mem_at s' b i = Some v) /\
      raster s' lab ol hl wl l' ndl /\ fresh s s' (S (length (s_objs s))) /\ raster s' (S (length (s_objs s))) (fd_obj s h w) h w f ndf /\
      (forall r o h0 w0 l0 nd0, raster s r o h0 w0 l0 nd0 -> o_block o <> o_block ol -> raster s' r o h0 w0 l0 nd0).
    Proof.
      intros Rl Cl Hh Hw Cv L1 L2 ->.
      destruct (full_raster s (tmpl [h; w] STANDARD_GEOTRANSFORM) Int8 0 (PInt (-9999)) h w ndf Hh Hw eq_refl ltac:(discriminate) Cv) as [Rf Cf].
      fold (fd_state s h w) (fd_obj s h w) in Rf, Cf.
      assert (Rl1 : raster (fd_state s h w) lab ol hl wl ll ndl) by (apply raster_grow; exact Rl).
      assert (BL : (o_block ol < length (s_mem s))%nat). { destruct (raster_region _ _ _ _ _ _ _ Rl Cl) as [blk [B1 _]]. eapply nth_some_lt; eauto. }
      assert (N : o_block ol <> o_block (fd_obj s h w)) by (cbn [fd_obj full_obj o_block]; lia).
      set (s2 := overwrite (fd_state s h w) ol hl wl l').
      assert (Rl2 : raster s2 lab ol hl wl l' ndl) by (eapply raster_overwritten; eauto).
      assert (Rf2 : raster s2 (S (length (s_objs s))) (fd_obj s h w) h w (repeat (lit E Int8 0) (Z.to_nat (h * w))) ndf) by (eapply raster_overwrite; eauto).
      assert (L2' : length f = length (repeat (lit E Int8 0) (Z.to_nat (h * w)))) by (rewrite repeat_length; lia).
      split; [|split; [|split; [|split; [|split]]]].
      - intros r o Hr. unfold object. rewrite overwrite_objs. unfold s2. rewrite overwrite_objs. apply object_app. exact Hr.
      - intros b i v Nc M. rewrite (overwrite_mem _ _ _ _ _ _ _ f b i Rf2 Cf L2').
        assert (Nb : b <> o_block (fd_obj s h w)). { cbn [fd_obj full_obj o_block]. intros ->. unfold mem_at in M. rewrite (proj2 (nth_error_None _ _)) in M by lia. discriminate. }
        rewrite (proj2 (Nat.eqb_neq _ _) Nb). cbn [andb]. unfold s2. rewrite (overwrite_mem _ _ _ _ _ _ _ l' b i Rl1 Cl L1).
        pose proof Rl as [_ [_ [_ [Hhl [Hwl [Sl [Stl _]]]]]]].
        destruct ((b =? o_block ol)%nat && (o_off ol <=? i) && (i <? o_off ol + hl * wl)) eqn:Q.
        + exfalso. apply Nc. apply (cells_stretch ol hl wl b i Hhl Hwl Sl Stl Cl). rewrite !andb_true_iff in Q. destruct Q as [[Q1 Q2] Q3]. apply Nat.eqb_eq in Q1. split; [exact Q1|lia].
        + apply mem_app. exact M.
      - eapply raster_overwrite; eauto.
      - split; [unfold object; apply nth_error_None; lia|]. exists (fd_obj s h w). split; [|apply nth_error_None; cbn [fd_obj full_obj o_block]; lia].
        unfold object. rewrite overwrite_objs. apply Rf2.
      - eapply raster_overwritten; eauto.
      - intros r o h0 w0 l0 nd0 R0 Nb. assert (R1 : raster (fd_state s h w) r o h0 w0 l0 nd0) by (apply raster_grow; exact R0).
        assert (R2 : raster s2 r o h0 w0 l0 nd0) by (eapply raster_overwrite; eauto).
        eapply raster_overwrite; eauto. cbn [fd_obj full_obj o_block]. intros Eq.
        pose proof R0 as [_ [_ [_ [Hh0 [Hw0 [_ [_ [[o' [Ho' [_ [L0 G0]]]] _]]]]]]]]. assert (o' = o) by (destruct R0; congruence). subst o'.
        specialize (G0 0 0 ltac:(lia) ltac:(lia)). rewrite elem_mem in G0. unfold mem_at in G0. rewrite Eq, (proj2 (nth_error_None _ _)) in G0 by lia.
        assert (exists v, ix l0 (0 * w0 + 0) = Some v) by (apply ix_some_iff; nia). destruct H0 as [v V]. congruence.
    Qed.

    Lemma gdh_ub (s : state) dem o h w l nd lab ol hl wl ll ndl ndf : raster s dem o h w l nd -> o_dtype o = Float64 -> raster s lab ol hl wl ll ndl -> o_dtype ol = Uint32 ->
      cvt E Int8 (PInt (-9999)) = Ok ndf -> contiguous o = false \/ contiguous ol = false -> get_depression_hierarchy gdh dem lab s = Undefd.
    Proof.
      intros R D Rl Dl Cv C. rewrite (gdh_unfold s dem o h w l nd lab ol hl wl ll ndl ndf R Rl Cv). unfold gdh_tail. cbn [w_dtype]. rewrite D, Dl. cbn [dtype_eqb andb negb].
      assert (R1 : raster (fd_state s h w) dem o h w l nd) by (apply raster_grow; exact R).
      destruct (contiguous o) eqn:Co.
      - destruct C as [C|C]; [discriminate|]. rewrite C. pose proof (load_raster _ _ _ _ _ _ _ R1 Co) as Q1. rewrite D in Q1. unfold seq at 1. rewrite Q1. reflexivity.
      - reflexivity.
    Qed.
    Lemma gdh_types (s : state) dem o h w l nd lab ol hl wl ll ndl ndf : raster s dem o h w l nd -> raster s lab ol hl wl ll ndl ->
      cvt E Int8 (PInt (-9999)) = Ok ndf -> o_dtype o <> Float64 \/ o_dtype ol <> Uint32 ->
      get_depression_hierarchy gdh dem lab s = Exn (fd_state s h w).
    Proof.
      intros R Rl Cv C. rewrite (gdh_unfold s dem o h w l nd lab ol hl wl ll ndl ndf R Rl Cv). unfold gdh_tail. cbn [w_dtype].
      assert (X : dtype_eqb (o_dtype o) Float64 && dtype_eqb (o_dtype ol) Uint32 = false).
      { destruct (o_dtype o), (o_dtype ol); try reflexivity. destruct C; congruence. }
      rewrite X. reflexivity.
    Qed.

    (** fill_spill_merge *)
    Lemma fsm_loads (s : state) dem o h w l nd lab ol hl wl ll ndl fd of hf wf lf ndf dh wt ow hw ww lw ndw :
      raster s dem o h w l nd -> contiguous o = true -> o_dtype o = Float64 -> raster s lab ol hl wl ll ndl -> contiguous ol = true -> o_dtype ol = Uint32 ->
      raster s fd of hf wf lf ndf -> contiguous of = true -> o_dtype of = Int8 -> raster s wt ow hw ww lw ndw -> contiguous ow = true -> o_dtype ow = Float64 ->
      fill_spill_merge fsm dem lab fd dh wt s =
      match fsm (mkAval Float64 w h nd l) (mkAval Uint32 wl hl ndl ll) (mkAval Int8 wf hf ndf lf) dh (mkAval Float64 ww hw ndw lw) with
      | FOk _ d => Ret dh (overwrite s ow hw ww d)
      | FThrow d => Exn (overwrite s ow hw ww d)
      | FUndef => Undefd
      end.
    Proof.
      intros R C D Rl Cl Dl Rf Cf Df Rw Cw Dw. unfold fill_spill_merge, getobj.
      pose proof R as [Ho [K _]]. pose proof Rl as [Hol [Kl _]]. pose proof Rf as [Hof [Kf _]]. pose proof Rw as [How [Kw _]]. unfold object in *.
      unfold seq at 1. rewrite Ho. unfold seq at 1. rewrite Hol. unfold seq at 1. rewrite Hof. unfold seq at 1. rewrite How.
      unfold is_rd. rewrite K, Kl, Kf, Kw. cbn [andb negb].
      unfold seq at 1. rewrite (wrap_raster _ _ _ _ _ _ _ R), C. unfold seq at 1. rewrite (wrap_raster _ _ _ _ _ _ _ Rl), Cl.
      unfold seq at 1. rewrite (wrap_raster _ _ _ _ _ _ _ Rf), Cf. unfold seq at 1. rewrite (wrap_raster _ _ _ _ _ _ _ Rw), Cw.
      cbn [w_dtype]. pose proof (load_raster _ _ _ _ _ _ _ R C) as Q1. pose proof (load_raster _ _ _ _ _ _ _ Rl Cl) as Q2.
      pose proof (load_raster _ _ _ _ _ _ _ Rf Cf) as Q3. pose proof (load_raster _ _ _ _ _ _ _ Rw Cw) as Q4.
      pose proof (fun d => store_raster _ _ _ _ _ _ _ d Rw Cw) as Q5.
      rewrite D, Dl, Df, Dw in *. cbn [dtype_eqb andb negb].
      unfold seq at 1. rewrite Q1. unfold seq at 1. rewrite Q2. unfold seq at 1. rewrite Q3. unfold seq at 1. rewrite Q4.
      destruct (fsm _ _ _ _ _) as [dh' d|d|]; [| |reflexivity]; unfold seq at 1; rewrite Q5; reflexivity.
    Qed.
  End Gdh.
End P.

(** ** grids that agree inside the raster *)
Definition agree (w h : Z) (a b : grid Z) : Prop := forall p, inside w h p -> elev_at a p = elev_at b p.
Lemma runs_to_inside t w h dem lab fd p r : runs_to t w h dem lab fd p r -> inside w h p.
Proof. destruct 1; auto. Qed.
Lemma runs_to_agree t w h dem lab fd lab' fd' : agree w h lab' lab -> agree w h fd' fd -> forall p r, runs_to t w h dem lab fd p r -> runs_to t w h dem lab' fd' p r.
Proof.
  intros A B. induction 1 as [p I|p n q r I In_ F Q L El R IH]; [constructor; auto|].
  assert (Iq : inside w h q) by (eapply runs_to_inside; eauto).
  eapply runs_step; eauto; [rewrite B by auto; exact F|rewrite !A by auto; exact L].
Qed.
Lemma watersheds_agree t w h dem lab0 fd0 lab fd pits lab0' fd0' lab' fd' : agree w h lab0' lab0 -> agree w h fd0' fd0 -> agree w h lab' lab -> agree w h fd' fd ->
  watersheds t w h dem lab0 fd0 lab fd pits -> watersheds t w h dem lab0' fd0' lab' fd' pits.
Proof.
  intros A0 B0 A B [W1 W2 W3 W4].
  assert (OC : forall p, ocean_cell w h lab0' p <-> ocean_cell w h lab0 p).
  { intros p. unfold ocean_cell. split; intros [I X]; (split; [exact I|]). - rewrite <- A0 by auto. exact X. - rewrite A0 by auto. exact X. }
  assert (PT : forall p, pit t w h dem lab0 p -> pit t w h dem lab0' p).
  { intros p [[I X] Q]. split; [split; [exact I|rewrite A0 by auto; exact X]|exact Q]. }
  constructor.
  - intros p I. rewrite A by auto. auto.
  - intros p O. apply OC in O. pose proof (proj1 O) as I. rewrite A, B, B0 by auto. auto.
  - intros k p K. destruct (W3 k p K) as [X [Y Z]]. pose proof (proj1 (proj1 X)) as I. rewrite A, B, B0 by auto. auto.
  - intros p I. destruct (W4 p I) as [r [R X]]. exists r. split; [eapply runs_to_agree; eauto|]. rewrite A by auto. destruct X as [[X Y]|X]; [left|right; exact X]. split; [exact X|apply OC; exact Y].
Qed.

(** the ocean around the raster *)
Definition sea_around (w h : Z) : grid Z := fun x y => if (x =? 0) || (y =? 0) || (x =? w - 1) || (y =? h - 1) then 0 else 2 ^ 32 - 1.
Lemma sea_valid w h : valid_labels w h (sea_around w h).
Proof. intros [x y] I. unfold elev_at, sea_around. cbn [fst snd]. destruct (_ || _); auto. Qed.
Lemma sea_coast w h : 0 < w -> 0 < h -> (has_coast D8 w h (sea_around w h) <-> 3 <= w /\ 3 <= h).
Proof.
  intros Hw Hh. split.
  - intros [[a b] [[x y] [_ [[[I J] L] _]]]]. unfold elev_at, sea_around in L. cbn [fst snd] in *.
    destruct (Z.eqb_spec x 0); [cbn in L; congruence|]. destruct (Z.eqb_spec y 0); [cbn in L; congruence|]. destruct (Z.eqb_spec x (w - 1)); [cbn in L; congruence|].
    destruct (Z.eqb_spec y (h - 1)); [cbn in L; congruence|]. lia.
  - intros [A B]. exists (0, 0), (1, 1). split; [|split].
    + split; [unfold inside, in_raster; cbn; lia|reflexivity].
    + split; [unfold inside, in_raster; cbn; lia|]. unfold elev_at, sea_around. cbn [fst snd]. destruct (Z.eqb_spec 1 (w - 1)); [lia|]. destruct (Z.eqb_spec 1 (h - 1)); [lia|]. intros Q. vm_compute in Q. discriminate.
    + unfold neighbours, adjacent. cbn. split; [discriminate|lia].
Qed.
Lemma valid_agree w h a b : agree w h a b -> valid_labels w h b -> valid_labels w h a.
Proof. intros A V p I. rewrite A by auto. apply V. exact I. Qed.
Lemma agree_sym w h a b : agree w h a b -> agree w h b a.
Proof. intros A p I. symmetry. auto. Qed.
Lemma coast_agree t w h a b : agree w h a b -> has_coast t w h b -> has_coast t w h a.
Proof. intros A [p [q [[I1 X] [[I2 Y] N]]]]. exists p, q. split; [|split; [|exact N]]; (split; [assumption|rewrite A by auto; assumption]). Qed.
