(** Proofs about the Python package, fourth part: contiguity, FlowProportions. *)
From Coq Require Import ZArith List Lia Bool String.
From Verif Require Import Base Res PyModel PySpec PyProofs PyProofs2 PyProofs4.
Open Scope Z_scope.
Open Scope list_scope.

Lemma contig_iff h w s0 s1 : 0 < h -> 0 < w -> (c_contiguous [h; w] [s0; s1] = true <-> (w = 1 \/ s1 = 1) /\ (h = 1 \/ s0 = w)).
Proof.
  intros Hh Hw. unfold c_contiguous. cbn [existsb rev app contig_from].
  destruct (Z.eqb_spec 0 h); [lia|]. destruct (Z.eqb_spec 0 w); [lia|]. cbn [orb].
  destruct (Z.eqb_spec w 1) as [->|W]; destruct (Z.eqb_spec h 1) as [->|H]; rewrite ?andb_true_iff, ?Z.eqb_eq, ?Z.mul_1_l; intuition lia.
Qed.

Section P5.
  Context {E : env}.
  Notation num := (num (F E)). Notation obj := (obj (F E)). Notation state := (state (F E) (V E)). Notation py := (py (F E) (V E)).

  Lemma body_ub (s : state) r (o : obj) h w l nd a f : raster s r o h w l nd -> contiguous o = false -> body r a f s = Undefd.
  Proof.
    intros R C. unfold body, seq. pose proof R as [Ho [K [D _]]]. rewrite (add_analysis s r o a Ho) by congruence.
    assert (R1 : raster (mkState (s_mem s) (upd_nth r (with_hist o a) (s_objs s))) r (with_hist o a) h w l nd) by (apply (raster_upd s r o); auto).
    rewrite (wrap_raster _ r _ h w l nd R1). assert (C1 : contiguous (with_hist o a) = false) by exact C. rewrite C1. reflexivity.
  Qed.

  (** FlowProportions: the array of proportions, in state [fp_state], before the metric runs *)
  Definition fp_obj (s : state) (o : obj) (h w : Z) : obj :=
    mkObj KRd3 (length (s_mem s)) 0 [h; w; 9] [w * 9; 9; 1] Float32 (Some (PInt (-2))) (o_geo o) (o_proj o) (o_hist o).
  Definition fp_state (s : state) (o : obj) (h w : Z) : state :=
    mkState (s_mem s ++ [repeat (lit E Float32 0) (Z.to_nat (h * w * 9))])
      (s_objs s ++ [mkObj KNumpy (length (s_mem s)) 0 [h; w; 9] [w * 9; 9; 1] Float32 None GNone EmptyString []; fp_obj s o h w]).
  Definition fp_tail (dem a : nat) (m : string) (e : option num) : py nat :=
    let! fpw := wrap a;
    let! _ := AddAnalysis a (String.append "FlowProportions " m);
    let! nd := dispatch fprop_methods fprop_methods_exponent dem m e fpw;
    let! _ := copyFromWrapped a nd;
    ret a.
  Lemma fp_unfold (s : state) dem o h w m e : object s dem = Some o -> o_kind o = KRd -> o_shape o = [h; w] ->
    FlowProportions dem m e s = fp_tail dem (S (length (s_objs s))) m e (fp_state s o h w).
  Proof.
    intros H K S. unfold FlowProportions, seq at 1, getobj. unfold object in H. rewrite H. unfold is_rd. rewrite K. cbn [negb]. rewrite S.
    unfold seq at 1. rewrite npfull_ok. cbn [app c_strides]. unfold prodZ. cbn [fold_right]. unfold seq at 1. unfold rd_new at 1. unfold seq at 1, getobj. cbn [s_objs]. rewrite nth_error_app2 by lia.
    rewrite Nat.sub_diag. cbn [nth_error]. unfold seq at 1 2. unfold getobj. cbn [s_objs]. rewrite (object_app s dem o _ H). unfold ret at 1. cbn [fst snd o_block o_off o_shape o_strides o_dtype]. unfold newobj at 1. cbn [s_objs s_mem].
    rewrite app_length. cbn [length]. rewrite Nat.add_1_r. unfold fp_tail, fp_state, fp_obj. rewrite <- app_assoc. cbn [app]. rewrite !Z.mul_1_r, !Z.mul_assoc. reflexivity.
  Qed.
  Lemma fp_object (s : state) (o : obj) h w : object (fp_state s o h w) (S (length (s_objs s))) = Some (fp_obj s o h w).
  Proof. unfold object, fp_state. cbn [s_objs]. rewrite nth_error_app2 by lia. replace (S (length (s_objs s)) - length (s_objs s))%nat with 1%nat by lia. reflexivity. Qed.
  Lemma fp_contig h w : 0 < h -> 0 < w -> c_contiguous [h; w; 9] [w * 9; 9; 1] = true.
  Proof.
    intros Hh Hw. unfold c_contiguous. cbn [existsb rev app]. destruct (Z.eqb_spec 0 h); [lia|]. destruct (Z.eqb_spec 0 w); [lia|]. cbn [orb].
    change (contig_from 1 [9; w; h] [1; 9; w * 9] = true). cbn [contig_from]. change (9 =? 1) with false. change (1 =? 1) with true. cbn [andb].
    replace (1 * 9) with 9 by reflexivity. rewrite Z.eqb_refl. cbn [andb]. destruct (Z.eqb_spec w 1) as [->|W].
    - destruct (h =? 1); [reflexivity|]. reflexivity.
    - destruct (h =? 1); [reflexivity|]. rewrite (Z.mul_comm 9 w), Z.eqb_refl. reflexivity.
  Qed.
  (** the line "if self.geotransform:" *)
  Definition geo_ok (g : geot) : bool := match g with GArray l => negb (1 <? length l)%nat | _ => true end.
  Lemma fp_wrap (s : state) (o : obj) h w nd : 0 < h -> 0 < w -> cvt E Float32 (PInt (-2)) = Ok nd ->
    wrap (S (length (s_objs s))) (fp_state s o h w) =
      if geo_ok (o_geo o) then Ret (mkW (Some (length (s_mem s), 0)) Float32 w h (9 * w * h) nd) (fp_state s o h w) else Exn (fp_state s o h w).
  Proof.
    intros Hh Hw C. unfold wrap, seq at 1, getobj. pose proof (fp_object s o h w) as Ob. unfold object in Ob. rewrite Ob. cbn [o_kind fp_obj o_dtype dtype_eqb negb].
    unfold construct, seq at 1 2, getobj. rewrite Ob. cbn [fp_obj o_shape length Nat.eqb negb o_strides nth]. unfold ret at 1. rewrite (fp_contig h w Hh Hw). cbn [fp_obj o_nodata o_dtype o_block o_off w_loc w_dtype w_w w_h w_len]. rewrite C. unfold seq. change (o_geo (fp_obj s o h w)) with (o_geo o). destruct (o_geo o) as [|g|g]; unfold geo_truth, geo_ok, ret, raise; [reflexivity|reflexivity|]. destruct (1 <? length g)%nat; reflexivity.
  Qed.
  Lemma fp_dem (s : state) dem o h w l nd : raster s dem o h w l nd -> raster (fp_state s o h w) dem o h w l nd.
  Proof. intros R. apply raster_grow. exact R. Qed.

  Lemma fp_load (s1 : state) blk n nd w h : nth_error (s_mem s1) n = Some blk -> Z.of_nat (length blk) = 9 * w * h -> 0 <= 9 * w * h ->
    load (mkW (Some (n, 0)) Float32 w h (9 * w * h) nd) s1 = Ret (mkAval Float32 w h nd blk) s1.
  Proof.
    intros B L P. apply (load_region s1 _ _ _ _ _ _ _ blk); auto; try lia. rewrite firstn_all2; [reflexivity|]. change (Z.to_nat 0) with 0%nat. cbn [skipn]. lia.
  Qed.
  Lemma fp_tail_ok (s : state) dem o h w l nd ndv m e c args d nd' :
    raster s dem o h w l nd -> contiguous o = true -> geo_ok (o_geo o) = true -> runs m e c args -> cvt E Float32 (PInt (-2)) = Ok ndv ->
    eng E (String.append "FM_" c) args [mkAval (o_dtype o) w h nd l; mkAval Float32 w h ndv (repeat (lit E Float32 0) (Z.to_nat (h * w * 9)))] = EOk d nd' ->
    Z.of_nat (length d) = h * w * 9 ->
    exists s', fp_tail dem (S (length (s_objs s))) m e (fp_state s o h w) = Ret (S (length (s_objs s))) s' /\
      object s' (S (length (s_objs s))) = Some (final (fp_obj s o h w) (String.append "FlowProportions " m) (back E Float32 nd')) /\
      (forall r, r <> S (length (s_objs s)) -> object s' r = object (fp_state s o h w) r) /\
      nth_error (s_mem s') (length (s_mem s)) = Some d /\ (forall b, b <> length (s_mem s) -> nth_error (s_mem s') b = nth_error (s_mem (fp_state s o h w)) b).
  Proof.
    intros R C G Rn Cv Eg L. pose proof R as [Ho [K [D [Hh [Hw [S0 [St [Sh Cn]]]]]]]]. unfold fp_tail, seq at 1. rewrite (fp_wrap s o h w ndv Hh Hw Cv), G.
    set (a := S (length (s_objs s))) in *. set (an := String.append "FlowProportions " m). pose proof (fp_object s o h w) as Ob. fold a in Ob.
    unfold seq at 1. rewrite (add_analysis _ a _ an Ob) by discriminate.
    set (s1 := mkState (s_mem (fp_state s o h w)) (upd_nth a (with_hist (fp_obj s o h w) an) (s_objs (fp_state s o h w)))).
    assert (N : a <> dem) by (apply object_lt in Ho; unfold a; lia).
    assert (R1 : raster s1 dem o h w l nd) by (apply raster_other; auto; apply fp_dem; exact R).
    unfold seq at 1. rewrite (dispatch_fm dem m e c args _ s1 Rn). unfold seq at 1. rewrite (wrap_raster s1 dem o h w l nd R1), C.
    assert (B : nth_error (s_mem s1) (length (s_mem s)) = Some (repeat (lit E Float32 0) (Z.to_nat (h * w * 9)))).
    { unfold s1, fp_state. cbn [s_mem]. rewrite nth_error_app2 by lia. rewrite Nat.sub_diag. reflexivity. }
    assert (Ld : loads ([mkW (Some (o_block o, o_off o)) (o_dtype o) w h (1 * w * h) nd] ++ [mkW (Some (length (s_mem s), 0)) Float32 w h (9 * w * h) ndv]) s1 =
      Ret ([mkAval (o_dtype o) w h nd l] ++ [mkAval Float32 w h ndv (repeat (lit E Float32 0) (Z.to_nat (h * w * 9)))]) s1).
    { apply loads_snoc; [apply fp_load; [exact B|rewrite repeat_length; nia|nia]|]. cbn [loads]. unfold seq, ret. rewrite (load_raster s1 dem o h w l nd R1 C). reflexivity. }
    unfold call, seq at 1. rewrite Ld. cbn [app]. rewrite Eg.
    unfold seq at 1. rewrite (store_region s1 _ _ _ _ _ _ _ _ d B). unfold ret at 1. set (s2 := mkState _ (s_objs s1)).
    assert (Es : splice (repeat (lit E Float32 0) (Z.to_nat (h * w * 9))) 0 (9 * w * h) d = d).
    { unfold splice. change (Z.to_nat 0) with 0%nat. cbn [firstn app Nat.add]. rewrite firstn_all2 by lia. rewrite skipn_all2 by (rewrite repeat_length; lia). apply app_nil_r. }
    assert (Ob2 : object s2 a = Some (with_hist (fp_obj s o h w) an)).
    { unfold object, s2, s1. cbn [s_objs]. apply upd_same. apply object_lt in Ob. exact Ob. }
    unfold seq at 1. rewrite (copy_from s2 a _ _ Ob2). unfold ret. eexists. split; [reflexivity|]. unfold object. cbn [s_objs s_mem]. split; [|split; [|split]].
    - apply upd_same. apply object_lt in Ob2. exact Ob2.
    - intros r Nr. rewrite upd_other by congruence. unfold s2, s1. cbn [s_objs]. rewrite upd_other by congruence. reflexivity.
    - unfold s2. cbn [s_mem]. rewrite Es. apply upd_same. eapply nth_some_lt; eauto.
    - intros b Nb. unfold s2. cbn [s_mem]. rewrite upd_other by congruence. reflexivity.
  Qed.
  Lemma fp_tail_ub (s : state) dem o h w l nd ndv m e c args :
    raster s dem o h w l nd -> contiguous o = false -> geo_ok (o_geo o) = true -> runs m e c args -> cvt E Float32 (PInt (-2)) = Ok ndv ->
    fp_tail dem (S (length (s_objs s))) m e (fp_state s o h w) = Undefd.
  Proof.
    intros R C G Rn Cv. pose proof R as [Ho [K [D [Hh [Hw [S0 [St [Sh Cn]]]]]]]]. unfold fp_tail, seq at 1. rewrite (fp_wrap s o h w ndv Hh Hw Cv), G.
    set (a := S (length (s_objs s))) in *. set (an := String.append "FlowProportions " m). pose proof (fp_object s o h w) as Ob. fold a in Ob.
    unfold seq at 1. rewrite (add_analysis _ a _ an Ob) by discriminate.
    set (s1 := mkState (s_mem (fp_state s o h w)) (upd_nth a (with_hist (fp_obj s o h w) an) (s_objs (fp_state s o h w)))).
    assert (N : a <> dem) by (apply object_lt in Ho; unfold a; lia).
    assert (R1 : raster s1 dem o h w l nd) by (apply raster_other; auto; apply fp_dem; exact R).
    unfold seq at 1. rewrite (dispatch_fm dem m e c args _ s1 Rn). rewrite (call_two_ub s1 dem o h w l nd _ _ _ R1 C). reflexivity.
  Qed.
End P5.
