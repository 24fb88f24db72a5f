(** Proofs about the Python package, third part: results in new arrays, results in the weights, undefined behaviour. *)
From Coq Require Import ZArith List Lia Bool String.
From Verif Require Import Base Res PyModel PySpec PyProofs PyProofs2.
Open Scope Z_scope.
Open Scope list_scope.

Section P4.
  Context {E : env}.
  Notation num := (num (F E)). Notation obj := (obj (F E)). Notation state := (state (F E) (V E)). Notation py := (py (F E) (V E)).

  (** an object [a] made anew over a new block: writing to it changes nothing that existed *)
  Lemma new_result (s s1 s' : state) a oa h w la nda d : 
    (forall r o, object s r = Some o -> object s1 r = Some o) -> (forall b i v, mem_at s b i = Some v -> mem_at s1 b i = Some v) ->
    object s a = None -> nth_error (s_mem s) (o_block oa) = None -> raster s1 a oa h w la nda -> contiguous oa = true -> length d = length la ->
    (forall r, r <> a -> object s' r = object s1 r) -> (forall b i, mem_at s' b i = mem_at (overwrite s1 oa h w d) b i) ->
    forall oa', object s' a = Some oa' -> o_block oa' = o_block oa -> o_off oa' = o_off oa -> o_shape oa' = o_shape oa -> o_strides oa' = o_strides oa ->
    keeps s s' /\ fresh s s' a /\ shows s' a h w d.
  Proof.
    intros K1 K2 Na Nb Ra Ca L Oth M oa' Ob E1 E2 E3 E4. split; [split|split].
    - intros r o H. rewrite Oth by congruence. apply K1. exact H.
    - intros b i v H. rewrite M, (overwrite_mem s1 a oa h w la nda d b i Ra Ca L).
      assert (b <> o_block oa). { intros ->. unfold mem_at in H. rewrite Nb in H. discriminate. }
      rewrite (proj2 (Nat.eqb_neq _ _) H0). cbn [andb]. apply K2. exact H.
    - split; [exact Na|]. exists oa'. rewrite E1. auto.
    - exists oa'. split; [exact Ob|]. rewrite E3. pose proof Ra as [Ho [K [D [Hh [Hw [S [St [Sh _]]]]]]]]. split; [exact S|]. split.
      + destruct Sh as [? [_ [_ [L2 _]]]]. rewrite L. exact L2.
      + intros y x Hy Hx. rewrite elem_mem, E1, E2, E4, M, <- elem_mem. apply (overwrite_shows s1 a oa h w la nda d Ra Ca L y x Hy Hx).
  Qed.

  Lemma full_new (s : state) (o : obj) dt z n :
    (forall r x, object s r = Some x -> object (full_state s o dt z n) r = Some x) /\
    (forall b i v, mem_at s b i = Some v -> mem_at (full_state s o dt z n) b i = Some v) /\
    object s (S (length (s_objs s))) = None /\ nth_error (s_mem s) (o_block (full_obj s o dt n)) = None.
  Proof.
    split; [|split; [|split]].
    - intros r x H. unfold object, full_state. cbn [s_objs]. apply object_app. exact H.
    - intros b i v H. apply mem_app. exact H.
    - unfold object. apply nth_error_None. lia.
    - apply nth_error_None. cbn [full_obj o_block]. lia.
  Qed.

  (** TerrainAttribute once the result array [a] exists *)
  Definition ta_tail (dem a : nat) (line f : string) (z : num) : py nat :=
    let! rw := wrap a;
    let! _ := AddAnalysis a line;
    let! dw := wrap dem;
    let! nd := call f [z] [dw] rw;
    let! _ := copyFromWrapped a nd;
    ret a.
  Lemma ta_unfold (s : state) dem o at' z f : object s dem = Some o -> o_kind o = KRd -> lookup at' terrain_attribs = Some f ->
    TerrainAttribute dem at' z s = match (let! k := npfull (o_shape o) Float32 0; rd_new KRd k (Some dem) (Some (PInt (-9999))) None) s with
      | Ret a s1 => ta_tail dem a (String.append "TerrainAttribute " at') f z s1 | Exn s1 => Exn s1 | Undefd => Undefd end.
  Proof.
    intros H K Lk. unfold TerrainAttribute, seq at 1, getobj. unfold object in H. rewrite H. unfold is_rd. rewrite K. cbn [negb]. rewrite Lk.
    unfold seq at 1. unfold seq at 7. destruct (npfull (o_shape o) Float32 0 s) as [k s1|s1|]; reflexivity.
  Qed.
  Lemma ta_tail_ok (s : state) dem o h w l nd a oa ha wa la nda line f z d nd' : a <> dem ->
    raster s dem o h w l nd -> contiguous o = true -> raster s a oa ha wa la nda -> contiguous oa = true ->
    eng E f [z] [mkAval (o_dtype o) w h nd l; mkAval (o_dtype oa) wa ha nda la] = EOk d nd' -> length d = length la ->
    exists s' oa', ta_tail dem a line f z s = Ret a s' /\ object s' a = Some oa' /\ oa' = final oa line (back E (o_dtype oa) nd') /\
      (forall r, r <> a -> object s' r = object s r) /\ (forall b i, mem_at s' b i = mem_at (overwrite s oa ha wa d) b i).
  Proof.
    intros N R C Ra Ca Eg L. unfold ta_tail, seq at 1. rewrite (wrap_raster s a oa ha wa la nda Ra), Ca.
    pose proof Ra as Ra0. destruct Ra0 as [Ho [K [D _]]]. unfold seq at 1. rewrite (add_analysis s a oa _ Ho) by congruence.
    set (s1 := mkState (s_mem s) (upd_nth a (with_hist oa line) (s_objs s))).
    assert (R1 : raster s1 a (with_hist oa line) ha wa la nda) by (apply (raster_upd s a oa); auto).
    assert (R2 : raster s1 dem o h w l nd) by (apply raster_other; auto).
    pose proof (call_two s1 dem o h w l nd a (with_hist oa line) ha wa la nda f [z] d nd' R2 C R1 Ca Eg L) as Q.
    change (o_block (with_hist oa line)) with (o_block oa) in Q. change (o_off (with_hist oa line)) with (o_off oa) in Q.
    change (o_dtype (with_hist oa line)) with (o_dtype oa) in Q.
    unfold seq in Q. unfold seq at 1. rewrite (wrap_raster s1 dem o h w l nd R2), C. rewrite (wrap_raster s1 dem o h w l nd R2), C in Q. unfold seq at 1. rewrite Q. clear Q.
    assert (Ob : object (overwrite s1 (with_hist oa line) ha wa d) a = Some (with_hist oa line)) by (unfold object; rewrite overwrite_objs; apply R1).
    unfold seq at 1. rewrite (copy_from _ a _ _ Ob). unfold ret.
    assert (Lr : (a < length (s_objs s))%nat) by (eapply object_lt; eauto).
    eexists _, _. split; [reflexivity|]. unfold object. cbn [s_objs]. rewrite overwrite_objs. unfold s1 at 1 2. cbn [s_objs]. split; [apply upd_same; rewrite upd_nth_length; exact Lr|].
    split; [reflexivity|]. split. { intros r' Nr. rewrite upd_other by congruence. unfold s1. cbn [s_objs]. rewrite upd_other by congruence. reflexivity. }
    intros b i. transitivity (mem_at (overwrite s1 (with_hist oa line) ha wa d) b i); [reflexivity|].
    rewrite (overwrite_mem s1 a _ ha wa la nda d b i R1 Ca L), (overwrite_mem s a oa ha wa la nda d b i Ra Ca L). reflexivity.
  Qed.
  Lemma ta_tail_ub (s : state) dem o h w l nd a oa ha wa la nda line f z : a <> dem ->
    raster s dem o h w l nd -> contiguous o = false -> raster s a oa ha wa la nda -> ta_tail dem a line f z s = Undefd.
  Proof.
    intros N R C Ra. unfold ta_tail, seq at 1. rewrite (wrap_raster s a oa ha wa la nda Ra).
    pose proof Ra as Ra0. destruct Ra0 as [Ho [K [D _]]]. unfold seq at 1. rewrite (add_analysis s a oa _ Ho) by congruence.
    set (s1 := mkState (s_mem s) (upd_nth a (with_hist oa line) (s_objs s))).
    assert (R2 : raster s1 dem o h w l nd) by (apply raster_other; auto).
    pose proof (call_two_ub s1 dem o h w l nd f [z] (mkW (if contiguous oa then Some (o_block oa, o_off oa) else None) (o_dtype oa) wa ha (1 * wa * ha) nda) R2 C) as Q.
    unfold seq in Q. unfold seq at 1. rewrite (wrap_raster s1 dem o h w l nd R2), C. rewrite (wrap_raster s1 dem o h w l nd R2), C in Q. unfold seq at 1. rewrite Q. reflexivity.
  Qed.
  Lemma fa_tail_ub (s : state) dem o h w l nd a oa ha wa la nda m e c args : a <> dem ->
    raster s dem o h w l nd -> contiguous o = false -> raster s a oa ha wa la nda -> runs m e c args -> fa_tail dem a m e s = Undefd.
  Proof.
    intros N R C Ra Rn. unfold fa_tail, seq at 1. rewrite (wrap_raster s a oa ha wa la nda Ra).
    pose proof Ra as Ra0. destruct Ra0 as [Ho [K [D _]]]. unfold seq at 1. rewrite (add_analysis s a oa _ Ho) by congruence.
    set (an := String.append "FlowAccumulation " m) in *. set (s1 := mkState (s_mem s) (upd_nth a (with_hist oa an) (s_objs s))).
    assert (R2 : raster s1 dem o h w l nd) by (apply raster_other; auto).
    unfold seq at 1. rewrite (dispatch_fa dem m e c args _ s1 Rn). rewrite (call_two_ub s1 dem o h w l nd _ _ _ R2 C). reflexivity.
  Qed.
  (** the array written is not contiguous *)
  Lemma fa_tail_ub2 (s : state) dem o h w l nd a oa ha wa la nda m e c args : a <> dem ->
    raster s dem o h w l nd -> raster s a oa ha wa la nda -> contiguous oa = false -> runs m e c args -> fa_tail dem a m e s = Undefd.
  Proof.
    intros N R Ra Ca Rn. destruct (contiguous o) eqn:C; [|eapply fa_tail_ub; eauto]. unfold fa_tail, seq at 1. rewrite (wrap_raster s a oa ha wa la nda Ra), Ca.
    pose proof Ra as Ra0. destruct Ra0 as [Ho [K [D _]]]. unfold seq at 1. rewrite (add_analysis s a oa _ Ho) by congruence.
    set (an := String.append "FlowAccumulation " m) in *. set (s1 := mkState (s_mem s) (upd_nth a (with_hist oa an) (s_objs s))).
    assert (R2 : raster s1 dem o h w l nd) by (apply raster_other; auto).
    unfold seq at 1. rewrite (dispatch_fa dem m e c args _ s1 Rn). unfold seq at 1. rewrite (wrap_raster s1 dem o h w l nd R2), C. unfold call, seq at 1 2. cbn [app loads].
    unfold seq at 1. rewrite (load_raster s1 dem o h w l nd R2 C). reflexivity.
  Qed.

  Lemma make_accum_none (s : state) dem o ip : object s dem = Some o ->
    make_accum dem None ip (o_shape o) s = Ret (S (length (s_objs s))) (full_state s o Float64 1 (PInt (-1))).
  Proof.
    intros Hd. unfold make_accum, seq at 1. rewrite (full_ok s dem o Float64 1 (PInt (-1)) Hd). unfold seq, getobj, full_state at 1. cbn [s_objs].
    rewrite nth_error_app2 by lia. replace (S (length (s_objs s)) - length (s_objs s))%nat with 1%nat by lia. reflexivity.
  Qed.
  Lemma grow_full (s : state) r o h w l nd o2 dt z n : raster s r o h w l nd -> raster (full_state s o2 dt z n) r o h w l nd.
  Proof. intros R. apply raster_grow. exact R. Qed.

  (** rasters of any kind of array: what the weights are *)
  Lemma view_raster (s : state) wt ow h w l oa nda : object s wt = Some ow -> o_shape ow = [h; w] -> length (o_strides ow) = 2%nat -> 0 < h -> 0 < w ->
    shows s wt h w l -> o_kind oa = KRd -> o_block oa = o_block ow -> o_off oa = o_off ow -> o_shape oa = o_shape ow -> o_strides oa = o_strides ow -> o_dtype oa = Float64 ->
    o_nodata oa = Some (PInt (-1)) -> cvt E Float64 (PInt (-1)) = Ok nda ->
    raster (mkState (s_mem s) (s_objs s ++ [oa])) (length (s_objs s)) oa h w l nda.
  Proof.
    intros H S St Hh Hw [o2 [H2 [S2 [L G]]]] K B O Sa Sta D Nd C. assert (o2 = ow) by congruence. subst o2.
    assert (Oa : object (mkState (s_mem s) (s_objs s ++ [oa])) (length (s_objs s)) = Some oa).
    { unfold object. cbn [s_objs]. rewrite nth_error_app2 by lia. rewrite Nat.sub_diag. reflexivity. }
    split; [exact Oa|]. split; [exact K|]. split; [congruence|]. split; [exact Hh|]. split; [exact Hw|]. split; [congruence|]. split; [congruence|]. split.
    - exists oa. split; [exact Oa|]. split; [congruence|]. split; [exact L|]. intros y x Hy Hx. rewrite <- G by auto. rewrite !elem_mem, B, O, Sta. reflexivity.
    - rewrite D, Nd. exact C.
  Qed.
End P4.
