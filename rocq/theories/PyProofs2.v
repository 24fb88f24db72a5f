(** Proofs about the Python package, second part: FlowAccumulation, FlowProportions, TerrainAttribute, undefined behaviour. *)
From Coq Require Import ZArith List Lia Bool String.
From Verif Require Import Base Res PyModel PySpec PyProofs.
Open Scope Z_scope.
Open Scope list_scope.

Section P2.
  Context {E : env}.
  Notation num := (num (F E)). Notation obj := (obj (F E)). Notation state := (state (F E) (V E)). Notation py := (py (F E) (V E)).

  Lemma object_lt (s : state) r o : object s r = Some o -> (r < length (s_objs s))%nat.
  Proof. apply nth_some_lt. Qed.
  Lemma object_app (s : state) r o m : object s r = Some o -> nth_error (s_objs s ++ m) r = Some o.
  Proof. intros H. rewrite nth_error_app1; [exact H|eapply object_lt; eauto]. Qed.
  Lemma mem_app (s : state) b i v m : mem_at s b i = Some v -> forall objs, mem_at (mkState (s_mem s ++ m) objs) b i = Some v.
  Proof.
    unfold mem_at. cbn [s_mem]. intros H objs. destruct (nth_error (s_mem s) b) as [l|] eqn:Eb; [|discriminate].
    rewrite nth_error_app1 by (eapply nth_some_lt; eauto). rewrite Eb. exact H.
  Qed.
  (** more objects and more memory: every raster is still there *)
  Lemma raster_grow (s : state) r o h w l nd m os : raster s r o h w l nd -> raster (mkState (s_mem s ++ m) (s_objs s ++ os)) r o h w l nd.
  Proof.
    intros [Ho [K [D [Hh [Hw [S [St [[o2 [Ho2 [S2 [L2 G]]]] C]]]]]]]]. assert (o2 = o) by congruence. subst o2.
    assert (X : object (mkState (s_mem s ++ m) (s_objs s ++ os)) r = Some o) by (unfold object; cbn [s_objs]; apply object_app; exact Ho).
    unfold raster. repeat (split; [assumption|]). split; [|exact C]. exists o. repeat (split; [assumption|]).
    intros y x Hy Hx. assert (W : exists v, ix l (y * w + x) = Some v) by (apply ix_some_iff; nia). destruct W as [v W]. rewrite W.
    rewrite elem_mem. apply mem_app. rewrite <- elem_mem. rewrite G by auto. exact W.
  Qed.
  (** another object changes its attributes *)
  Lemma raster_other (s : state) r r' o o' h w l nd : r' <> r -> raster s r o h w l nd -> raster (mkState (s_mem s) (upd_nth r' o' (s_objs s))) r o h w l nd.
  Proof.
    intros N [Ho [K [D [Hh [Hw [S [St [[o2 [Ho2 [S2 [L2 G]]]] C]]]]]]]]. assert (o2 = o) by congruence. subst o2.
    assert (X : object (mkState (s_mem s) (upd_nth r' o' (s_objs s))) r = Some o) by (unfold object; cbn [s_objs]; rewrite upd_other by auto; exact Ho).
    unfold raster. repeat (split; [assumption|]). split; [|exact C]. exists o. repeat (split; [assumption|]).
    intros y x Hy Hx. rewrite <- G by auto. reflexivity.
  Qed.

  Lemma load_raster (s : state) r o h w l nd : raster s r o h w l nd -> contiguous o = true ->
    load (mkW (Some (o_block o, o_off o)) (o_dtype o) w h (1 * w * h) nd) s = Ret (mkAval (o_dtype o) w h nd l) s.
  Proof.
    intros R C. destruct (raster_region _ _ _ _ _ _ _ R C) as [blk [B1 [B2 [B3 [B4 B5]]]]]. replace (1 * w * h) with (h * w) by ring.
    apply (load_region s _ _ _ _ _ _ _ blk); auto.
  Qed.

  (** one array in, one raster out *)
  Lemma call_two (s : state) r o h w l nd r2 o2 h2 w2 l2 nd2 f args d nd' :
    raster s r o h w l nd -> contiguous o = true -> raster s r2 o2 h2 w2 l2 nd2 -> contiguous o2 = true ->
    eng E f args [mkAval (o_dtype o) w h nd l; mkAval (o_dtype o2) w2 h2 nd2 l2] = EOk d nd' -> length d = length l2 ->
    (let! dw := wrap r; call f args [dw] (mkW (Some (o_block o2, o_off o2)) (o_dtype o2) w2 h2 (1 * w2 * h2) nd2)) s =
    Ret (back E (o_dtype o2) nd') (overwrite s o2 h2 w2 d).
  Proof.
    intros R C R2 C2 Eg L. unfold seq. rewrite (wrap_raster s r o h w l nd R), C.
    apply (call_ok s r2 o2 h2 w2 l2 nd2 f args _ [mkAval (o_dtype o) w h nd l] d nd' R2 C2); auto.
    cbn [loads]. unfold seq, ret. rewrite (load_raster s r o h w l nd R C). reflexivity.
  Qed.
  (** the array read is not contiguous: a freed temporary is read *)
  Lemma call_two_ub (s : state) r o h w l nd f args (q : warr) : raster s r o h w l nd -> contiguous o = false ->
    (let! dw := wrap r; call f args [dw] q) s = Undefd.
  Proof.
    intros R C. unfold seq. rewrite (wrap_raster s r o h w l nd R), C. unfold call, seq. cbn [app loads]. unfold seq, load at 1. cbn [w_loc]. reflexivity.
  Qed.

  Lemma lookup_methods : forall m c b, In (m, (c, b)) metrics ->
    (b = false -> lookup m facc_methods = Some (String.append "FA_" c) /\ lookup m fprop_methods = Some (String.append "FM_" c)) /\
    (b = true -> lookup m facc_methods = None /\ lookup m fprop_methods = None /\
       lookup m facc_methods_exponent = Some (String.append "FA_" c) /\ lookup m fprop_methods_exponent = Some (String.append "FM_" c)).
  Proof.
    intros m c b H. unfold metrics in H. cbn [In] in H.
    repeat (destruct H as [H|H]; [inversion H; subst; split; intros X; try discriminate; vm_compute; auto|]). contradiction.
  Qed.
  Lemma lookup_none : forall m, (forall c b, ~ In (m, (c, b)) metrics) ->
    lookup m facc_methods = None /\ lookup m fprop_methods = None /\ lookup m facc_methods_exponent = None /\ lookup m fprop_methods_exponent = None.
  Proof.
    intros m N. unfold facc_methods, fprop_methods, facc_methods_exponent, fprop_methods_exponent. cbn [lookup].
    repeat match goal with |- context [String.eqb m ?k] =>
      destruct (String.eqb_spec m k) as [->|?]; [exfalso; eapply N; unfold metrics; cbn [In]; repeat (first [left; reflexivity|right])|] end.
    auto.
  Qed.

  Lemma dispatch_fa dem m e c args (ow : warr) (s : state) : runs m e c args ->
    dispatch facc_methods facc_methods_exponent dem m e ow s = (let! dw := wrap dem; call (String.append "FA_" c) args [dw] ow) s.
  Proof.
    intros [b [H A]]. destruct (lookup_methods m c b H) as [L1 L2]. unfold dispatch. destruct b.
    - destruct A as [x [-> ->]]. destruct (L2 eq_refl) as [Q1 [_ [Q2 _]]]. rewrite Q1, Q2. reflexivity.
    - subst args. destruct (L1 eq_refl) as [Q1 _]. rewrite Q1. reflexivity.
  Qed.
  Lemma dispatch_fm dem m e c args (ow : warr) (s : state) : runs m e c args ->
    dispatch fprop_methods fprop_methods_exponent dem m e ow s = (let! dw := wrap dem; call (String.append "FM_" c) args [dw] ow) s.
  Proof.
    intros [b [H A]]. destruct (lookup_methods m c b H) as [L1 L2]. unfold dispatch. destruct b.
    - destruct A as [x [-> ->]]. destruct (L2 eq_refl) as [_ [Q1 [_ Q2]]]. rewrite Q1, Q2. reflexivity.
    - subst args. destruct (L1 eq_refl) as [_ Q1]. rewrite Q1. reflexivity.
  Qed.

  (** FlowAccumulation once the accumulation array [a] exists in state [s1] *)
  Definition fa_tail (dem a : nat) (m : string) (e : option num) : py nat :=
    let! accumw := wrap a;
    let! _ := AddAnalysis a (String.append "FlowAccumulation " m);
    let! nd := dispatch facc_methods facc_methods_exponent dem m e accumw;
    let! _ := copyFromWrapped a nd;
    ret a.
  Lemma fa_unfold (s : state) dem o m e wt ip : object s dem = Some o -> o_kind o = KRd ->
    FlowAccumulation dem m e wt ip s = match make_accum dem wt ip (o_shape o) s with Ret a s1 => fa_tail dem a m e s1 | Exn s1 => Exn s1 | Undefd => Undefd end.
  Proof. intros H K. unfold FlowAccumulation, seq at 1, getobj. unfold object in H. rewrite H. unfold is_rd. rewrite K. reflexivity. Qed.

  Lemma fa_tail_ok (s : state) dem o h w l nd a oa ha wa la nda m e c args d nd' : a <> dem ->
    raster s dem o h w l nd -> contiguous o = true -> raster s a oa ha wa la nda -> contiguous oa = true -> runs m e c args ->
    eng E (String.append "FA_" c) args [mkAval (o_dtype o) w h nd l; mkAval (o_dtype oa) wa ha nda la] = EOk d nd' -> length d = length la ->
    exists s' oa', fa_tail dem a m e s = Ret a s' /\ object s' a = Some oa' /\
      oa' = final oa (String.append "FlowAccumulation " m) (back E (o_dtype oa) nd') /\
      (forall r, r <> a -> object s' r = object s r) /\ (forall b i, mem_at s' b i = mem_at (overwrite s oa ha wa d) b i).
  Proof.
    intros N R C Ra Ca Rn Eg L. unfold fa_tail, seq at 1. rewrite (wrap_raster s a oa ha wa la nda Ra), Ca.
    pose proof Ra as Ra0. destruct Ra0 as [Ho [K [D _]]]. unfold seq at 1. rewrite (add_analysis s a oa _ Ho) by congruence.
    set (an := String.append "FlowAccumulation " m) in *. set (s1 := mkState (s_mem s) (upd_nth a (with_hist oa an) (s_objs s))).
    assert (R1 : raster s1 a (with_hist oa an) ha wa la nda) by (apply (raster_upd s a oa); auto).
    assert (R2 : raster s1 dem o h w l nd) by (apply raster_other; auto).
    unfold seq at 1. rewrite (dispatch_fa dem m e c args _ s1 Rn).
    pose proof (call_two s1 dem o h w l nd a (with_hist oa an) ha wa la nda _ args d nd' R2 C R1 Ca Eg L) as Q.
    change (o_block (with_hist oa an)) with (o_block oa) in Q. change (o_off (with_hist oa an)) with (o_off oa) in Q.
    change (o_dtype (with_hist oa an)) with (o_dtype oa) in Q. rewrite Q. clear Q.
    assert (Ob : object (overwrite s1 (with_hist oa an) ha wa d) a = Some (with_hist oa an)) by (unfold object; rewrite overwrite_objs; apply R1).
    unfold seq at 1. rewrite (copy_from _ a _ _ Ob). unfold ret.
    assert (Lr : (a < length (s_objs s))%nat) by (eapply object_lt; eauto).
    eexists _, _. split; [reflexivity|]. unfold object. cbn [s_objs]. rewrite overwrite_objs. unfold s1 at 1 2. cbn [s_objs]. split; [apply upd_same; rewrite upd_nth_length; exact Lr|].
    split; [reflexivity|]. split. { intros r' Nr. rewrite upd_other by congruence. unfold s1. cbn [s_objs]. rewrite upd_other by congruence. reflexivity. }
    intros b i. transitivity (mem_at (overwrite s1 (with_hist oa an) ha wa d) b i); [reflexivity|].
    rewrite (overwrite_mem s1 a _ ha wa la nda d b i R1 Ca L), (overwrite_mem s a oa ha wa la nda d b i Ra Ca L). reflexivity.
  Qed.

  (** the accumulation array is a view of the weights *)
  Lemma make_accum_weights (s : state) dem o wt ow ip sh : object s dem = Some o -> object s wt = Some ow -> o_dtype ow = Float64 ->
    exists oa, make_accum dem (Some wt) ip sh s = Ret (length (s_objs s)) (mkState (s_mem s) (s_objs s ++ [oa])) /\
      o_kind oa = KRd /\ o_block oa = o_block ow /\ o_off oa = o_off ow /\ o_shape oa = o_shape ow /\ o_strides oa = o_strides ow /\ o_dtype oa = Float64 /\
      o_nodata oa = Some (PInt (-1)) /\ (ip = false -> o_geo oa = o_geo o /\ o_proj oa = o_proj o /\ o_hist oa = o_hist o) /\
      (ip = true -> o_geo oa = GNone /\ o_proj oa = EmptyString /\ o_hist oa = []).
  Proof.
    intros Hd Hw Dw. unfold make_accum, rd_new, seq, getobj, newobj, ret. unfold object in *. destruct ip; rewrite Hw; [|rewrite Hd];
      cbn [s_objs fst snd]; (rewrite nth_error_app2 by lia); rewrite Nat.sub_diag; cbn [nth_error o_dtype]; rewrite Dw; cbn [dtype_eqb negb];
      eexists; split; try reflexivity; cbn; repeat (split; [first [reflexivity|assumption]|]); (split; [intros X; first [discriminate X|repeat split; reflexivity]|intros X; first [discriminate X|repeat split; reflexivity]]).
  Qed.

  Lemma npfull_ok (s : state) sh dt z :
    npfull sh dt z s = Ret (length (s_objs s)) (mkState (s_mem s ++ [repeat (lit E dt z) (Z.to_nat (prodZ sh))])
      (s_objs s ++ [mkObj KNumpy (length (s_mem s)) 0 sh (c_strides sh) dt None GNone EmptyString []])).
  Proof. reflexivity. Qed.

  (** a new raster filled with a constant, as rdarray(np.full(..), meta_obj=dem, no_data=n) *)
  Definition full_obj (s : state) (o : obj) (dt : dtype) (n : num) : obj :=
    mkObj KRd (length (s_mem s)) 0 (o_shape o) (c_strides (o_shape o)) dt (Some n) (o_geo o) (o_proj o) (o_hist o).
  Definition full_state (s : state) (o : obj) (dt : dtype) (z : Z) (n : num) : state :=
    mkState (s_mem s ++ [repeat (lit E dt z) (Z.to_nat (prodZ (o_shape o)))])
      (s_objs s ++ [mkObj KNumpy (length (s_mem s)) 0 (o_shape o) (c_strides (o_shape o)) dt None GNone EmptyString []; full_obj s o dt n]).
  Lemma full_ok (s : state) dem o dt z n : object s dem = Some o ->
    (let! k := npfull (o_shape o) dt z; rd_new KRd k (Some dem) (Some n) None) s = Ret (S (length (s_objs s))) (full_state s o dt z n).
  Proof.
    intros Hd. unfold seq at 1. rewrite npfull_ok. unfold rd_new, seq, getobj, newobj, ret. cbn [s_objs]. rewrite nth_error_app2 by lia.
    rewrite Nat.sub_diag. cbn [nth_error s_objs]. rewrite (object_app s dem o _ Hd). cbn [fst snd o_block o_off o_shape o_strides o_dtype s_mem].
    cbn [s_objs]. rewrite app_length. cbn [length]. rewrite Nat.add_1_r. f_equal.
    unfold full_state, full_obj. f_equal. rewrite <- app_assoc. reflexivity.
  Qed.
  Lemma full_raster (s : state) o dt z n h w ndv : 0 < h -> 0 < w -> o_shape o = [h; w] -> dt <> Other -> cvt E dt n = Ok ndv ->
    raster (full_state s o dt z n) (S (length (s_objs s))) (full_obj s o dt n) h w (repeat (lit E dt z) (Z.to_nat (h * w))) ndv /\
    contiguous (full_obj s o dt n) = true.
  Proof.
    intros Hh Hw S D C. assert (CC : c_contiguous [h; w] (c_strides [h; w]) = true) by (apply c_strides_contig; auto).
    assert (P : prodZ (o_shape o) = h * w) by (rewrite S; unfold prodZ; cbn; ring).
    split; [|unfold contiguous; cbn [o_shape o_strides full_obj]; rewrite S; exact CC].
    assert (On : object (full_state s o dt z n) (Datatypes.S (length (s_objs s))) = Some (full_obj s o dt n)).
    { unfold object, full_state. cbn [s_objs]. rewrite nth_error_app2 by lia. replace (Datatypes.S (length (s_objs s)) - length (s_objs s))%nat with 1%nat by lia. reflexivity. }
    split; [exact On|]. split; [reflexivity|]. split; [exact D|]. split; [exact Hh|]. split; [exact Hw|]. split; [exact S|].
    split; [cbn [o_strides full_obj]; rewrite S; reflexivity|]. split; [|exact C].
    eexists. split; [exact On|]. split; [exact S|]. split; [rewrite repeat_length; lia|].
    intros y x Hy Hx. rewrite elem_mem. unfold mem_at, full_state. cbn [s_mem full_obj o_block o_off o_strides]. rewrite nth_error_app2 by lia. rewrite Nat.sub_diag.
    cbn [nth_error]. rewrite P. rewrite S. unfold c_strides, prodZ in *. cbn [fold_right] in *. rewrite (contig2 h w _ _ y x Hh Hw CC Hy Hx). reflexivity.
  Qed.
End P2.
