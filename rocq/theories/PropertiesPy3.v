(** C84 (FlowProportions), C85: arrays that are not C-contiguous. *)
From Coq Require Import ZArith List Lia Bool String.
From Verif Require Import Base Res PyModel PySpec PyProofs PyProofs2 PyProofs4 PyProofs5 PyIntModel PropertiesPy.
Open Scope Z_scope.
Open Scope list_scope.

(** C84. FlowProportions, for a DEM whose geotransform is absent, a tuple or a list: a new array of nine values per cell. *)
Theorem C84_flow_proportions : forall (E : env) (s : state (F E) (V E)) dem o h w l nd ndv m e c args d nd',
  raster s dem o h w l nd -> contiguous o = true -> (forall g, o_geo o = GArray g -> (length g <= 1)%nat) -> runs m e c args -> cvt E Float32 (PInt (-2)) = Ok ndv ->
  eng E (String.append "FM_" c) args [mkAval (o_dtype o) w h nd l; mkAval Float32 w h ndv (repeat (lit E Float32 0) (Z.to_nat (h * w * 9)))] = EOk d nd' ->
  Z.of_nat (length d) = h * w * 9 ->
  exists r s' o', FlowProportions dem m e s = Ret r s' /\ keeps s s' /\ fresh s s' r /\ shows3 s' r h w d /\
    object s' r = Some o' /\ o_kind o' = KRd3 /\ o_dtype o' = Float32 /\ o_geo o' = o_geo o /\ o_proj o' = o_proj o /\ (exists line, o_hist o' = o_hist o ++ [line]) /\
    o_nodata o' = Some (back E Float32 nd').
Proof.
  intros E s dem o h w l nd ndv m e c args d nd' R C G Rn Cv Eg L. pose proof R as [Ho [K [D [Hh [Hw [S [St [Sh Cn]]]]]]]].
  assert (G' : geo_ok (o_geo o) = true). { destruct (o_geo o) as [|g|g] eqn:Eo; try reflexivity. unfold geo_ok. specialize (G g eq_refl). apply negb_true_iff. apply Nat.ltb_ge. exact G. }
  rewrite (fp_unfold s dem o h w m e Ho K S).
  destruct (fp_tail_ok s dem o h w l nd ndv m e c args d nd' R C G' Rn Cv Eg L) as [s' [-> [Ob [Oth [M1 M2]]]]].
  set (a := Datatypes.S (length (s_objs s))) in *.
  exists a, s', (final (fp_obj s o h w) (String.append "FlowProportions " m) (back E Float32 nd')). split; [reflexivity|]. split; [split|split; [split|split]].
  - intros r x H. rewrite Oth by (apply object_lt in H; unfold a; lia). unfold object, fp_state. cbn [s_objs]. apply object_app. exact H.
  - intros b i v H. unfold mem_at in *. destruct (nth_error (s_mem s) b) as [blk|] eqn:Eb; [|discriminate]. pose proof (nth_some_lt _ _ _ Eb) as Lb.
    rewrite M2 by lia. unfold fp_state. cbn [s_mem]. rewrite nth_error_app1 by lia. rewrite Eb. exact H.
  - unfold object. apply nth_error_None. unfold a. lia.
  - eexists. split; [exact Ob|]. apply nth_error_None. cbn [final with_nd with_hist fp_obj o_block]. lia.
  - eexists. split; [exact Ob|]. split; [reflexivity|]. split; [exact L|]. intros y x k Hy Hx Hk. rewrite elem_mem. unfold mem_at. cbn [final with_nd with_hist fp_obj o_block o_off o_strides].
    rewrite M1. f_equal. unfold dot. ring.
  - split; [exact Ob|]. cbn. repeat (split; [reflexivity|]). split; [eexists; reflexivity|reflexivity].
Qed.
Print Assumptions C84_flow_proportions.

(** C85. Which arrays are C-contiguous, in terms of shape and strides ([s0]: elements from row to row, [s1]: from column to column). *)
Theorem C85_contiguous : forall h w s0 s1, 0 < h -> 0 < w -> (c_contiguous [h; w] [s0; s1] = true <-> (w = 1 \/ s1 = 1) /\ (h = 1 \/ s0 = w)).
Proof. exact contig_iff. Qed.
Print Assumptions C85_contiguous.

(** Views of an array of [h] rows and [w] columns: rows i..j are contiguous; columns i..j are only if they are all of them or there is one
    row; the transpose only if it is a single row or column; every k-th row and the array upside down only if a single row is left. *)
Theorem C85_views : forall h w, 0 < h -> 0 < w ->
  (forall n, 0 < n -> c_contiguous [n; w] [w; 1] = true) /\
  (forall n, 0 < n <= w -> (c_contiguous [h; n] [w; 1] = true <-> h = 1 \/ n = w)) /\
  (c_contiguous [w; h] [1; w] = true <-> h = 1 \/ w = 1) /\
  (forall n k, 0 < n -> k <> 1 -> (c_contiguous [n; w] [k * w; 1] = true <-> n = 1)).
Proof.
  intros h w Hh Hw. split; [|split; [|split]].
  - intros n Hn. apply contig_iff; auto.
  - intros n Hn. rewrite contig_iff by lia. intuition lia.
  - rewrite contig_iff by lia. intuition lia.
  - intros n k Hn Hk. rewrite contig_iff by lia. split; [|intuition lia]. intros [_ [H|H]]; [exact H|]. nia.
Qed.
Print Assumptions C85_views.

(** C85. The functions that alter a DEM, with in_place=True on an array that is not C-contiguous: undefined behaviour (the C++ code works on
    a temporary copy that has already been freed). *)
Theorem C85_in_place_not_contiguous : forall (E : env) (s : state (F E) (V E)) op dem o h w l nd,
  raster s dem o h w l nd -> contiguous o = false -> run op dem true s = Undefd.
Proof.
  intros E s op dem o h w l nd R C. pose proof R as [Ho [K _]]. destruct (run_checks op dem true s o Ho K) as [a ->]. rewrite ip_true, (body_ub s dem o h w l nd a _ R C). reflexivity.
Qed.
Print Assumptions C85_in_place_not_contiguous.

(** C85. With in_place=False the layout of the array does not matter: the Python layer adds no undefined behaviour to what the C++ function does. *)
Theorem C85_copy_is_safe : forall (E : env) (s : state (F E) (V E)) op dem o h w l nd,
  raster s dem o h w l nd -> eng E (cpp_function op) [] [mkAval (o_dtype o) w h nd l] <> EUndef -> run op dem false s <> Undefd.
Proof.
  intros E s op dem o h w l nd R U. pose proof R as [Ho [K [D [Hh [Hw [S [St [Sh Cn]]]]]]]]. destruct (run_checks op dem false s o Ho K) as [a ->]. rewrite ip_false.
  destruct (pycopy_ok s dem o h w l nd R) as [o1 [s1 [-> [Es [Eo [R1 C1]]]]]].
  set (r := length (s_objs s)) in *. assert (O1 : object s1 r = Some o1) by apply R1. assert (K1 : o_kind o1 = KRd) by (subst o1; exact K).
  unfold body, seq. rewrite (add_analysis s1 r o1 a O1) by congruence. set (s2 := mkState (s_mem s1) (upd_nth r (with_hist o1 a) (s_objs s1))).
  assert (R2 : raster s2 r (with_hist o1 a) h w l nd) by (apply (raster_upd s1 r o1); auto).
  rewrite (wrap_raster s2 r _ _ _ _ _ R2). assert (C2 : contiguous (with_hist o1 a) = true) by exact C1. rewrite C2.
  destruct (raster_region _ _ _ _ _ _ _ R2 C2) as [blk [B1 [B2 [B3 [B4 B5]]]]]. unfold call, seq. cbn [app loads]. unfold seq at 1.
  replace (1 * w * h) with (h * w) by ring. rewrite (load_region s2 _ _ _ _ _ _ _ blk l B1 B2 B3 B4). unfold seq at 1, ret at 1 2.
  assert (Ed : o_dtype (with_hist o1 a) = o_dtype o) by (subst o1; reflexivity). rewrite Ed.
  assert (O2 : nth_error (s_objs s2) r = Some (with_hist o1 a)) by apply R2.
  destruct (eng E (cpp_function op) [] _) as [d nd'|d|]; [| |congruence]; rewrite (store_region _ _ _ _ _ _ _ _ blk) by exact B1; unfold ret, raise; [|discriminate].
  unfold copyFromWrapped, seq, getobj. cbn [s_objs]. rewrite O2. discriminate.
Qed.
Print Assumptions C85_copy_is_safe.

(** C85. Functions that only read the DEM: undefined behaviour if it is not C-contiguous. The same if the weights are not. *)
Theorem C85_reading_not_contiguous : forall (E : env) (s : state (F E) (V E)) dem o h w l nd, raster s dem o h w l nd -> contiguous o = false ->
  (forall m e c args ip ndv, runs m e c args -> cvt E Float64 (PInt (-1)) = Ok ndv -> PyModel.FlowAccumulation dem m e None ip s = Undefd) /\
  (forall at' z ndv, In at' attributes -> cvt E Float32 (PInt (-9999)) = Ok ndv -> TerrainAttribute dem at' z s = Undefd) /\
  (forall m e c args ndv, runs m e c args -> cvt E Float32 (PInt (-2)) = Ok ndv -> (forall g, o_geo o = GArray g -> (length g <= 1)%nat) -> FlowProportions dem m e s = Undefd).
Proof.
  intros E s dem o h w l nd R C. pose proof R as [Ho [K [D [Hh [Hw [S [St [Sh Cn]]]]]]]]. assert (N : Datatypes.S (length (s_objs s)) <> dem) by (apply object_lt in Ho; lia).
  split; [|split].
  - intros m e c args ip ndv Rn Cv. rewrite (fa_unfold s dem o m e None ip Ho K), (make_accum_none s dem o ip Ho).
    destruct (full_raster s o Float64 1 (PInt (-1)) h w ndv Hh Hw S ltac:(discriminate) Cv) as [Ra Ca].
    eapply (fa_tail_ub _ dem o h w l nd); eauto. apply grow_full. exact R.
  - intros at' z ndv I Cv. assert (Lk : lookup at' terrain_attribs = Some (String.append "TA_" at')).
    { unfold attributes in I. cbn [In] in I. repeat (destruct I as [<-|I]; [reflexivity|]). contradiction. }
    rewrite (ta_unfold s dem o at' z _ Ho K Lk), (full_ok s dem o Float32 0 _ Ho).
    destruct (full_raster s o Float32 0 (PInt (-9999)) h w ndv Hh Hw S ltac:(discriminate) Cv) as [Ra Ca].
    eapply (ta_tail_ub _ dem o h w l nd); eauto. apply grow_full. exact R.
  - intros m e c args ndv Rn Cv G. assert (G' : geo_ok (o_geo o) = true).
    { destruct (o_geo o) as [|g|g] eqn:Eo; try reflexivity. unfold geo_ok. specialize (G g eq_refl). apply negb_true_iff. apply Nat.ltb_ge. exact G. }
    rewrite (fp_unfold s dem o h w m e Ho K S). eapply fp_tail_ub; eauto.
Qed.
Print Assumptions C85_reading_not_contiguous.
Theorem C85_weights_not_contiguous : forall (E : env) (s : state (F E) (V E)) dem o h w l nd ndv wt ow wh ww lw m e c args ip,
  raster s dem o h w l nd -> runs m e c args -> cvt E Float64 (PInt (-1)) = Ok ndv ->
  object s wt = Some ow -> o_dtype ow = Float64 -> 0 < wh -> 0 < ww -> shows s wt wh ww lw -> length (o_strides ow) = 2%nat -> contiguous ow = false ->
  PyModel.FlowAccumulation dem m e (Some wt) ip s = Undefd.
Proof.
  intros E s dem o h w l nd ndv wt ow wh ww lw m e c args ip R Rn Cv How Dw Hwh Hww Sw Stw Cw. pose proof R as [Ho [K _]].
  assert (SS : o_shape ow = [wh; ww]) by (destruct Sw as [o2 [Q1 [Q2 _]]]; congruence).
  rewrite (fa_unfold s dem o m e (Some wt) ip Ho K).
  destruct (make_accum_weights s dem o wt ow ip (o_shape o) Ho How Dw) as [oa [-> [A1 [A2 [A3 [A4 [A5 [A6 [A7 [A8 A9]]]]]]]]]].
  pose proof (view_raster s wt ow wh ww lw oa ndv How SS Stw Hwh Hww Sw A1 A2 A3 A4 A5 A6 A7 Cv) as Ra.
  assert (Ca : contiguous oa = false) by (unfold contiguous in *; rewrite A4, A5; exact Cw).
  assert (N : length (s_objs s) <> dem) by (apply object_lt in Ho; lia).
  eapply (fa_tail_ub2 _ dem o h w l nd); eauto. rewrite <- (app_nil_r (s_mem s)). apply raster_grow. exact R.
Qed.
Print Assumptions C85_weights_not_contiguous.

(** The view of every second column in PropertiesPy.v is such an array: FillDepressions(dem) works, FillDepressions(dem, in_place=True) does not. *)
Example C85_example : contiguous (E := e0) view0 = false /\ PyModel.FillDepressions (E := e0) 0 false true "D8" st0 = Undefd /\
  match PyModel.FillDepressions (E := e0) 0 false false "D8" st0 with Ret _ _ => True | _ => False end.
Proof. vm_compute. auto. Qed.
