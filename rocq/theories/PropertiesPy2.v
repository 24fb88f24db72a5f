(** C84: FlowAccumulation and TerrainAttribute from Python - new arrays and weights. C85: arrays that are not C-contiguous. *)
From Coq Require Import ZArith List Lia Bool String Permutation QArith Qcanon.
From Verif Require Import Base Res RasterSpec FAModel FASpec FMModel PyModel PySpec PyProofs PyProofs2 PyProofs3 PyProofs4 PyFlowModel PropertiesFM PyIntModel PropertiesPy.
Open Scope Z_scope.
Open Scope list_scope.

(** C84. Without weights: whatever the C++ metric computes from an array of ones is returned in a new array with memory of
    its own; every array that existed is as it was; geotransform, projection and history come from the DEM. *)
Theorem C84_no_weights : forall (E : env) (s : state (F E) (V E)) dem o h w l nd ndv m e c args ip d nd',
  raster s dem o h w l nd -> contiguous o = true -> runs m e c args -> cvt E Float64 (PInt (-1)) = Ok ndv ->
  eng E (String.append "FA_" c) args [mkAval (o_dtype o) w h nd l; mkAval Float64 w h ndv (repeat (lit E Float64 1) (Z.to_nat (h * w)))] = EOk d nd' ->
  Z.of_nat (length d) = h * w ->
  exists r s' o', PyModel.FlowAccumulation dem m e None ip s = Ret r s' /\ keeps s s' /\ fresh s s' r /\ shows s' r h w d /\
    object s' r = Some o' /\ o_kind o' = KRd /\ o_dtype o' = Float64 /\ o_geo o' = o_geo o /\ o_proj o' = o_proj o /\ (exists line, o_hist o' = o_hist o ++ [line]) /\
    o_nodata o' = Some (back E Float64 nd').
Proof.
  intros E s dem o h w l nd ndv m e c args ip d nd' R C Rn Cv Eg L. pose proof R as [Ho [K [D [Hh [Hw [S [St [Sh Cn]]]]]]]].
  rewrite (fa_unfold s dem o m e None ip Ho K), (make_accum_none s dem o ip Ho).
  destruct (full_raster s o Float64 1 (PInt (-1)) h w ndv Hh Hw S ltac:(discriminate) Cv) as [Ra Ca].
  assert (N : Datatypes.S (length (s_objs s)) <> dem) by (apply object_lt in Ho; lia).
  assert (L' : length d = length (repeat (lit E Float64 1) (Z.to_nat (h * w)))) by (rewrite repeat_length; lia).
  destruct (fa_tail_ok _ dem o h w l nd _ _ h w _ ndv m e c args d nd' N (grow_full s dem o h w l nd o Float64 1 (PInt (-1)) R) C Ra Ca Rn Eg L') as [s' [oa' [-> [Ob [Eo [Oth M]]]]]].
  destruct (full_new s o Float64 1 (PInt (-1))) as [K1 [K2 [Na Nb]]].
  destruct (new_result s _ s' _ _ h w _ ndv d K1 K2 Na Nb Ra Ca L' Oth M oa' Ob) as [P1 [P2 P3]]; try (subst oa'; reflexivity).
  exists (Datatypes.S (length (s_objs s))), s', oa'. split; [reflexivity|]. split; [exact P1|]. split; [exact P2|]. split; [exact P3|]. split; [exact Ob|].
  subst oa'. cbn. repeat (split; [reflexivity|]). split; [eexists; reflexivity|reflexivity].
Qed.
Print Assumptions C84_no_weights.

(** C84. TerrainAttribute: likewise, a new float32 array. *)
Theorem C84_terrain_attribute : forall (E : env) (s : state (F E) (V E)) dem o h w l nd ndv at' z d nd',
  raster s dem o h w l nd -> contiguous o = true -> In at' attributes -> cvt E Float32 (PInt (-9999)) = Ok ndv ->
  eng E (String.append "TA_" at') [z] [mkAval (o_dtype o) w h nd l; mkAval Float32 w h ndv (repeat (lit E Float32 0) (Z.to_nat (h * w)))] = EOk d nd' ->
  Z.of_nat (length d) = h * w ->
  exists r s' o', TerrainAttribute dem at' z s = Ret r s' /\ keeps s s' /\ fresh s s' r /\ shows s' r h w d /\
    object s' r = Some o' /\ o_kind o' = KRd /\ o_dtype o' = Float32 /\ o_geo o' = o_geo o /\ o_proj o' = o_proj o /\ (exists line, o_hist o' = o_hist o ++ [line]) /\
    o_nodata o' = Some (back E Float32 nd').
Proof.
  intros E s dem o h w l nd ndv at' z d nd' R C I Cv Eg L. pose proof R as [Ho [K [D [Hh [Hw [S [St [Sh Cn]]]]]]]].
  assert (Lk : lookup at' terrain_attribs = Some (String.append "TA_" at')).
  { unfold attributes in I. cbn [In] in I. repeat (destruct I as [<-|I]; [reflexivity|]). contradiction. }
  rewrite (ta_unfold s dem o at' z _ Ho K Lk), (full_ok s dem o Float32 0 _ Ho).
  destruct (full_raster s o Float32 0 (PInt (-9999)) h w ndv Hh Hw S ltac:(discriminate) Cv) as [Ra Ca].
  assert (N : Datatypes.S (length (s_objs s)) <> dem) by (apply object_lt in Ho; lia).
  assert (L' : length d = length (repeat (lit E Float32 0) (Z.to_nat (h * w)))) by (rewrite repeat_length; lia).
  destruct (ta_tail_ok _ dem o h w l nd _ _ h w _ ndv (String.append "TerrainAttribute " at') _ z d nd' N (grow_full s dem o h w l nd o Float32 0 (PInt (-9999)) R) C Ra Ca Eg L')
    as [s' [oa' [-> [Ob [Eo [Oth M]]]]]].
  destruct (full_new s o Float32 0 (PInt (-9999))) as [K1 [K2 [Na Nb]]].
  destruct (new_result s _ s' _ _ h w _ ndv d K1 K2 Na Nb Ra Ca L' Oth M oa' Ob) as [P1 [P2 P3]]; try (subst oa'; reflexivity).
  exists (Datatypes.S (length (s_objs s))), s', oa'. split; [reflexivity|]. split; [exact P1|]. split; [exact P2|]. split; [exact P3|]. split; [exact Ob|].
  subst oa'. cbn. repeat (split; [reflexivity|]). split; [eexists; reflexivity|reflexivity].
Qed.
Print Assumptions C84_terrain_attribute.

(** C84. With weights (a C-contiguous float64 array that shares no memory with the DEM), for in_place=True and in_place=False alike:
    the array returned is a view of the weights, and the weights themselves now hold the accumulation. No other memory and no
    array object has changed. With in_place=True the result has lost the geotransform and projection. *)
Theorem C84_weights : forall (E : env) (s : state (F E) (V E)) dem o h w l nd ndv wt ow wh ww lw m e c args ip d nd',
  raster s dem o h w l nd -> contiguous o = true -> runs m e c args -> cvt E Float64 (PInt (-1)) = Ok ndv ->
  object s wt = Some ow -> o_dtype ow = Float64 -> 0 < wh -> 0 < ww -> shows s wt wh ww lw -> length (o_strides ow) = 2%nat -> contiguous ow = true -> o_block ow <> o_block o ->
  eng E (String.append "FA_" c) args [mkAval (o_dtype o) w h nd l; mkAval Float64 ww wh ndv lw] = EOk d nd' -> length d = length lw ->
  exists r s' o', PyModel.FlowAccumulation dem m e (Some wt) ip s = Ret r s' /\ object s r = None /\ object s' r = Some o' /\
    shows s' r wh ww d /\ shows s' wt wh ww d /\ o_block o' = o_block ow /\
    (forall r' x, object s r' = Some x -> object s' r' = Some x) /\
    (forall b i v, ~ cell_of ow wh ww b i -> mem_at s b i = Some v -> mem_at s' b i = Some v) /\
    (ip = false -> o_geo o' = o_geo o /\ o_proj o' = o_proj o) /\ (ip = true -> o_geo o' = GNone /\ o_proj o' = EmptyString).
Proof.
  intros E s dem o h w l nd ndv wt ow wh ww lw m e c args ip d nd' R C Rn Cv How Dw Hwh Hww Sw Stw Cw _ Eg L. pose proof R as [Ho [K [D [Hh [Hw [S [St [Sh Cn]]]]]]]].
  assert (SS : o_shape ow = [wh; ww]) by (destruct Sw as [o2 [Q1 [Q2 _]]]; congruence).
  rewrite (fa_unfold s dem o m e (Some wt) ip Ho K).
  destruct (make_accum_weights s dem o wt ow ip (o_shape o) Ho How Dw) as [oa [-> [A1 [A2 [A3 [A4 [A5 [A6 [A7 [A8 A9]]]]]]]]]].
  pose proof (view_raster s wt ow wh ww lw oa ndv How SS Stw Hwh Hww Sw A1 A2 A3 A4 A5 A6 A7 Cv) as Ra.
  assert (Ca : contiguous oa = true) by (unfold contiguous in *; rewrite A4, A5; exact Cw).
  set (s1 := mkState (s_mem s) (s_objs s ++ [oa])) in *.
  assert (R1 : raster s1 dem o h w l nd).
  { unfold s1. rewrite <- (app_nil_r (s_mem s)). apply raster_grow. exact R. }
  assert (N : length (s_objs s) <> dem) by (apply object_lt in Ho; lia).
  rewrite <- A6 in Eg.
  destruct (fa_tail_ok s1 dem o h w l nd _ oa wh ww lw ndv m e c args d nd' N R1 C Ra Ca Rn Eg L) as [s' [oa' [-> [Ob [Eo [Oth M]]]]]].
  assert (Ks : forall r' x, object s r' = Some x -> object s' r' = Some x).
  { intros r' x H. rewrite Oth by (apply object_lt in H; lia). unfold object, s1. cbn [s_objs]. apply object_app. exact H. }
  assert (Lw : Z.of_nat (length d) = wh * ww) by (destruct Sw as [? [_ [_ [Q _]]]]; rewrite L; exact Q).
  assert (Cells : forall y x, 0 <= y < wh -> 0 <= x < ww -> mem_at s' (o_block oa) (o_off oa + dot [y; x] (o_strides oa)) = ix d (y * ww + x)).
  { intros y x Hy Hx. rewrite M, <- elem_mem. apply (overwrite_shows s1 _ oa wh ww lw ndv d Ra Ca L y x Hy Hx). }
  exists (length (s_objs s)), s', oa'. split; [reflexivity|]. split; [unfold object; apply nth_error_None; lia|]. split; [exact Ob|]. split.
  { exists oa'. split; [exact Ob|]. split; [subst oa'; cbn; congruence|]. split; [exact Lw|]. intros y x Hy Hx. rewrite elem_mem. subst oa'. apply Cells; auto. }
  split.
  { exists ow. split; [apply Ks; exact How|]. split; [exact SS|]. split; [exact Lw|]. intros y x Hy Hx. rewrite elem_mem, <- A2, <- A3, <- A5. apply Cells; auto. }
  split; [subst oa'; exact A2|]. split; [exact Ks|]. split.
  { intros b i v Nc H. rewrite M, (overwrite_mem s1 _ oa wh ww lw ndv d b i Ra Ca L).
    destruct ((b =? o_block oa)%nat && (o_off oa <=? i) && (i <? o_off oa + wh * ww)) eqn:Q; [|exact H].
    exfalso. apply Nc. apply (cells_stretch ow wh ww b i Hwh Hww SS Stw Cw). rewrite !andb_true_iff in Q. destruct Q as [[Q1 Q2] Q3].
    apply Nat.eqb_eq in Q1. apply Z.leb_le in Q2. apply Z.ltb_lt in Q3. rewrite A2, A3 in *. split; [exact Q1|lia]. }
  subst oa'. cbn. split; [intros I; destruct (A8 I) as [? [? _]]; auto|intros I; destruct (A9 I) as [? [? _]]; auto].
Qed.
Print Assumptions C84_weights.

(** C84. "in_place=False leaves the weights alone" is false: they are lost whenever the accumulation differs from the weights. *)
Theorem C84_in_place_false_refuted : forall (E : env) (s : state (F E) (V E)) dem o h w l nd ndv wt ow wh ww lw m e c args d nd',
  raster s dem o h w l nd -> contiguous o = true -> runs m e c args -> cvt E Float64 (PInt (-1)) = Ok ndv ->
  object s wt = Some ow -> o_dtype ow = Float64 -> 0 < wh -> 0 < ww -> shows s wt wh ww lw -> length (o_strides ow) = 2%nat -> contiguous ow = true -> o_block ow <> o_block o ->
  eng E (String.append "FA_" c) args [mkAval (o_dtype o) w h nd l; mkAval Float64 ww wh ndv lw] = EOk d nd' -> length d = length lw -> d <> lw ->
  exists r s', PyModel.FlowAccumulation dem m e (Some wt) false s = Ret r s' /\ ~ shows s' wt wh ww lw /\ ~ fresh s s' r.
Proof.
  intros E s dem o h w l nd ndv wt ow wh ww lw m e c args d nd' R C Rn Cv How Dw Hwh Hww Sw Stw Cw B Eg L Nd.
  destruct (C84_weights E s dem o h w l nd ndv wt ow wh ww lw m e c args false d nd' R C Rn Cv How Dw Hwh Hww Sw Stw Cw B Eg L) as [r [s' [o' [Er [Nr [Or [S1 [S2 [Bl _]]]]]]]]].
  exists r, s'. split; [exact Er|]. split.
  - intros [o2 [Q1 [Q2 [Q3 Q4]]]]. destruct S2 as [o3 [T1 [T2 [T3 T4]]]]. assert (o3 = o2) by congruence. subst o3. apply Nd.
    apply nth_error_eq_ext. intros i. destruct (Nat.lt_ge_cases i (length lw)) as [H|H].
    + specialize (Q4 (Z.of_nat i / ww) (Z.of_nat i mod ww)). specialize (T4 (Z.of_nat i / ww) (Z.of_nat i mod ww)).
      pose proof (Z.mod_pos_bound (Z.of_nat i) ww Hww) as M. pose proof (Z.div_mod (Z.of_nat i) ww ltac:(lia)) as DM.
      assert (Hy : 0 <= Z.of_nat i / ww < wh) by (split; [apply Z.div_pos; lia|apply Z.div_lt_upper_bound; lia]).
      rewrite T4 in Q4 by auto. specialize (Q4 Hy M). replace (Z.of_nat i / ww * ww + Z.of_nat i mod ww) with (Z.of_nat i) in Q4 by lia.
      rewrite !ix_nth in Q4 by lia. rewrite Nat2Z.id in Q4. exact Q4.
    + rewrite (proj2 (nth_error_None _ _)) by lia. symmetry. apply nth_error_None. lia.
  - intros [_ [o2 [Q1 Q2]]]. assert (o2 = o') by congruence. subst o2. rewrite Bl in Q2. destruct Sw as [o3 [T1 [T2 [T3 T4]]]]. assert (o3 = ow) by congruence. subst o3.
    specialize (T4 0 0 ltac:(lia) ltac:(lia)). rewrite elem_mem in T4. unfold mem_at in T4. rewrite Q2 in T4. rewrite ix_nth in T4 by lia. cbn in T4. destruct lw; [cbn [length] in T3; lia|discriminate].
Qed.
Print Assumptions C84_in_place_false_refuted.

(** C84. Weights of any other type are refused, and nothing that existed has changed. *)
Theorem C84_weights_type : forall (E : env) (s : state (F E) (V E)) dem o wt ow m e ip,
  object s dem = Some o -> o_kind o = KRd -> object s wt = Some ow -> o_dtype ow <> Float64 ->
  exists s', PyModel.FlowAccumulation dem m e (Some wt) ip s = Exn s' /\ keeps s s' /\ s_mem s' = s_mem s.
Proof.
  intros E s dem o wt ow m e ip Ho K Hw D. rewrite (fa_unfold s dem o m e (Some wt) ip Ho K).
  assert (De : dtype_eqb (o_dtype ow) Float64 = false) by (destruct (o_dtype ow); try reflexivity; congruence).
  unfold make_accum, rd_new, seq, getobj, newobj, ret. unfold object in Ho, Hw. destruct ip; rewrite Hw; [|rewrite Ho];
    cbn [s_objs fst snd]; (rewrite nth_error_app2 by lia); rewrite Nat.sub_diag; cbn [nth_error o_dtype]; rewrite De; cbn [negb]; unfold raise;
    (eexists; split; [reflexivity|]; split; [|reflexivity]; split; [intros r x H; unfold object; cbn [s_objs]; apply object_app; exact H|intros b i v H; exact H]).
Qed.
Print Assumptions C84_weights_type.

(** C84. With the C++ functions behind it (exact arithmetic): FlowAccumulation(dem, method) for D8 and Quinn returns, in a new array, an accumulation
    that balances at every data cell; NoData cells hold -1. *)
Theorem C84_end_to_end : forall maxe order (s : state (F (flow_env maxe order)) (V (flow_env maxe order))) dem o h w l nd m ip,
  (forall w h, Permutation (order w h) (cells w h)) -> raster s dem o h w l nd -> contiguous o = true -> (forall v, In v l -> (v <= maxe)%Qc) ->
  In m ["D8"; "OCallaghanD8"; "Quinn"]%string ->
  exists r s' d P, PyModel.FlowAccumulation dem m None None ip s = Ret r s' /\ keeps s s' /\ fresh s s' r /\ shows s' r h w d /\
    computed (qgrid_of w l) nd w h (order w h) P /\
    (forall x y, in_raster w h x y -> qgrid_of w l x y <> nd -> balanced w h P NO_DATA_GEN (fun _ => 1%Qc) (fun i => nth (Z.to_nat i) d 0%Qc) (x, y)) /\
    (forall x y, in_raster w h x y -> qgrid_of w l x y = nd -> qgrid_of w d x y = Q2Qc (-1)).
Proof.
  intros maxe order s dem o h w l nd m ip Ho R C Mx Im. pose proof R as [Hob [K [D [Hh [Hw [S [St [Sh Cn]]]]]]]].
  assert (L : Z.of_nat (length l) = h * w) by (destruct Sh as [? [_ [_ [L2 _]]]]; exact L2).
  assert (Mx' : forall x y, in_raster w h x y -> (qgrid_of w l x y <= maxe)%Qc).
  { intros x y [Ix Iy]. apply Mx. unfold qgrid_of. apply nth_In. apply Nat2Z.inj_lt. refine (Z.lt_le_trans _ (h * w) _ _ _); [rewrite Z2Nat.id by nia; nia|]. rewrite <- L. apply Z.le_refl. }
  assert (exists c P, runs (F := Qc) m None c [] /\ metric_of (String.append "FA_" c) (qgrid_of w l) nd w h maxe (order w h) = Some (Ok P) /\ computed (qgrid_of w l) nd w h (order w h) P) as [c [P [Rn [EP CP]]]].
  { destruct (C21_OCallaghan (qgrid_of w l) nd w h maxe (order w h) (Ho w h) Mx') as [P1 [E1 _]].
    destruct (C21_Quinn (qgrid_of w l) nd w h (order w h) (Ho w h)) as [P2 [E2 _]].
    cbn [In] in Im. destruct Im as [<-|[<-|[<-|[]]]].
    - exists "D8"%string, P1. split; [exists false; split; [unfold metrics; cbn [In]; tauto|reflexivity]|]. split; [cbn; rewrite E1; reflexivity|]. eapply by_OCallaghan; eauto.
    - exists "OCallaghanD8"%string, P1. split; [exists false; split; [unfold metrics; cbn [In]; tauto|reflexivity]|]. split; [cbn; rewrite E1; reflexivity|]. eapply by_OCallaghan; eauto.
    - exists "Quinn"%string, P2. split; [exists false; split; [unfold metrics; cbn [In]; tauto|reflexivity]|]. split; [cbn; rewrite E2; reflexivity|]. apply by_Quinn; auto. }
  destruct (C20_metric_then_accumulation (qgrid_of w l) nd w h (order w h) P
    (fun i => nth (Z.to_nat i) (repeat (Q2Qc (inject_Z 1)) (Z.to_nat (h * w))) 0%Qc) ltac:(lia) ltac:(lia) (Ho w h) CP) as [A [EA [B [Nd _]]]].
  set (d := map A (zrange 0 (Z.to_nat (h * w)))).
  assert (Ld : Z.of_nat (length d) = h * w) by (unfold d; rewrite map_length, zrange_length; lia).
  assert (Ee : eng (flow_env maxe order) (String.append "FA_" c) [] [mkAval (o_dtype o) w h nd l; mkAval Float64 w h (Q2Qc (inject_Z (-1))) (repeat (Q2Qc (inject_Z 1)) (Z.to_nat (h * w)))] = EOk d ACCUM_NO_DATA).
  { cbn [eng flow_env]. unfold eng_flow. cbn [v_w v_h v_nd v_data]. rewrite EP, EA. reflexivity. }
  destruct (C84_no_weights (flow_env maxe order) s dem o h w l nd _ m None c [] ip d ACCUM_NO_DATA R C Rn eq_refl Ee Ld) as [r [s' [o' [Q1 [Q2 [Q3 [Q4 _]]]]]]].
  assert (Dn : forall c, in_raster w h (fst c) (snd c) -> nth (Z.to_nat (at_ w c)) d 0%Qc = A (at_ w c)).
  { intros [x y] [Ix Iy]. unfold at_. cbn [fst snd] in *. unfold d. erewrite nth_error_nth; [reflexivity|].
    rewrite nth_error_map, nth_zrange by nia. cbn [option_map]. f_equal. f_equal. rewrite Z2Nat.id by nia. lia. }
  exists r, s', d, P. split; [exact Q1|]. split; [exact Q2|]. split; [exact Q3|]. split; [exact Q4|]. split; [exact CP|]. split.
  - intros x y I Hn. destruct (B x y I Hn) as [donors [N1 [N2 N3]]]. exists donors. split; [exact N1|]. split; [exact N2|].
    pose proof (Dn (x, y) I) as Dxy. cbv beta. change (V (flow_env maxe order)) with Qc in *. rewrite Dxy, N3. f_equal.
    + unfold at_. cbn [fst snd]. destruct I as [Ix Iy]. rewrite (nth_indep _ _ (Q2Qc (inject_Z 1))) by (rewrite repeat_length; nia). rewrite nth_repeat. reflexivity.
    + f_equal. apply map_ext_in. intros [c0 n0] Hin. cbn [fst snd]. rewrite Dn; [reflexivity|]. apply N2 in Hin. destruct Hin as [[Hr _] _]. exact Hr.
  - intros x y I Hn. exact (eq_trans (Dn (x, y) I) (Nd x y I Hn)).
Qed.
Print Assumptions C84_end_to_end.

(** Examples: the DEM of C20's example; ones as weights, with in_place=False: the weights are overwritten. *)
Definition dlist : list Z := [9;9;9;9;9; 9;7;6;8;9; 9;5;4;-1;9; 9;6;3;2;1; 9;9;9;9;9].
Definition ef : env := flow_env big (fun w h => rev (cells w h)).
Definition qz (z : Z) : Qc := Q2Qc (inject_Z z).
Definition sf : state (F ef) (V ef) :=
  mkState [map qz dlist; repeat (qz 1) 25]
    [mkObj KRd 0 0 [5; 5] [5; 1] Float32 (Some (PInt (-1))) (GTuple [0;1;0;0;0;-1]) "p" ["loaded"%string];
     mkObj KNumpy 1 0 [5; 5] [5; 1] Float64 None GNone EmptyString []].
Example C84_hypotheses : exists o ow, raster (E := ef) sf 0 o 5 5 (map qz dlist) (qz (-1)) /\ contiguous (E := ef) o = true /\ object (E := ef) sf 1 = Some ow /\
  shows (E := ef) sf 1 5 5 (repeat (qz 1) 25) /\ contiguous (E := ef) ow = true /\ o_block ow <> o_block o.
Proof.
  eexists _, _. split; [split; [reflexivity|]|split; [reflexivity|split; [reflexivity|split; [|split; [reflexivity|discriminate]]]]].
  - split; [reflexivity|]. split; [discriminate|]. split; [lia|]. split; [lia|]. split; [reflexivity|]. split; [reflexivity|]. split; [|reflexivity].
    eexists. split; [reflexivity|]. split; [reflexivity|]. split; [reflexivity|]. intros y x Hy Hx.
    assert (Cy : y = 0 \/ y = 1 \/ y = 2 \/ y = 3 \/ y = 4) by lia. assert (Cx : x = 0 \/ x = 1 \/ x = 2 \/ x = 3 \/ x = 4) by lia.
    destruct Cy as [->|[->|[->|[->| ->]]]]; destruct Cx as [->|[->|[->|[->| ->]]]]; reflexivity.
  - eexists. split; [reflexivity|]. split; [reflexivity|]. split; [reflexivity|]. intros y x Hy Hx.
    assert (Cy : y = 0 \/ y = 1 \/ y = 2 \/ y = 3 \/ y = 4) by lia. assert (Cx : x = 0 \/ x = 1 \/ x = 2 \/ x = 3 \/ x = 4) by lia.
    destruct Cy as [->|[->|[->|[->| ->]]]]; destruct Cx as [->|[->|[->|[->| ->]]]]; reflexivity.
Qed.
Example C84_weights_lost : match PyModel.FlowAccumulation (E := ef) 0 "D8" None (Some 1%nat) false sf with
  | Ret r s => (r, map (fun b => map this b) (s_mem s)) | _ => (0%nat, []) end =
  (2%nat, [map inject_Z dlist; [1;1;1;1;1; 1;1;1;1;1; 1;1;4;-1;1; 1;1;3;8;9; 1;1;1;1;1]%Q]).
Proof. vm_compute. reflexivity. Qed.
