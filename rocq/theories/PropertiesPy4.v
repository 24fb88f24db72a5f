(** C87: methods and attributes by name, geotransforms, and the command line programs. *)
From Coq Require Import ZArith List Lia Bool String.
From Verif Require Import Base Res PyModel PySpec PyProofs PyProofs2 PyProofs4 PyProofs5 PyIntModel PropertiesPy PropertiesPy2 PropertiesPy3.
Open Scope Z_scope.
Open Scope list_scope.

(** dispatch of a method that does not run *)
Lemma no_dispatch {E : env} t te dem m e (ow : warr) (s : state (F E) (V E)) :
  (t = facc_methods /\ te = facc_methods_exponent \/ t = fprop_methods /\ te = fprop_methods_exponent) ->
  (forall c args, ~ runs m e c args) -> dispatch t te dem m e ow s = Exn s.
Proof.
  intros T N. assert (D : (exists c b, In (m, (c, b)) metrics) \/ forall c b, ~ In (m, (c, b)) metrics).
  { clear.
    destruct (existsb (fun p => String.eqb m (fst p)) metrics) eqn:X.
    - left. apply existsb_exists in X. destruct X as [[k [c b]] [I Q]]. apply String.eqb_eq in Q. cbn [fst] in Q. subst k. exists c, b. exact I.
    - right. intros c b I. assert (Y : existsb (fun p => String.eqb m (fst p)) metrics = true); [|congruence]. apply existsb_exists. exists (m, (c, b)). split; [exact I|]. apply String.eqb_refl. }
  destruct D as [[c [b I]]|D].
  - destruct (lookup_methods m c b I) as [L1 L2]. destruct b.
    + destruct (L2 eq_refl) as [A1 [A2 [A3 A4]]]. unfold dispatch. destruct T as [[-> ->]|[-> ->]]; rewrite ?A1, ?A2, ?A3, ?A4; (destruct e as [x|]; [exfalso; apply (N c [x]); exists true; split; [exact I|eauto]|reflexivity]).
    + exfalso. apply (N c []). exists false. split; [exact I|reflexivity].
  - destruct (lookup_none m D) as [A1 [A2 [A3 A4]]]. unfold dispatch. destruct T as [[-> ->]|[-> ->]]; rewrite ?A1, ?A2, ?A3, ?A4; reflexivity.
Qed.

(** C87. A method that is not one of the thirteen documented names, or one that needs an exponent without one: FlowAccumulation (with or without weights) and FlowProportions
    raise, and no array that existed has changed. (Every documented name runs the same metric in both: C84_no_weights and C84_flow_proportions.) *)
Theorem C87_unknown_method : forall (E : env) (s : state (F E) (V E)) dem o m e, object s dem = Some o -> o_kind o = KRd -> (forall c args, ~ runs m e c args) ->
  (forall ndv wt ip, cvt E Float64 (PInt (-1)) = Ok ndv -> (forall wt', wt = Some wt' -> exists ow, object s wt' = Some ow) ->
     exists s', PyModel.FlowAccumulation dem m e wt ip s = Exn s' /\ keeps s s') /\
  (forall ndv h w, cvt E Float32 (PInt (-2)) = Ok ndv -> o_shape o = [h; w] -> 0 < h -> 0 < w -> exists s', FlowProportions dem m e s = Exn s' /\ keeps s s').
Proof.
  intros E s dem o m e Ho K N. split.
  - intros ndv wt ip Cv Hwt.
    assert (T : forall (s1 : state (F E) (V E)) a oa, keeps s s1 -> object s a = None -> object s1 a = Some oa -> o_kind oa = KRd -> o_dtype oa = Float64 -> o_nodata oa = Some (PInt (-1)) ->
      exists s', fa_tail dem a m e s1 = Exn s' /\ keeps s s').
    { intros s1 a oa [K1 K2] Na Oa Ka Da Nda. unfold fa_tail, seq at 1.
      destruct (wrap a s1) as [wr s2|s2|] eqn:W.
      - assert (s2 = s1). { unfold wrap, seq at 1, getobj in W. unfold object in Oa. rewrite Oa, Ka, Da in W. cbn [dtype_eqb] in W. unfold construct, seq, getobj in W. rewrite Oa, Nda in W.
          destruct (negb _) in W; [discriminate|]. unfold ret in W. rewrite Cv in W. inversion W. reflexivity. } subst s2.
        unfold seq at 1. rewrite (add_analysis s1 a oa _ Oa) by congruence. unfold seq at 1. rewrite no_dispatch by auto. eexists. split; [reflexivity|]. split.
        + intros r x H. unfold object. cbn [s_objs]. rewrite upd_other by congruence. apply K1. exact H.
        + intros b i v H. apply (K2 b i v H).
      - assert (s2 = s1). { unfold wrap, seq at 1, getobj in W. unfold object in Oa. rewrite Oa, Ka, Da in W. cbn [dtype_eqb] in W. unfold construct, seq, getobj in W. rewrite Oa, Nda in W.
          destruct (negb _) in W; [unfold raise in W; inversion W; reflexivity|]. unfold ret in W. rewrite Cv in W. discriminate. } subst s2. eexists. split; [reflexivity|]. split; assumption.
      - exfalso. unfold wrap, seq at 1, getobj in W. unfold object in Oa. rewrite Oa, Ka, Da in W. cbn [dtype_eqb] in W. unfold construct, seq, getobj in W. rewrite Oa, Nda in W.
          destruct (negb _) in W; [discriminate|]. unfold ret in W. rewrite Cv in W. discriminate. }
    rewrite (fa_unfold s dem o m e wt ip Ho K). destruct wt as [wt|].
    + destruct (Hwt wt eq_refl) as [ow How]. destruct (dtype_eqb (o_dtype ow) Float64) eqn:De.
      * assert (Dw : o_dtype ow = Float64) by (destruct (o_dtype ow); try discriminate; reflexivity).
        destruct (make_accum_weights s dem o wt ow ip (o_shape o) Ho How Dw) as [oa [-> [A1 [A2 [A3 [A4 [A5 [A6 [A7 _]]]]]]]]].
        apply (T _ _ oa); auto.
        -- split; [intros r x H; unfold object; cbn [s_objs]; apply object_app; exact H|intros b i v H; exact H].
        -- unfold object. apply nth_error_None. lia.
        -- unfold object. cbn [s_objs]. rewrite nth_error_app2 by lia. rewrite Nat.sub_diag. reflexivity.
      * assert (Dw : o_dtype ow <> Float64) by (intros X; rewrite X in De; discriminate).
        destruct (C84_weights_type E s dem o wt ow m e ip Ho K How Dw) as [s' [Q1 [Q2 _]]]. rewrite (fa_unfold s dem o m e (Some wt) ip Ho K) in Q1. exists s'. split; assumption.
    + rewrite (make_accum_none s dem o ip Ho). destruct (full_new s o Float64 1 (PInt (-1))) as [K1 [K2 [Na Nb]]].
      apply (T _ _ (full_obj s o Float64 (PInt (-1)))); auto; [split; assumption|].
      unfold object, full_state. cbn [s_objs]. rewrite nth_error_app2 by lia. replace (S (length (s_objs s)) - length (s_objs s))%nat with 1%nat by lia. reflexivity.
  - intros ndv h w Cv Sh Hh Hw. rewrite (fp_unfold s dem o h w m e Ho K Sh). unfold fp_tail, seq at 1. rewrite (fp_wrap s o h w ndv Hh Hw Cv).
    assert (Kp : keeps s (fp_state s o h w)).
    { split; [intros r x H; unfold object, fp_state; cbn [s_objs]; apply object_app; exact H|intros b i v H; apply (mem_app s b i v _ H)]. }
    destruct (geo_ok (o_geo o)); [|eexists; split; [reflexivity|exact Kp]].
    unfold seq at 1. rewrite (add_analysis _ _ _ _ (fp_object s o h w)) by discriminate. unfold seq at 1. rewrite no_dispatch by auto. eexists. split; [reflexivity|].
    destruct Kp as [K1 K2]. split; [|exact K2]. intros r x H. unfold object. cbn [s_objs]. rewrite upd_other; [apply K1; exact H|]. apply object_lt in H. lia.
Qed.
Print Assumptions C87_unknown_method.

(** C87. An attribute name that is not documented: TerrainAttribute raises before it does anything. *)
Theorem C87_unknown_attribute : forall (E : env) (s : state (F E) (V E)) dem o at' z, object s dem = Some o -> ~ In at' attributes -> TerrainAttribute dem at' z s = Exn s.
Proof.
  intros E s dem o at' z Ho N. unfold TerrainAttribute, seq at 1, getobj. unfold object in Ho. rewrite Ho. destruct (negb (is_rd o)); [reflexivity|].
  assert (L : lookup at' terrain_attribs = None).
  { unfold terrain_attribs. cbn [lookup]. repeat match goal with |- context [String.eqb at' ?k] =>
      destruct (String.eqb_spec at' k) as [->|?]; [exfalso; apply N; unfold attributes; cbn [In]; repeat (first [left; reflexivity|right])|] end. reflexivity. }
  rewrite L. reflexivity.
Qed.
Print Assumptions C87_unknown_attribute.

(** C87. Names printed by the help text of the command line program that are not methods. *)
Theorem C87_help_refuted : forall F (e : option (num F)) c args, ~ runs "FairfieldLeymarie" e c args /\ ~ runs "OCallaghan" e c args.
Proof.
  intros F e c args. split; intros [b [I _]]; unfold metrics in I; cbn [In] in I; repeat (destruct I as [I|I]; [discriminate I|]); exact I.
Qed.
Print Assumptions C87_help_refuted.

(** C87. FlowProportions raises for every DEM whose geotransform is a numpy array with more than one element, whatever the method; nothing has changed. *)
Theorem C87_array_geotransform : forall (E : env) (s : state (F E) (V E)) dem o h w g ndv m e, object s dem = Some o -> o_kind o = KRd -> o_shape o = [h; w] -> 0 < h -> 0 < w ->
  cvt E Float32 (PInt (-2)) = Ok ndv -> o_geo o = GArray g -> (1 < length g)%nat ->
  exists s', FlowProportions dem m e s = Exn s' /\ keeps s s'.
Proof.
  intros E s dem o h w g ndv m e Ho K Sh Hh Hw Cv G L. rewrite (fp_unfold s dem o h w m e Ho K Sh). unfold fp_tail, seq at 1. rewrite (fp_wrap s o h w ndv Hh Hw Cv).
  assert (X : geo_ok (o_geo o) = false) by (rewrite G; unfold geo_ok; rewrite (proj2 (Nat.ltb_lt _ _) L); reflexivity). rewrite X. eexists. split; [reflexivity|].
  split; [intros r x H; unfold object, fp_state; cbn [s_objs]; apply object_app; exact H|intros b i v H; apply (mem_app s b i v _ H)].
Qed.
Print Assumptions C87_array_geotransform.

(** C87. "FlowProportions works on generated terrain" is false: it raises on every array generate_perlin_terrain returns. *)
Theorem C87_perlin_refuted : forall (E : env) (s : state (F E) (V E)) n seed nda ndv d nd' m e, 0 < n ->
  cvt E Float64 (PInt (-9999)) = Ok nda -> cvt E Float32 (PInt (-2)) = Ok ndv ->
  eng E "generate_perlin_terrain" [seed] [mkAval Float64 n n nda (repeat (lit E Float64 0) (Z.to_nat (n * n)))] = EOk d nd' -> Z.of_nat (length d) = n * n ->
  exists r s1 s2, generate_perlin_terrain n seed s = Ret r s1 /\ keeps s s1 /\ fresh s s1 r /\ shows s1 r n n d /\ FlowProportions r m e s1 = Exn s2 /\ keeps s1 s2.
Proof.
  intros E s n seed nda ndv d nd' m e Hn Cv Cv2 Eg L.
  set (a := S (length (s_objs s))). set (blk := repeat (lit E Float64 0) (Z.to_nat (n * n))).
  set (oa := mkObj KRd (length (s_mem s)) 0 [n; n] [n; 1] Float64 (Some (PInt (F := F E) (-9999))) STANDARD_GEOTRANSFORM EmptyString []).
  set (s1 := mkState (s_mem s ++ [blk]) (s_objs s ++ [mkObj KNumpy (length (s_mem s)) 0 [n; n] [n; 1] Float64 None GNone EmptyString []; oa])).
  assert (Oa : object s1 a = Some oa).
  { unfold object, s1, a. cbn [s_objs]. rewrite nth_error_app2 by lia. replace (S (length (s_objs s)) - length (s_objs s))%nat with 1%nat by lia. reflexivity. }
  assert (CC : c_contiguous [n; n] [n; 1] = true) by (apply contig_iff; lia).
  assert (Ra : raster s1 a oa n n blk nda).
  { split; [exact Oa|]. split; [reflexivity|]. split; [discriminate|]. split; [exact Hn|]. split; [exact Hn|]. split; [reflexivity|]. split; [reflexivity|]. split; [|exact Cv].
    exists oa. split; [exact Oa|]. split; [reflexivity|]. split; [unfold blk; rewrite repeat_length; lia|]. intros y x Hy Hx. rewrite elem_mem. unfold mem_at, s1. cbn [s_mem oa o_block o_off o_strides].
    rewrite nth_error_app2 by lia. rewrite Nat.sub_diag. cbn [nth_error]. rewrite (contig2 n n n 1 y x Hn Hn CC Hy Hx). reflexivity. }
  assert (Ld : length d = length blk) by (unfold blk; rewrite repeat_length; lia).
  set (s2 := overwrite s1 oa n n d).
  assert (O2 : object s2 a = Some oa) by (unfold object, s2; rewrite overwrite_objs; exact Oa).
  set (o3 := final oa "GeneratePerlinTerrain" (back E Float64 nd')).
  set (s3 := mkState (s_mem s2) (upd_nth a o3 (upd_nth a (with_hist oa "GeneratePerlinTerrain") (s_objs s2)))).
  assert (Er : generate_perlin_terrain n seed s = Ret a s3).
  { unfold generate_perlin_terrain, seq at 1. rewrite npfull_ok. unfold prodZ, c_strides. cbn [fold_right]. unfold prodZ. cbn [fold_right]. rewrite !Z.mul_1_r. unfold seq at 1. unfold rd_new at 1, seq at 1, getobj. cbn [s_objs].
    rewrite nth_error_app2 by lia. rewrite Nat.sub_diag. cbn [nth_error]. unfold seq at 1, ret at 1. cbn [fst snd o_block o_off o_shape o_strides o_dtype]. unfold newobj at 1. cbn [s_objs s_mem].
    rewrite app_length. cbn [length]. rewrite Nat.add_1_r. fold a. rewrite <- app_assoc. cbn [app].
    unfold seq at 1. cbn [s_objs]. rewrite nth_error_app2 by (unfold a; lia). replace (a - length (s_objs s))%nat with 1%nat by (unfold a; lia). cbn [nth_error].
    unfold seq at 1, setobj at 1. cbn [s_mem s_objs o_kind o_block o_off o_shape o_strides o_dtype o_nodata o_proj o_hist]. fold oa.
    assert (Eu : forall u v : obj (F E), upd_nth a oa (s_objs s ++ [u; v]) = s_objs s ++ [u; oa]).
    { intros u v. apply nth_error_eq_ext. intros i. destruct (Nat.eq_dec i a) as [->|Ni].
      - rewrite upd_same by (rewrite app_length; unfold a; cbn; lia). rewrite nth_error_app2 by (unfold a; lia). replace (a - length (s_objs s))%nat with 1%nat by (unfold a; lia). reflexivity.
      - rewrite upd_other by congruence. destruct (Nat.lt_ge_cases i (length (s_objs s))) as [H|H]; [rewrite !nth_error_app1 by lia; reflexivity|]. rewrite !nth_error_app2 by lia.
        destruct (i - length (s_objs s))%nat as [|[|k]] eqn:Q; [reflexivity|unfold a in Ni; lia|destruct k; reflexivity]. }
    rewrite Eu. fold blk. fold s1. unfold seq at 1. rewrite (wrap_raster s1 a oa n n blk nda Ra). replace (contiguous oa) with true by (symmetry; exact CC).
    unfold seq at 1. rewrite (call_ok s1 a oa n n blk nda _ [seed] [] [] d nd' Ra CC eq_refl Eg Ld). fold s2.
    unfold seq at 1. rewrite (add_analysis s2 a oa _ O2) by discriminate. unfold seq at 1.
    rewrite (copy_from _ a (with_hist oa "GeneratePerlinTerrain")) by (unfold object; cbn [s_objs]; apply upd_same; eapply object_lt; exact O2). reflexivity. }
  assert (O3 : object s3 a = Some o3).
  { unfold object, s3. cbn [s_objs]. apply upd_same. rewrite upd_nth_length. eapply object_lt; exact O2. }
  destruct (new_result s s1 s3 a oa n n blk nda d) with (oa' := o3) as [P1 [P2 P3]]; auto.
  - intros r x H. unfold object, s1. cbn [s_objs]. apply object_app. exact H.
  - intros b i v H. apply (mem_app s b i v _ H).
  - unfold object. apply nth_error_None. unfold a. lia.
  - apply nth_error_None. cbn. lia.
  - intros r Nr. unfold object, s3. cbn [s_objs]. rewrite !upd_other by congruence. unfold s2. rewrite overwrite_objs. reflexivity.
  - destruct (C87_array_geotransform E s3 a o3 n n [0; 1; 0; 0; 0; -1] ndv m e O3 eq_refl eq_refl Hn Hn Cv2 eq_refl ltac:(cbn; lia)) as [s4 [Q1 Q2]].
    exists a, s3, s4. auto 10.
Qed.
Print Assumptions C87_perlin_refuted.

(** C87. rd_depression_filling (the Python program): the array saved is the filled one. *)
Theorem C87_cli_filling : forall (E : env) (s : state (F E) (V E)) dem o h w l nd d nd' argv gr,
  raster s dem o h w l nd -> contiguous o = true -> eng E (fill_function gr D8) [] [mkAval (o_dtype o) w h nd l] = EOk d nd' -> length d = length l ->
  exists s', cli_DepressionFilling dem argv gr s = Ret dem s' /\ shows s' dem h w d.
Proof.
  intros E s dem o h w l nd d nd' argv gr R C Eg L. pose proof R as [Ho [K _]]. unfold cli_DepressionFilling, seq at 1. rewrite (add_analysis s dem o argv Ho) by congruence.
  set (s1 := mkState (s_mem s) (upd_nth dem (with_hist o argv) (s_objs s))).
  assert (R1 : raster s1 dem (with_hist o argv) h w l nd) by (apply (raster_upd s dem o); auto).
  destruct (C83_in_place E s1 (Fill gr D8) dem (with_hist o argv) h w l nd d nd' R1 C Eg L) as [s' [Q1 [Q2 _]]].
  cbn [run topology_name] in Q1. unfold seq at 1. rewrite Q1. exists s'. split; [reflexivity|exact Q2].
Qed.
Print Assumptions C87_cli_filling.

(** C87. "rd_breach_depressions (the Python program) saves the breached DEM" is false: whatever the C++ function computes, the array saved holds the elevations that were loaded. *)
Theorem C87_cli_breaching_refuted : forall (E : env) (s : state (F E) (V E)) dem o h w l nd d nd' argv,
  raster s dem o h w l nd -> eng E (breach_function D8) [] [mkAval (o_dtype o) w h nd l] = EOk d nd' -> length d = length l ->
  exists s', cli_BreachDepressions dem argv s = Ret dem s' /\ shows s' dem h w l.
Proof.
  intros E s dem o h w l nd d nd' argv R Eg L. pose proof R as [Ho [K _]]. unfold cli_BreachDepressions, seq at 1. rewrite (add_analysis s dem o argv Ho) by congruence.
  set (s1 := mkState (s_mem s) (upd_nth dem (with_hist o argv) (s_objs s))).
  assert (R1 : raster s1 dem (with_hist o argv) h w l nd) by (apply (raster_upd s dem o); auto).
  destruct (C83_not_in_place E s1 (Breach D8) dem (with_hist o argv) h w l nd d nd' R1 Eg L) as [r [s' [o' [Q1 [_ [_ [_ [Q2 _]]]]]]]].
  cbn [run topology_name] in Q1. unfold seq at 1. rewrite Q1. exists s'. split; [reflexivity|exact Q2].
Qed.
Print Assumptions C87_cli_breaching_refuted.

(** C87. The other two programs save the new array. *)
Theorem C87_cli_results : forall (E : env) (s : state (F E) (V E)) dem o h w l nd argv, raster s dem o h w l nd -> contiguous o = true ->
  (forall m e c args ndv d nd', runs m e c args -> cvt E Float64 (PInt (-1)) = Ok ndv ->
     eng E (String.append "FA_" c) args [mkAval (o_dtype o) w h nd l; mkAval Float64 w h ndv (repeat (lit E Float64 1) (Z.to_nat (h * w)))] = EOk d nd' -> Z.of_nat (length d) = h * w ->
     exists r s', cli_FlowAccumulation dem argv m e s = Ret r s' /\ shows s' r h w d) /\
  (forall at' z ndv d nd', In at' attributes -> cvt E Float32 (PInt (-9999)) = Ok ndv ->
     eng E (String.append "TA_" at') [z] [mkAval (o_dtype o) w h nd l; mkAval Float32 w h ndv (repeat (lit E Float32 0) (Z.to_nat (h * w)))] = EOk d nd' -> Z.of_nat (length d) = h * w ->
     exists r s', cli_TerrainAttribute dem argv at' z s = Ret r s' /\ shows s' r h w d).
Proof.
  intros E s dem o h w l nd argv R C. pose proof R as [Ho [K _]].
  set (s1 := mkState (s_mem s) (upd_nth dem (with_hist o argv) (s_objs s))).
  assert (R1 : raster s1 dem (with_hist o argv) h w l nd) by (apply (raster_upd s dem o); auto). split.
  - intros m e c args ndv d nd' Rn Cv Eg L. unfold cli_FlowAccumulation, seq at 1. rewrite (add_analysis s dem o argv Ho) by congruence. fold s1.
    destruct (C84_no_weights E s1 dem (with_hist o argv) h w l nd ndv m e c args false d nd' R1 C Rn Cv Eg L) as [r [s' [o' [Q1 [_ [_ [Q2 _]]]]]]]. exists r, s'. auto.
  - intros at' z ndv d nd' I Cv Eg L. unfold cli_TerrainAttribute, seq at 1. rewrite (add_analysis s dem o argv Ho) by congruence. fold s1.
    destruct (C84_terrain_attribute E s1 dem (with_hist o argv) h w l nd ndv at' z d nd' R1 C I Cv Eg L) as [r [s' [o' [Q1 [_ [_ [Q2 _]]]]]]]. exists r, s'. auto.
Qed.
Print Assumptions C87_cli_results.

(** A DEM with a pit given to the program (D8 model behind it): the pit is removed in the copy that is thrown away; the file gets the pit. *)
Definition st1 : state (F e0) (V e0) := mkState [[9;9;9;9;1;9;9;7;5]] [mkObj KRd 0 0 [3; 3] [3; 1] Int16 (Some (PInt (-1))) GNone EmptyString []].
Example C87_breach_run : match cli_BreachDepressions (E := e0) 0 "argv" st1 with Ret r s => (r, s_mem s) | _ => (9%nat, []) end =
  (0%nat, [[9;9;9;9;1;9;9;7;5]; [9;9;9;9;5;9;9;7;5]]).
Proof. vm_compute. reflexivity. Qed.
