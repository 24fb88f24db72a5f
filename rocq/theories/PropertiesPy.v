(** C83-C85: the Python package - in place or not, weights, and memory. *)
From Coq Require Import ZArith List Lia Bool String.
From Verif Require Import Base Res RasterSpec BreachSpec PyModel PySpec PyProofs PyProofs2 PyProofs3 PyIntModel ZhouModel BreachModel PropertiesTrace PropertiesBreach.
Open Scope Z_scope.
Open Scope list_scope.

Lemma run_checks {E : env} op dem ip (s : state (F E) (V E)) o : object s dem = Some o -> o_kind o = KRd ->
  exists a, run op dem ip s = in_place_or_copy dem ip a (cpp_function op) s.
Proof.
  intros Ho K. unfold object in Ho. destruct op as [eps t|t|]; cbn [run cpp_function]; unfold PyModel.FillDepressions, BreachDepressions, ResolveFlats, seq at 1, getobj;
    rewrite Ho; unfold is_rd; rewrite K; cbn [negb]; [destruct eps, t|destruct t|destruct ip]; cbn [topology_name]; eexists; reflexivity.
Qed.

(** C83. in_place=False, for any layout of the array in memory, whatever the C++ function [cpp_function op] computes: a new
    array with the result is returned, in memory of its own; every array that existed is exactly as it was; type, geotransform and
    projection are those of the input, and the history is the input's with one more line. *)
Theorem C83_not_in_place : forall (E : env) (s : state (F E) (V E)) op dem o h w l nd d nd',
  raster s dem o h w l nd -> eng E (cpp_function op) [] [mkAval (o_dtype o) w h nd l] = EOk d nd' -> length d = length l ->
  exists r s' o', run op dem false s = Ret (Some r) s' /\ keeps s s' /\ fresh s s' r /\ shows s' r h w d /\ shows s' dem h w l /\
    object s' r = Some o' /\ o_dtype o' = o_dtype o /\ o_geo o' = o_geo o /\ o_proj o' = o_proj o /\ (exists line, o_hist o' = o_hist o ++ [line]) /\
    o_nodata o' = Some (back E (o_dtype o) nd').
Proof.
  intros E s op dem o h w l nd d nd' R Eg L. pose proof R as R0. destruct R0 as [Ho [K [D [Hh [Hw [S [St [Sh C]]]]]]]].
  destruct (run_checks op dem false s o Ho K) as [a ->]. rewrite ip_false.
  destruct (pycopy_ok s dem o h w l nd R) as [o1 [s1 [-> [Es [Eo [R1 C1]]]]]].
  assert (Eg1 : eng E (cpp_function op) [] [mkAval (o_dtype o1) w h nd l] = EOk d nd') by (subst o1; exact Eg).
  destruct (body_ok s1 _ o1 h w l nd a (cpp_function op) d nd' R1 C1 Eg1 L) as [s' [-> [Ob [Oth [_ M]]]]].
  set (r := length (s_objs s)) in *.
  assert (K1 : forall r0 o0, object s r0 = Some o0 -> object s' r0 = Some o0).
  { intros r0 o0 H. rewrite Oth by (apply object_lt in H; lia). subst s1. unfold object. cbn [s_objs]. apply object_app. exact H. }
  assert (K2 : forall b i v, mem_at s b i = Some v -> mem_at s' b i = Some v).
  { intros b i v H. rewrite M, (overwrite_mem s1 r o1 h w l nd d b i R1 C1 L).
    assert (b <> o_block o1). { subst o1. cbn [o_block]. unfold mem_at in H. destruct (nth_error (s_mem s) b) eqn:Eb; [|discriminate].
      apply nth_some_lt in Eb. lia. }
    rewrite (proj2 (Nat.eqb_neq _ _) H0). cbn [andb]. subst s1. apply mem_app. exact H. }
  exists r, s', (final o1 a (back E (o_dtype o1) nd')). split; [reflexivity|]. split; [split; assumption|]. split.
  { split; [unfold object; apply nth_error_None; unfold r; lia|]. eexists. split; [exact Ob|]. subst o1. cbn [final with_nd with_hist o_block]. apply nth_error_None. lia. }
  split.
  { eexists. split; [exact Ob|]. subst o1. cbn [final with_nd with_hist o_shape]. split; [exact S|]. split.
    - destruct Sh as [? [_ [_ [L2 _]]]]. rewrite L. exact L2.
    - intros y x Hy Hx. rewrite <- (overwrite_shows s1 r _ h w l nd d R1 C1 L y x Hy Hx). rewrite !elem_mem. apply M. }
  split.
  { exists o. split; [apply K1; exact Ho|]. split; [exact S|]. destruct Sh as [o2 [Ho2 [_ [L2 G]]]]. assert (o2 = o) by congruence. subst o2.
    split; [exact L2|]. intros y x Hy Hx. rewrite <- G by auto. assert (W : exists v, ix l (y * w + x) = Some v) by (apply ix_some_iff; nia).
    destruct W as [v W]. rewrite G, W by auto. rewrite elem_mem. apply K2. rewrite <- elem_mem, G by auto. exact W. }
  split; [exact Ob|]. subst o1. cbn. repeat (split; [reflexivity|]). split; [eexists; reflexivity|reflexivity].
Qed.
Print Assumptions C83_not_in_place.

(** C83. in_place=True on a C-contiguous array: nothing is returned; the array itself holds the result - the same as the one
    in_place=False returns; no memory outside the cells of this array and no other array object changes. *)
Theorem C83_in_place : forall (E : env) (s : state (F E) (V E)) op dem o h w l nd d nd',
  raster s dem o h w l nd -> contiguous o = true -> eng E (cpp_function op) [] [mkAval (o_dtype o) w h nd l] = EOk d nd' -> length d = length l ->
  exists s', run op dem true s = Ret None s' /\ shows s' dem h w d /\ only_touches s s' dem o h w /\
    (exists o' line, object s' dem = Some o' /\ o_hist o' = o_hist o ++ [line] /\ o_nodata o' = Some (back E (o_dtype o) nd')).
Proof.
  intros E s op dem o h w l nd d nd' R C1 Eg L. pose proof R as R0. destruct R0 as [Ho [K [D [Hh [Hw [S [St [Sh C]]]]]]]].
  destruct (run_checks op dem true s o Ho K) as [a ->]. rewrite ip_true.
  destruct (body_ok s dem o h w l nd a (cpp_function op) d nd' R C1 Eg L) as [s' [-> [Ob [Oth [_ M]]]]].
  exists s'. split; [reflexivity|]. split.
  { eexists. split; [exact Ob|]. cbn [final with_nd with_hist o_shape]. split; [exact S|]. split.
    - destruct Sh as [? [_ [_ [L2 _]]]]. rewrite L. exact L2.
    - intros y x Hy Hx. rewrite <- (overwrite_shows s dem _ h w l nd d R C1 L y x Hy Hx). rewrite !elem_mem. apply M. }
  split.
  { split; [intros r' o' N H; rewrite Oth by auto; exact H|]. split; [eexists; split; [exact Ob|]; cbn; auto 10|].
    intros b i v N H. rewrite M, (overwrite_mem s dem o h w l nd d b i R C1 L).
    destruct ((b =? o_block o)%nat && (o_off o <=? i) && (i <? o_off o + h * w)) eqn:Q; [|exact H].
    exfalso. apply N. apply cells_stretch; auto. rewrite !andb_true_iff in Q. destruct Q as [[Q1 Q2] Q3].
    apply Nat.eqb_eq in Q1. apply Z.leb_le in Q2. apply Z.ltb_lt in Q3. split; [exact Q1|lia]. }
  eexists _, _. split; [exact Ob|]. split; reflexivity.
Qed.
Print Assumptions C83_in_place.

(** C83. Wrong arguments. A plain numpy array or an unknown topology: an exception, and nothing has changed. An unsupported
    type or a number of dimensions other than two: an exception, and no data has changed; with in_place=False no existing array
    object has changed either. *)
Theorem C83_rejected : forall (E : env) (s : state (F E) (V E)) dem o,
  object s dem = Some o ->
  (o_kind o <> KRd -> forall op ip, run op dem ip s = Exn s) /\
  (forall top eps ip, top <> "D8"%string -> top <> "D4"%string -> PyModel.FillDepressions dem eps ip top s = Exn s /\ BreachDepressions dem ip top s = Exn s) /\
  (o_kind o = KRd -> o_dtype o = Other \/ length (o_shape o) <> 2%nat -> forall op, exists s', run op dem true s = Exn s' /\ s_mem s' = s_mem s) /\
  (o_kind o = KRd -> o_dtype o = Other \/ length (o_shape o) <> 2%nat -> Forall (fun idx => elem s o idx <> None) (indices (o_shape o)) ->
     forall op, exists s', run op dem false s = Exn s' /\ keeps s s').
Proof.
  intros E s dem o Ho.
  assert (W : forall (s : state (F E) (V E)) r o, object s r = Some o -> o_kind o = KRd -> o_dtype o = Other \/ length (o_shape o) <> 2%nat -> wrap r s = Exn s).
  { clear. intros s r o Ho K H. unfold wrap, seq, getobj. unfold object in Ho. rewrite Ho, K. destruct (dtype_eqb (o_dtype o) Other) eqn:De; [reflexivity|].
    destruct H as [H|H]; [rewrite H in De; discriminate|]. unfold construct, seq, getobj. rewrite Ho. rewrite (proj2 (Nat.eqb_neq _ _) H). reflexivity. }
  assert (B : forall (s : state (F E) (V E)) r o a f, object s r = Some o -> o_kind o = KRd -> o_dtype o = Other \/ length (o_shape o) <> 2%nat ->
    body r a f s = Exn (mkState (s_mem s) (upd_nth r (with_hist o a) (s_objs s)))).
  { intros s0 r o0 a f H K Q. unfold body, seq. rewrite (add_analysis s0 r o0 a H) by congruence. rewrite (W _ r (with_hist o0 a)); auto.
    unfold object. cbn [s_objs]. apply upd_same. eapply object_lt; eauto. }
  split; [|split; [|split]].
  - intros K op ip. unfold object in Ho. destruct op as [eps t|t|]; cbn [run]; unfold PyModel.FillDepressions, BreachDepressions, ResolveFlats, seq at 1, getobj;
      rewrite Ho; unfold is_rd; destruct (o_kind o); try congruence; reflexivity.
  - intros top eps ip N8 N4. unfold object in Ho.
    assert (X : str_in top ["D8"; "D4"]%string = false).
    { unfold str_in. cbn [existsb]. apply String.eqb_neq in N8, N4. rewrite N8, N4. reflexivity. }
    split; [unfold PyModel.FillDepressions|unfold BreachDepressions]; unfold seq at 1, getobj; rewrite Ho, X; destruct (is_rd o); reflexivity.
  - intros K H op. destruct (run_checks op dem true s o Ho K) as [a ->]. rewrite ip_true, (B s dem o a _ Ho K H). eexists. split; reflexivity.
  - intros K H FA op. destruct (run_checks op dem false s o Ho K) as [a ->]. rewrite ip_false.
    assert (exists b, allSome (map (elem s o) (indices (o_shape o))) = Some b) as [b Eb].
    { clear - FA. induction FA as [|i l H F [b IH]]; [exists []; reflexivity|]. cbn [map allSome fold_right]. unfold allSome in IH. rewrite IH.
      destruct (elem s o i); [eexists; reflexivity|congruence]. }
    unfold pycopy at 1, seq at 1, getobj. unfold object in Ho. rewrite Ho, Eb. unfold seq, alloc, newobj. cbn [s_mem s_objs].
    match goal with |- context [s_objs s ++ [?q]] => set (o1 := q) end.
    rewrite (B _ (length (s_objs s)) o1 a (cpp_function op)); [|unfold object; cbn [s_objs]; rewrite nth_error_app2 by lia; rewrite Nat.sub_diag; reflexivity|exact K|exact H].
    eexists. split; [reflexivity|]. cbn [s_mem s_objs]. split.
    + intros r o0 Hr. unfold object. cbn [s_objs]. rewrite upd_other by (apply object_lt in Hr; lia). apply object_app. exact Hr.
    + intros b0 i v Hm. apply (mem_app s b0 i v [b] Hm).
Qed.
Print Assumptions C83_rejected.

(** C83. If the C++ function throws, in_place=False has left every existing array as it was. *)
Theorem C83_exception_in_cpp : forall (E : env) (s : state (F E) (V E)) op dem o h w l nd d,
  raster s dem o h w l nd -> eng E (cpp_function op) [] [mkAval (o_dtype o) w h nd l] = EThrow d -> length d = length l ->
  exists s', run op dem false s = Exn s' /\ keeps s s'.
Proof.
  intros E s op dem o h w l nd d R Eg L. pose proof R as R0. destruct R0 as [Ho [K [D [Hh [Hw [S [St [Sh C]]]]]]]].
  destruct (run_checks op dem false s o Ho K) as [a ->]. rewrite ip_false.
  destruct (pycopy_ok s dem o h w l nd R) as [o1 [s1 [-> [Es [Eo [R1 C1]]]]]].
  set (r := length (s_objs s)) in *. assert (O1 : object s1 r = Some o1) by apply R1. assert (K1 : o_kind o1 = KRd) by (subst o1; exact K).
  unfold body, seq. rewrite (add_analysis s1 r o1 a O1) by congruence. set (s2 := mkState (s_mem s1) (upd_nth r (with_hist o1 a) (s_objs s1))).
  assert (R2 : raster s2 r (with_hist o1 a) h w l nd) by (apply (raster_upd s1 r o1); auto).
  rewrite (wrap_raster s2 r _ _ _ _ _ R2). assert (C2 : contiguous (with_hist o1 a) = true) by exact C1. rewrite C2.
  destruct (raster_region _ _ _ _ _ _ _ R2 C2) as [blk [B1 [B2 [B3 [B4 B5]]]]]. unfold call, seq. cbn [app loads]. unfold seq at 1.
  replace (1 * w * h) with (h * w) by ring. rewrite (load_region s2 _ _ _ _ _ _ _ blk l B1 B2 B3 B4). unfold seq at 1, ret at 1 2.
  replace (eng E (cpp_function op) [] _) with (EThrow d) by (symmetry; subst o1; exact Eg).
  rewrite (store_region _ _ _ _ _ _ _ _ blk) by exact B1. unfold raise. eexists. split; [reflexivity|]. split.
  - intros r0 o0 H. unfold object. unfold s2. cbn [s_objs]. rewrite upd_other by (apply object_lt in H; unfold r; lia). subst s1. cbn [s_objs]. apply object_app. exact H.
  - intros b i v H. rewrite mem_after by (auto; lia). assert (N : b <> o_block (with_hist o1 a)).
    { subst o1. cbn [o_block with_hist]. unfold mem_at in H. destruct (nth_error (s_mem s) b) eqn:Eb; [|discriminate]. apply nth_some_lt in Eb. lia. }
    rewrite (proj2 (Nat.eqb_neq _ _) N). cbn [andb]. unfold s2. subst s1. apply (mem_app s b i v [l] H).
Qed.
Print Assumptions C83_exception_in_cpp.

(** C83. With the C++ functions behind it, for integer arrays: FillDepressions(dem) returns an array whose cells are at the lowest
    level at which water drains off the raster; BreachDepressions(dem) returns an array from whose data cells water runs off. *)
Theorem C83_end_to_end : forall tb (s : state (F (int_env tb)) (V (int_env tb))) dem o h w l nd t, raster s dem o h w l nd ->
  (exists r s' d, PyModel.FillDepressions dem false false (topology_name t) s = Ret (Some r) s' /\ keeps s s' /\ fresh s s' r /\ shows s' r h w d /\
     forall x y, in_raster w h x y -> drainage_level t w h (grid_of w l) x y (grid_of w d x y)) /\
  ((forall v, In v l -> v <= dmax (o_dtype o)) ->
   exists r s' d, PyModel.BreachDepressions dem false (topology_name t) s = Ret (Some r) s' /\ keeps s s' /\ fresh s s' r /\ shows s' r h w d /\
     forall x y, is_data w h nd (grid_of w l) x y -> exists D, (forall x' y', in_raster w h x' y' -> D x' y' = grid_of w d x' y') /\ runs_off t w h nd (grid_of w l) D x y).
Proof.
  intros tb s dem o h w l nd t R. pose proof R as R0. destruct R0 as [Ho [K [D [Hh [Hw [S [St [Sh C]]]]]]]].
  assert (L : Z.of_nat (length l) = h * w) by (destruct Sh as [? [_ [_ [L2 _]]]]; exact L2).
  split.
  - destruct (C47_fill_depressions tb tb t w h (grid_of w l) Hw Hh) as [g [g' [Eg [_ G]]]].
    assert (Ee : eng (int_env tb) (cpp_function (Fill false t)) [] [mkAval (o_dtype o) w h nd l] = EOk (list_of w h g) nd).
    { change (eng_int tb (fill_function false t) [] [mkAval (o_dtype o) w h nd l] = EOk (list_of w h g) nd).
      unfold eng_int. cbn [v_w v_h v_nd v_data v_dtype]. destruct t; cbn [fill_function]; cbn [String.eqb Ascii.eqb Bool.eqb]; rewrite Eg; reflexivity. }
    assert (Ll : length (list_of w h g) = length l) by (apply Nat2Z.inj; rewrite (list_of_length w h g Hw Hh); symmetry; exact L).
    destruct (C83_not_in_place (int_env tb) s (Fill false t) dem o h w l nd (list_of w h g) nd R Ee Ll) as [r [s' [o' [E1 [E2 [E3 [E4 _]]]]]]].
    exists r, s', (list_of w h g). split; [exact E1|]. split; [exact E2|]. split; [exact E3|]. split; [exact E4|].
    intros x y I. destruct I as [Ix Iy]. rewrite (grid_list w h g x y) by lia. apply G. split; assumption.
  - intros Mx. assert (Mx' : forall x y, is_data w h nd (grid_of w l) x y -> grid_of w l x y <= dmax (o_dtype o)).
    { intros x y [[Ix Iy] _]. apply Mx. unfold grid_of. apply nth_In. apply Nat2Z.inj_lt. refine (Z.lt_le_trans _ (h * w) _ _ _); [rewrite Z2Nat.id by nia; nia|]. rewrite <- L. apply Z.le_refl. }
    destruct (C49_complete_breaching tb t w h nd (dmax (o_dtype o)) (grid_of w l) Mx') as [g [F0 [Eg [G _]]]].
    assert (Ee : eng (int_env tb) (cpp_function (Breach t)) [] [mkAval (o_dtype o) w h nd l] = EOk (list_of w h g) nd).
    { change (eng_int tb (breach_function t) [] [mkAval (o_dtype o) w h nd l] = EOk (list_of w h g) nd).
      unfold eng_int. cbn [v_w v_h v_nd v_data v_dtype]. destruct t; cbn [breach_function]; cbn [String.eqb Ascii.eqb Bool.eqb]; rewrite Eg; reflexivity. }
    assert (Ll : length (list_of w h g) = length l) by (apply Nat2Z.inj; rewrite (list_of_length w h g Hw Hh); symmetry; exact L).
    destruct (C83_not_in_place (int_env tb) s (Breach t) dem o h w l nd (list_of w h g) nd R Ee Ll) as [r [s' [o' [E1 [E2 [E3 [E4 _]]]]]]].
    exists r, s', (list_of w h g). split; [exact E1|]. split; [exact E2|]. split; [exact E3|]. split; [exact E4|].
    intros x y I. exists g. split; [|apply G; exact I]. intros x' y' [Ix Iy]. symmetry. apply (grid_list w h g x' y'); lia.
Qed.
Print Assumptions C83_end_to_end.

(** A view of every second column of a wider array, with a pit; FillDepressions fills a copy and leaves the view alone. *)
Definition e0 : env := int_env (fun n => n).
Definition blk0 : list Z := [9;0;9;0;9;0;  9;0;1;0;9;0;  9;0;7;0;5;0].
Definition view0 : obj Empty_set := mkObj KRd 0 0 [3; 3] [6; 2] Int16 (Some (PInt (-1))) GNone EmptyString [].
Definition st0 : state (F e0) (V e0) := mkState [blk0] [view0].
Example C83_raster0 : raster (E := e0) st0 0 view0 3 3 [9;9;9;9;1;9;9;7;5] (-1).
Proof.
  split; [reflexivity|]. split; [reflexivity|]. split; [discriminate|]. split; [lia|]. split; [lia|]. split; [reflexivity|]. split; [reflexivity|].
  split; [|reflexivity]. exists view0. split; [reflexivity|]. split; [reflexivity|]. split; [reflexivity|].
  intros y x Hy Hx. assert (Cy : y = 0 \/ y = 1 \/ y = 2) by lia. assert (Cx : x = 0 \/ x = 1 \/ x = 2) by lia.
  destruct Cy as [->|[->| ->]]; destruct Cx as [->|[->| ->]]; reflexivity.
Qed.
Example C83_run : match PyModel.FillDepressions (E := e0) 0 false false "D8" st0 with
  | Ret (Some r) s => (r, s_mem s, map (@o_hist Empty_set) (s_objs s)) | _ => (0%nat, [], []) end =
  (1%nat, [blk0; [9;9;9;9;5;9;9;7;5]], [[]; ["FillDepressions(dem, epsilon=False)"%string]]).
Proof. vm_compute. reflexivity. Qed.
