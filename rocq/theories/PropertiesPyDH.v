(** C89: the depression hierarchy and fill-spill-merge from Python. *)
From Coq Require Import ZArith List Lia Bool String Permutation QArith Qcanon.
From Verif Require Import Base Res RasterSpec FlatsSpec DHModel DHSpec DHAll DHPlain PropertiesDH QcTac FSMModel FSMSpec PropertiesFSM PyModel PyIntModel PySpec PyProofs PyProofs2 PyProofs3 PyProofs4 PyProofs5 PyDHModel PyDHProofs.
Open Scope Z_scope.
Open Scope list_scope.

(** C89. New labels: a new uint32 array with memory of its own; OCEAN on the edge of the raster, NO_DEP everywhere else. Nothing that
    existed has changed. *)
Theorem C89_new_labels : forall (E : env) (s : state (F E) (V E)) h w n geo nd, 0 < h -> 0 < w -> cvt E Uint32 n = Ok nd ->
  exists r s' o l, get_new_depression_hierarchy_labels [h; w] n geo s = Ret r s' /\ keeps s s' /\ fresh s s' r /\ raster s' r o h w l nd /\ contiguous o = true /\
    o_dtype o = Uint32 /\ o_nodata o = Some n /\ o_geo o = match geo with Some g => g | None => STANDARD_GEOTRANSFORM end /\
    forall x y, in_raster w h x y ->
      (on_edge w h x y -> ix l (y * w + x) = Some (lit E Uint32 0)) /\ (~ on_edge w h x y -> ix l (y * w + x) = Some (lit E Uint32 (2 ^ 32 - 1))).
Proof.
  intros E s h w n geo nd Hh Hw C. rewrite (labels_run s h w n geo Hh Hw). set (g := match geo with Some g => g | None => STANDARD_GEOTRANSFORM end).
  destruct (labels_raster s h w n g nd Hh Hw C) as [l [R [Cn G]]]. destruct (labels_new s h w n g) as [K1 [K2 [K3 K4]]].
  exists (S (length (s_objs s))), (labels_state s h w n g), (labels_obj s h w n g), l. split; [reflexivity|]. split; [split; assumption|].
  split; [split; [exact K3|]; exists (labels_obj s h w n g); split; [apply R|exact K4]|]. split; [exact R|]. split; [exact Cn|]. repeat (split; [reflexivity|]).
  intros x y [Hx Hy]. rewrite G by lia. unfold inner. cbn [nth].
  destruct (Z.leb_spec 1 y), (Z.ltb_spec y (h - 1)), (Z.leb_spec 1 x), (Z.ltb_spec x (w - 1)); cbn [andb]; split; intros Q; try reflexivity; exfalso;
    first [destruct Q as [_ Q]; lia|apply Q; split; [split; assumption|lia]].
Qed.
Print Assumptions C89_new_labels.

(** C89. The hierarchy of a float64 elevation model with uint32 labels, both C-contiguous: whatever the C++ function computes from the two arrays and an array of zeros; the
    labels are written in place, the directions are in a new array. Nothing else changes, also if it raises. *)
Theorem C89_hierarchy_call : forall (E : env) (H : Type) (gdh : aval (V E) -> aval (V E) -> aval (V E) -> gout H (V E)) (s : state (F E) (V E)) dem o h w l nd lab ol hl wl ll ndl ndf,
  raster s dem o h w l nd -> contiguous o = true -> o_dtype o = Float64 -> raster s lab ol hl wl ll ndl -> contiguous ol = true -> o_dtype ol = Uint32 ->
  cvt E Int8 (PInt (-9999)) = Ok ndf ->
  let effect l' f s' := (forall r x, object s r = Some x -> object s' r = Some x) /\
    (forall b i v, ~ cell_of ol hl wl b i -> mem_at s b i = Some v -> mem_at s' b i = Some v) /\ shows s' lab hl wl l' in
  match gdh (mkAval Float64 w h nd l) (mkAval Uint32 wl hl ndl ll) (mkAval Int8 w h ndf (repeat (lit E Int8 0) (Z.to_nat (h * w)))) with
  | GOk dh l' f => length l' = length ll -> Z.of_nat (length f) = h * w ->
      exists r s', get_depression_hierarchy gdh dem lab s = Ret (dh, r) s' /\ effect l' f s' /\ fresh s s' r /\ shows s' r h w f
  | GThrow l' f => length l' = length ll -> Z.of_nat (length f) = h * w -> exists s', get_depression_hierarchy gdh dem lab s = Exn s' /\ effect l' f s'
  | GUndef => get_depression_hierarchy gdh dem lab s = Undefd
  end.
Proof.
  intros E H gdh s dem o h w l nd lab ol hl wl ll ndl ndf R C D Rl Cl Dl Cv effect.
  rewrite (gdh_loads gdh s dem o h w l nd lab ol hl wl ll ndl ndf R C D Rl Cl Dl Cv). pose proof R as [_ [_ [_ [Hh [Hw _]]]]].
  destruct (gdh _ _ _) as [dh l' f|l' f|]; [| |reflexivity]; intros L1 L2.
  - destruct (gdh_effect s lab ol hl wl ll ndl h w ndf l' f _ Rl Cl Hh Hw Cv L1 L2 eq_refl) as [K1 [K2 [K3 [K4 [K5 _]]]]].
    do 2 eexists. split; [reflexivity|]. split; [split; [exact K1|split; [exact K2|apply K3]]|]. split; [exact K4|apply K5].
  - destruct (gdh_effect s lab ol hl wl ll ndl h w ndf l' f _ Rl Cl Hh Hw Cv L1 L2 eq_refl) as [K1 [K2 [K3 _]]].
    eexists. split; [reflexivity|]. split; [exact K1|split; [exact K2|apply K3]].
Qed.
Print Assumptions C89_hierarchy_call.

(** C89. Other element types raise and leave every array as it was; arrays that are not C-contiguous are undefined behaviour. *)
Theorem C89_types : forall (E : env) (H : Type) (gdh : aval (V E) -> aval (V E) -> aval (V E) -> gout H (V E)) (s : state (F E) (V E)) dem o h w l nd lab ol hl wl ll ndl ndf,
  raster s dem o h w l nd -> raster s lab ol hl wl ll ndl -> cvt E Int8 (PInt (-9999)) = Ok ndf ->
  (o_dtype o <> Float64 \/ o_dtype ol <> Uint32 -> exists s', get_depression_hierarchy gdh dem lab s = Exn s' /\ keeps s s') /\
  (o_dtype o = Float64 -> o_dtype ol = Uint32 -> contiguous o = false \/ contiguous ol = false -> get_depression_hierarchy gdh dem lab s = Undefd).
Proof.
  intros E H gdh s dem o h w l nd lab ol hl wl ll ndl ndf R Rl Cv. split.
  - intros T. eexists. split; [eapply gdh_types; eauto|]. split.
    + intros r x Hr. unfold fd_state, object, full_state. cbn [s_objs]. apply object_app. exact Hr.
    + intros b i v M. apply mem_app. exact M.
  - intros D Dl C. eapply gdh_ub; eauto.
Qed.
Print Assumptions C89_types.

(** C89. fill_spill_merge writes the water table in place, and nothing else. The hierarchy the caller passed is not modified, whatever the
    C++ function does to its copy. *)
Theorem C89_merge_call : forall (E : env) (H : Type) (fsm : aval (V E) -> aval (V E) -> aval (V E) -> H -> aval (V E) -> fout H (V E)) (s : state (F E) (V E))
    dem o h w l nd lab ol hl wl ll ndl fd od hd wd ld ndd dh wt ow hw ww lw ndw dh' d,
  raster s dem o h w l nd -> contiguous o = true -> o_dtype o = Float64 -> raster s lab ol hl wl ll ndl -> contiguous ol = true -> o_dtype ol = Uint32 ->
  raster s fd od hd wd ld ndd -> contiguous od = true -> o_dtype od = Int8 -> raster s wt ow hw ww lw ndw -> contiguous ow = true -> o_dtype ow = Float64 ->
  fsm (mkAval Float64 w h nd l) (mkAval Uint32 wl hl ndl ll) (mkAval Int8 wd hd ndd ld) dh (mkAval Float64 ww hw ndw lw) = FOk dh' d -> length d = length lw ->
  exists s', fill_spill_merge fsm dem lab fd dh wt s = Ret dh s' /\ (forall r x, object s r = Some x -> object s' r = Some x) /\
    (forall b i v, ~ cell_of ow hw ww b i -> mem_at s b i = Some v -> mem_at s' b i = Some v) /\ shows s' wt hw ww d.
Proof.
  intros E H fsm s dem o h w l nd lab ol hl wl ll ndl fd od hd wd ld ndd dh wt ow hw ww lw ndw dh' d R C D Rl Cl Dl Rf Cf Df Rw Cw Dw Q L.
  rewrite (fsm_loads fsm s dem o h w l nd lab ol hl wl ll ndl fd od hd wd ld ndd dh wt ow hw ww lw ndw) by assumption. rewrite Q.
  eexists. split; [reflexivity|]. split; [|split].
  - intros r x Hr. unfold object. rewrite overwrite_objs. exact Hr.
  - intros b i v Nc M. rewrite (overwrite_mem _ _ _ _ _ _ _ d b i Rw Cw L). pose proof Rw as [_ [_ [_ [Hh [Hw [S [St _]]]]]]].
    destruct ((b =? o_block ow)%nat && (o_off ow <=? i) && (i <? o_off ow + hw * ww)) eqn:X; [|exact M]. exfalso. apply Nc. apply (cells_stretch ow hw ww b i Hh Hw S St Cw).
    rewrite !andb_true_iff in X. destruct X as [[X1 X2] X3]. apply Nat.eqb_eq in X1. split; [exact X1|lia].
  - apply (raster_overwritten s wt ow hw ww lw ndw d Rw Cw L).
Qed.
Print Assumptions C89_merge_call.

(** ** the conversions between lists and grids *)
Lemma zgrid_zlist w h g : agree w h (zgrid w (zlist w h g)) g.
Proof.
  intros [x y] [Hx Hy]. unfold elev_at, zgrid, zlist. cbn [fst snd] in *. rewrite map_map. rewrite (map_ext _ (fun z => z)) by reflexivity. rewrite map_id. apply grid_list; assumption.
Qed.
Lemma zlist_length w h g : 0 < w -> 0 < h -> Z.of_nat (length (zlist w h g)) = h * w.
Proof. intros. unfold zlist. rewrite map_length. apply list_of_length; auto. Qed.
Lemma qlist_length w h f : 0 < w -> 0 < h -> Z.of_nat (length (qlist w h f)) = h * w.
Proof. intros. unfold qlist. destruct (list_of_gen (fun x y => DQ (f (x, y))) (Z.to_nat w) (Z.to_nat h) 0) as [L _]. rewrite L. lia. Qed.
Lemma qcells_qlist w h f c : inside w h c -> qcells w (qlist w h f) c = f c.
Proof.
  destruct c as [x y]. intros [Hx Hy]. cbn [fst snd] in *. unfold qcells, qlist. cbn [fst snd].
  destruct (list_of_gen (fun x y => DQ (f (x, y))) (Z.to_nat w) (Z.to_nat h) 0) as [_ G].
  specialize (G (Z.to_nat y) (Z.to_nat x) ltac:(lia) ltac:(lia)). replace (Z.to_nat (y * w + x)) with (Z.to_nat y * Z.to_nat w + Z.to_nat x)%nat by nia.
  erewrite nth_error_nth by exact G. cbn [qval]. f_equal. f_equal; lia.
Qed.
Lemma zgrid_ix w h (l : list dval) (g : grid Z) : (forall y x, 0 <= y < h -> 0 <= x < w -> ix l (y * w + x) = Some (DZ (g x y))) -> agree w h (zgrid w l) g.
Proof.
  intros G [x y] [Hx Hy]. cbn [fst snd] in *. specialize (G y x Hy Hx). unfold elev_at, zgrid, grid_of. cbn [fst snd]. rewrite ix_nth in G by nia.
  etransitivity; [exact (map_nth zval l (DZ 0) (Z.to_nat (y * w + x)))|]. erewrite nth_error_nth by exact G. reflexivity.
Qed.
Lemma settled_agree w h dem lab0 lab deps wtd wtd' wtd2 wv' : (forall c, inside w h c -> wtd2 c = wtd' c) ->
  water_settled w h dem lab0 lab deps wtd wtd' wv' -> water_settled w h dem lab0 lab deps wtd wtd2 wv'.
Proof.
  intros A [[R1 R2] SEA ESC LV PL KP BAL].
  assert (Q : forall d l, listing (fun c => inside w h c /\ DHSpec.region lab deps d c) l -> qsum (map wtd2 l) = qsum (map wtd' l)).
  { intros d l [_ IN]. f_equal. apply map_ext_in. intros c Hc. apply A. apply IN in Hc. tauto. }
  constructor; auto.
  - split; [intros c I; rewrite A by auto; auto|]. intros p q Ip Iq N. rewrite !A by auto. auto.
  - intros c O. rewrite A by apply O. auto.
  - intros p L I. rewrite A by auto. auto.
  - intros d r q l Ed Nd Eq Nq T LI. rewrite (Q d l LI). eauto.
  - intros d r v q l Ed Nd Ev Eq Lt LI. rewrite (Q d l LI). eauto.
  - destruct BAL as [sea [B1 [B2 B3]]]. exists sea. split; [exact B1|]. split; [exact B2|]. 
    assert (X : surface_total w h wtd2 = surface_total w h wtd').
    { unfold surface_total. f_equal. apply map_ext_in. intros c Hc. apply A. apply FlatsProofs.cells_inside in Hc. exact Hc. }
    rewrite X. exact B3.
Qed.

(** what the C++ functions do with arrays that came from Python *)
Lemma gdh_run_ok ch w h dem lab0 nd ndl ndf l0 :
  0 < w -> 0 < h -> 3 <= w /\ 3 <= h -> w * h < 2 ^ 31 -> (forall db, sorting_of db (c_sorted ch db)) -> each_cell_once w h (c_parts ch) ->
  agree w h (zgrid w lab0) (sea_around w h) -> agree w h (zgrid w l0) (fun _ _ => 0) ->
  exists lab fd deps pits, GetDepressionHierarchy D8 w h (zgrid w dem) most_recent_first (c_sorted ch) (c_parts ch) (zgrid w lab0) (zgrid w l0) = Some (Ok (lab, fd, deps)) /\
    gdh_run ch (@mkAval (V dh_env) Float64 w h nd dem) (@mkAval (V dh_env) Uint32 w h ndl lab0) (@mkAval (V dh_env) Int8 w h ndf l0) =
      GOk (deps, repeat 0%Qc (length deps)) (zlist w h lab) (zlist w h fd) /\
    watersheds D8 w h (zgrid w dem) (sea_around w h) (fun _ _ => 0) (zgrid w (zlist w h lab)) (zgrid w (zlist w h fd)) pits /\
    well_formed (Z.of_nat (length pits) + 1) deps /\
    (forall order tbs wv0 wtd, Permutation order (cells w h) -> length wv0 = length deps -> (forall c, inside w h c -> (0 <= wtd c)%Qc) -> wtd corner = 0%Qc ->
       exists wtd' wv', FillSpillMerge w h (zgrid w dem) (zgrid w (zlist w h lab)) (zgrid w (zlist w h fd)) deps order tbs wv0 wtd = Some (Ok (wtd', wv')) /\
         water_settled w h (zgrid w dem) (sea_around w h) (zgrid w (zlist w h lab)) deps wtd wtd' wv').
Proof.
  intros Hw Hh H3 Hs HS HP AL AF.
  assert (V1 : valid_labels w h (zgrid w lab0)) by (eapply valid_agree; [exact AL|apply sea_valid]).
  assert (V2 : has_coast D8 w h (zgrid w lab0)) by (eapply coast_agree; [exact AL|apply sea_coast; auto]).
  destruct (gdh_ok D8 w h (zgrid w dem) (zgrid w lab0) (zgrid w l0) most_recent_first (c_sorted ch) (c_parts ch) V1 Hs V2 HS HP)
    as [lab [fd [deps [pits [E' [WS [WF [Hn [PITS [PASS [_ [VOLS HM]]]]]]]]]]]].
  pose proof (gdh_links D8 w h (zgrid w dem) (zgrid w lab0) (zgrid w l0) most_recent_first (c_sorted ch) (c_parts ch) V1 Hs V2 HS HP lab fd deps E') as LINKS.
  pose proof (gdh_positive D8 w h (zgrid w dem) (zgrid w lab0) (zgrid w l0) (c_sorted ch) (c_parts ch) V1 Hs V2 HS HP most_recent_first lab fd deps E'
    (gdh_plain D8 w h (zgrid w dem) (zgrid w lab0) (zgrid w l0) (c_sorted ch) (c_parts ch) V1 Hs V2 lab fd deps E')) as VPOS.
  pose proof (zgrid_zlist w h lab) as A1. pose proof (zgrid_zlist w h fd) as A2.
  set (lab2 := zgrid w (zlist w h lab)) in *. set (fd2 := zgrid w (zlist w h fd)) in *.
  assert (WS2 : watersheds D8 w h (zgrid w dem) (sea_around w h) (fun _ _ => 0) lab2 fd2 pits).
  { eapply watersheds_agree; [apply agree_sym; exact AL|apply agree_sym; exact AF|exact A1|exact A2|exact WS]. }
  exists lab, fd, deps, pits. split; [exact E'|]. split; [|split; [exact WS2|split; [exact WF|]]].
  - unfold gdh_run. cbn [v_w v_h v_data]. rewrite !Z.eqb_refl. cbn [andb]. rewrite E'. reflexivity.
  - intros order tbs wv0 wtd P HL SAT CZ.
    assert (RG : forall d p, inside w h p -> (DHSpec.region lab2 deps d p <-> DHSpec.region lab deps d p)).
    { intros d p I. unfold DHSpec.region. rewrite A1 by auto. reflexivity. }
    apply (fsm_core w h (zgrid w dem) (sea_around w h) lab2 fd2 pits deps order tbs wv0 wtd); auto.
    + intros d r Ed Nd. destruct (PASS d r Ed Nd) as [c [z [X1 [X2 [[p [q [Ip [Iq [Ap [Bq Q]]]]]] LOW]]]]]. exists c, z. split; [exact X1|]. split; [exact X2|]. split.
      * exists p, q. split; [exact Ip|]. split; [exact Iq|]. split; [apply RG; auto|]. split; [unfold outside in *; rewrite RG by auto; exact Bq|exact Q].
      * intros c' z' [p' [q' [Ip' [Iq' [Ap' [Bq' Q']]]]]]. apply (LOW c' z'). exists p', q'. split; [exact Ip'|]. split; [exact Iq'|]. split; [apply RG; auto|].
        split; [unfold outside in *; rewrite RG in Bq' by auto; exact Bq'|exact Q'].
    + intros d r Ed Nd. destruct (VOLS d r Ed Nd) as [z [l [X1 [[ND CU] X3]]]]. exists z, l. split; [exact X1|]. split; [|exact X3]. split; [exact ND|].
      intros c. rewrite CU. split; intros [I [RR X]]; (split; [exact I|split; [|exact X]]); apply RG; auto.
    + intros d r Ed Nd. destruct (LINKS d r Ed Nd) as [z [p [q [c [X1 [X2 [X3 [X4 [Ip [Iq [X5 [X6 [X7 [X8 X9]]]]]]]]]]]]]].
      exists z, p, q, c. rewrite !A1 by auto. auto 20.
Qed.
Lemma gdh_run_small ch w h dem lab0 nd ndl ndf l0 : 0 < w -> 0 < h -> ~ (3 <= w /\ 3 <= h) -> w * h < 2 ^ 31 -> (forall db, sorting_of db (c_sorted ch db)) -> each_cell_once w h (c_parts ch) ->
  agree w h (zgrid w lab0) (sea_around w h) ->
  gdh_run ch (@mkAval (V dh_env) Float64 w h nd dem) (@mkAval (V dh_env) Uint32 w h ndl lab0) (@mkAval (V dh_env) Int8 w h ndf l0) = GThrow lab0 l0.
Proof.
  intros Hw Hh N3 Hs HS HP AL. unfold gdh_run. cbn [v_w v_h v_data]. rewrite !Z.eqb_refl. cbn [andb].
  destruct (C42_rejects D8 w h (zgrid w dem) (zgrid w lab0) (zgrid w l0) most_recent_first (c_sorted ch) (c_parts ch) Hs HS HP) as [[_ X] _].
  rewrite X; [reflexivity|]. intros [_ V2]. apply N3. apply sea_coast; auto. eapply coast_agree; [apply agree_sym; exact AL|exact V2].
Qed.

(** The choices the C++ code leaves open (std::sort, OpenMP schedules, queues) are resolved in some legal way. *)
Definition legal (w h : Z) (ch : choices) : Prop :=
  (forall db, sorting_of db (c_sorted ch db)) /\ each_cell_once w h (c_parts ch) /\ Permutation (c_order ch) (cells w h).
Notation gdh0 ch := (gdh_run ch : aval (V dh_env) -> aval (V dh_env) -> aval (V dh_env) -> gout hier (V dh_env)).
Notation fsm0 ch := (fsm_run ch : aval (V dh_env) -> aval (V dh_env) -> aval (V dh_env) -> hier -> aval (V dh_env) -> fout hier (V dh_env)).

(** hierarchy_script, step by step *)
Lemma script_run (s : state (F dh_env) (V dh_env)) dem o h w l nd ch : raster s dem o h w l nd -> contiguous o = true -> o_dtype o = Float64 -> w * h < 2 ^ 31 -> legal w h ch ->
  let s1 := labels_state s h w (PInt (-9999)) STANDARD_GEOTRANSFORM in
  let lab := S (length (s_objs s)) in
  exists ol ll ndl ndf, raster s1 lab ol h w ll ndl /\ contiguous ol = true /\ o_dtype ol = Uint32 /\ o_block ol = length (s_mem s) /\
    cvt dh_env Int8 (PInt (-9999)) = Ok ndf /\ raster s1 dem o h w l nd /\ agree w h (zgrid w ll) (sea_around w h) /\
    agree w h (zgrid w (repeat (lit dh_env Int8 0) (Z.to_nat (h * w)))) (fun _ _ => 0) /\
    hierarchy_script (gdh0 ch) dem s = match get_depression_hierarchy (gdh0 ch) dem lab s1 with
      | Ret r s2 => Ret (fst r, (lab, snd r)) s2 | Exn s2 => Exn s2 | Undefd => Undefd end.
Proof.
  intros R C D Hs Lg s1 lab. pose proof R as [Ho [_ [_ [Hh [Hw [S0 _]]]]]].
  destruct (labels_raster s h w (PInt (-9999)) STANDARD_GEOTRANSFORM (DZ (wrap_to Uint32 (-9999))) Hh Hw eq_refl) as [ll [Rl [Cl G]]].
  exists (labels_obj s h w (PInt (-9999)) STANDARD_GEOTRANSFORM), ll, (DZ (wrap_to Uint32 (-9999))), (DZ (wrap_to Int8 (-9999))).
  split; [exact Rl|]. split; [exact Cl|]. split; [reflexivity|]. split; [reflexivity|]. split; [reflexivity|]. split; [apply raster_grow; exact R|]. split; [|split].
  - apply zgrid_ix. intros y x Hy Hx. rewrite G by auto. unfold inner, sea_around. cbn [nth lit dh_env]. f_equal. f_equal.
    destruct (Z.leb_spec 1 y), (Z.ltb_spec y (h - 1)), (Z.leb_spec 1 x), (Z.ltb_spec x (w - 1)); cbn [andb];
    destruct (Z.eqb_spec x 0), (Z.eqb_spec y 0), (Z.eqb_spec x (w - 1)), (Z.eqb_spec y (h - 1)); cbn [orb]; try reflexivity; lia.
  - apply zgrid_ix. intros y x Hy Hx. rewrite ix_nth by nia. rewrite (nth_error_nth' _ (DZ 0)) by (rewrite repeat_length; nia). f_equal. apply nth_repeat.
  - unfold hierarchy_script. unfold seq at 1, getobj. unfold object in Ho. rewrite Ho, S0. unfold seq at 1. rewrite (labels_run s h w (PInt (-9999)) None Hh Hw).
    unfold seq at 1. fold s1 lab. destruct (get_depression_hierarchy (gdh0 ch) dem lab s1); reflexivity.
Qed.

(** C89. New labels and the hierarchy, for every float64 elevation model (C-contiguous, at most 2^31 cells) of at least 3 x 3 cells: the call succeeds; labels and directions are
    two new arrays, and nothing that existed has changed. The labels partition the raster into the watersheds of the ocean - the edge of the raster - and of the pits; the directions lead
    every cell to the ocean or to the pit of its watershed; the hierarchy is well formed. Smaller models raise. *)
Theorem C89_hierarchy : forall (s : state (F dh_env) (V dh_env)) dem o h w l nd ch,
  raster s dem o h w l nd -> contiguous o = true -> o_dtype o = Float64 -> w * h < 2 ^ 31 -> legal w h ch ->
  (3 <= w /\ 3 <= h -> exists deps lab fd s' labl fdl pits, hierarchy_script (gdh0 ch) dem s = Ret ((deps, repeat 0%Qc (length deps)), (lab, fd)) s' /\
     keeps s s' /\ fresh s s' lab /\ fresh s s' fd /\ shows s' lab h w labl /\ shows s' fd h w fdl /\
     watersheds D8 w h (zgrid w l) (sea_around w h) (fun _ _ => 0) (zgrid w labl) (zgrid w fdl) pits /\ well_formed (Z.of_nat (length pits) + 1) deps) /\
  (w < 3 \/ h < 3 -> exists s', hierarchy_script (gdh0 ch) dem s = Exn s' /\ keeps s s').
Proof.
  intros s dem o h w l nd ch R C D Hs Lg. pose proof R as [Ho [_ [_ [Hh [Hw [S0 _]]]]]].
  destruct (script_run s dem o h w l nd ch R C D Hs Lg) as [ol [ll [ndl [ndf [Rl [Cl [Dl [Bl [Cv [R1 [AL [AF HR]]]]]]]]]]]].
  set (s1 := labels_state s h w (PInt (-9999)) STANDARD_GEOTRANSFORM) in *. set (lab := S (length (s_objs s))) in *.
  destruct Lg as [L1 [L2 L3]]. pose proof (gdh_loads (gdh0 ch) s1 dem o h w l nd lab ol h w ll ndl ndf R1 C D Rl Cl Dl Cv) as GL. rewrite HR, GL.
  destruct (labels_new s h w (PInt (-9999)) STANDARD_GEOTRANSFORM) as [K1 [K2 [K3 K4]]]. fold s1 lab in K1, K2, K3.
  assert (LL : length ll = Z.to_nat (h * w)). { pose proof Rl as [_ [_ [_ [_ [_ [_ [_ [[? [_ [_ [X _]]]] _]]]]]]]]. lia. }
  assert (KEEP : forall s2, (forall r x, object s1 r = Some x -> object s2 r = Some x) -> (forall b i v, ~ cell_of ol h w b i -> mem_at s1 b i = Some v -> mem_at s2 b i = Some v) -> keeps s s2).
  { intros s2 A B. split; [intros r x Hr; apply A, K1, Hr|]. intros b i v M. apply B; [|apply K2; exact M]. intros [Eb _]. subst b. unfold mem_at in M. rewrite Bl, (proj2 (nth_error_None _ _)) in M by lia. discriminate. }
  assert (LO : (length (s_objs s) <= length (s_objs s1))%nat) by (unfold s1, labels_state, full_state; cbn [s_objs]; rewrite app_length; apply Nat.le_add_r).
  assert (LM : (length (s_mem s) <= length (s_mem s1))%nat) by (unfold s1, labels_state; cbn [s_mem]; rewrite app_length; apply Nat.le_add_r).
  split.
  - intros H3. destruct (gdh_run_ok ch w h l ll nd ndl ndf _ Hw Hh H3 Hs L1 L2 AL AF) as [labg [fdg [deps [pits [_ [Q [WS [WF _]]]]]]]].
    assert (X1 : length (zlist w h labg) = length ll) by (pose proof (zlist_length w h labg Hw Hh); lia).
    assert (X2 : Z.of_nat (length (zlist w h fdg)) = h * w) by (apply zlist_length; auto).
    destruct (gdh_effect s1 lab ol h w ll ndl h w ndf (zlist w h labg) (zlist w h fdg) _ Rl Cl Hh Hw Cv X1 X2 eq_refl) as [E1 [E2 [E3 [E4 [E5 _]]]]].
    rewrite Q. cbn [fst snd]. eexists deps, lab, _, _, (zlist w h labg), (zlist w h fdg), pits. split; [reflexivity|].
    split; [apply KEEP; assumption|]. split; [split; [exact K3|]; exists ol; split; [apply E3|apply nth_error_None, Nat.eq_le_incl; symmetry; exact Bl]|]. split.
    + destruct E4 as [F1 [of [F2 F3]]]. split; [|exists of; split; [exact F2|]].
      * apply nth_error_None in F1. apply nth_error_None. eapply Nat.le_trans; [exact LO|exact F1].
      * apply nth_error_None in F3. apply nth_error_None. eapply Nat.le_trans; [exact LM|exact F3].
    + split; [apply E3|]. split; [apply E5|]. auto.
  - intros N3. rewrite (gdh_run_small ch w h l ll nd ndl ndf _ Hw Hh) by (auto; lia).
    assert (X2 : Z.of_nat (length (repeat (lit dh_env Int8 0) (Z.to_nat (h * w)))) = h * w) by (rewrite repeat_length; nia).
    destruct (gdh_effect s1 lab ol h w ll ndl h w ndf ll _ _ Rl Cl Hh Hw Cv eq_refl X2 eq_refl) as [E1 [E2 _]].
    eexists. split; [reflexivity|]. apply KEEP; assumption.
Qed.
Print Assumptions C89_hierarchy.

(** C89. And fill-spill-merge with rain in a float64 array of the same size (not negative, none on cell (0,0)): the water comes to rest in that array, as C43 says, and no other array that existed has
    changed. The hierarchy handed back by get_depression_hierarchy still says that there is no water anywhere (see C89_water_not_reported_refuted). *)
Theorem C89_water : forall (s : state (F dh_env) (V dh_env)) dem o h w l nd wt ow lw ndw ch,
  raster s dem o h w l nd -> contiguous o = true -> o_dtype o = Float64 -> w * h < 2 ^ 31 -> legal w h ch -> 3 <= w -> 3 <= h ->
  raster s wt ow h w lw ndw -> contiguous ow = true -> o_dtype ow = Float64 -> o_block ow <> o_block o ->
  (forall c, inside w h c -> (0 <= qcells w lw c)%Qc) -> qcells w lw (0, 0) = 0%Qc ->
  exists deps lab fd s' labl fdl lw' wv', water_script (gdh0 ch) (fsm0 ch) dem wt s = Ret ((deps, repeat 0%Qc (length deps)), (lab, fd)) s' /\
    (forall r x, object s r = Some x -> object s' r = Some x) /\
    (forall b i v, ~ cell_of ow h w b i -> mem_at s b i = Some v -> mem_at s' b i = Some v) /\
    shows s' wt h w lw' /\ shows s' lab h w labl /\ shows s' fd h w fdl /\
    water_settled w h (zgrid w l) (sea_around w h) (zgrid w labl) deps (qcells w lw) (qcells w lw') wv'.
Proof.
  intros s dem o h w l nd wt ow lw ndw ch R C D Hs Lg W3 H3 Rw Cw Dw NB SAT CZ. pose proof R as [Ho [_ [_ [Hh [Hw [S0 _]]]]]].
  destruct (script_run s dem o h w l nd ch R C D Hs Lg) as [ol [ll [ndl [ndf [Rl [Cl [Dl [Bl [Cv [R1 [AL [AF HR]]]]]]]]]]]].
  set (s1 := labels_state s h w (PInt (-9999)) STANDARD_GEOTRANSFORM) in *. set (lab := S (length (s_objs s))) in *.
  destruct Lg as [L1 [L2 L3]]. pose proof (gdh_loads (gdh0 ch) s1 dem o h w l nd lab ol h w ll ndl ndf R1 C D Rl Cl Dl Cv) as GL.
  destruct (labels_new s h w (PInt (-9999)) STANDARD_GEOTRANSFORM) as [K1 [K2 [K3 K4]]]. fold s1 lab in K1, K2, K3.
  assert (LL : length ll = Z.to_nat (h * w)). { pose proof Rl as [_ [_ [_ [_ [_ [_ [_ [[? [_ [_ [X _]]]] _]]]]]]]]. lia. }
  destruct (gdh_run_ok ch w h l ll nd ndl ndf _ Hw Hh (conj W3 H3) Hs L1 L2 AL AF) as [labg [fdg [deps [pits [_ [Q [WS [WF FS]]]]]]]].
  assert (X1 : length (zlist w h labg) = length ll) by (pose proof (zlist_length w h labg Hw Hh); lia).
  assert (X2 : Z.of_nat (length (zlist w h fdg)) = h * w) by (apply zlist_length; auto).
  destruct (gdh_effect s1 lab ol h w ll ndl h w ndf (zlist w h labg) (zlist w h fdg) _ Rl Cl Hh Hw Cv X1 X2 eq_refl) as [E1 [E2 [E3 [E4 [E5 E6]]]]].
  rewrite Q in GL. set (s2 := overwrite (overwrite (fd_state s1 h w) ol h w (zlist w h labg)) (fd_obj s1 h w) h w (zlist w h fdg)) in *.
  set (fd := S (length (s_objs s1))) in *.
  assert (BD : (o_block o < length (s_mem s))%nat). { destruct (raster_region _ _ _ _ _ _ _ R C) as [blk [B1 _]]. eapply nth_some_lt; eauto. }
  assert (BW : (o_block ow < length (s_mem s))%nat). { destruct (raster_region _ _ _ _ _ _ _ Rw Cw) as [blk [B1 _]]. eapply nth_some_lt; eauto. }
  assert (R2 : raster s2 dem o h w l nd) by (apply E6; [exact R1|lia]).
  assert (Rw2 : raster s2 wt ow h w lw ndw) by (apply E6; [apply raster_grow; exact Rw|lia]).
  destruct (FS (c_order ch) (c_tbs ch) (repeat 0%Qc (length deps)) (qcells w lw) L3 (repeat_length _ _) SAT CZ) as [wtd' [wv' [FE ST]]].
  set (lw' := qlist w h wtd'). assert (X3 : length lw' = length lw). { pose proof (qlist_length w h wtd' Hw Hh). pose proof Rw as [_ [_ [_ [_ [_ [_ [_ [[? [_ [_ [X _]]]] _]]]]]]]]. unfold lw'. lia. }
  assert (CF : contiguous (fd_obj s1 h w) = true) by (apply c_strides_contig; auto).
  pose proof (fsm_loads (fsm0 ch) s2 dem o h w l nd lab ol h w (zlist w h labg) ndl fd (fd_obj s1 h w) h w (zlist w h fdg) ndf (deps, repeat 0%Qc (length deps)) wt ow h w lw ndw
    R2 C D E3 Cl Dl E5 CF eq_refl Rw2 Cw Dw) as FL.
  assert (FR : fsm_run ch (@mkAval (V dh_env) Float64 w h nd l) (@mkAval (V dh_env) Uint32 w h ndl (zlist w h labg)) (@mkAval (V dh_env) Int8 w h ndf (zlist w h fdg)) (deps, repeat 0%Qc (length deps)) (@mkAval (V dh_env) Float64 w h ndw lw) =
    FOk (deps, wv') lw').
  { unfold fsm_run. cbn [v_w v_h v_data fst snd]. rewrite !Z.eqb_refl. cbn [andb]. rewrite FE. reflexivity. }
  rewrite FR in FL. set (s3 := overwrite s2 ow h w lw') in *.
  exists deps, lab, fd, s3, (zlist w h labg), (zlist w h fdg), lw', wv'. split.
  { unfold water_script, seq at 1. rewrite HR, GL. cbn [fst snd]. unfold seq. rewrite FL. reflexivity. }
  split; [intros r x Hr; unfold s3, object; rewrite overwrite_objs; apply E1, K1, Hr|]. split; [|split; [|split; [|split]]].
  - intros b i v Nc M. unfold s3. rewrite (overwrite_mem (E := dh_env) s2 wt ow h w lw ndw lw' b i Rw2 Cw X3).
    assert (Lb : (b < length (s_mem s))%nat). { unfold mem_at in M. destruct (nth_error (s_mem s) b) eqn:Nb; [|discriminate]. eapply nth_some_lt; eauto. }
    pose proof Rw as [_ [_ [_ [_ [_ [Sw [Stw _]]]]]]].
    destruct ((b =? o_block ow)%nat && (o_off ow <=? i) && (i <? o_off ow + h * w)) eqn:Y.
    + exfalso. apply Nc. apply (cells_stretch ow h w b i Hh Hw Sw Stw Cw). rewrite !andb_true_iff in Y. destruct Y as [[Y1 Y2] Y3]. apply Nat.eqb_eq in Y1. split; [exact Y1|lia].
    + apply E2; [intros [Eb _]; lia|]. apply K2. exact M.
  - apply (raster_overwritten (E := dh_env) s2 wt ow h w lw ndw lw' Rw2 Cw X3).
  - apply (raster_overwrite (E := dh_env) s2 lab ol h w (zlist w h labg) ndl wt ow h w lw ndw lw' E3 Rw2 Cw X3). lia.
  - apply (raster_overwrite (E := dh_env) s2 fd (fd_obj s1 h w) h w (zlist w h fdg) ndf wt ow h w lw ndw lw' E5 Rw2 Cw X3).
    cbn [fd_obj full_obj o_block]. unfold s1, labels_state. cbn [s_mem]. rewrite app_length. lia.
  - eapply settled_agree; [|exact ST]. intros c I. unfold lw'. apply qcells_qlist. exact I.
Qed.
Print Assumptions C89_water.

(** The two basins of C28 as a Python array, with 12 units of rain in the left one; two arrays in two blocks. *)
Definition ch7 : choices := mkChoices ex_sort ex_parts (cells 7 5) (fun _ _ => 0%nat).
Definition demo7 : obj (F dh_env) := mkObj KRd 0 0 [5; 7] [7; 1] Float64 (Some (PInt (-9999))) GNone EmptyString [].
Definition wtdo7 : obj (F dh_env) := mkObj KRd 1 0 [5; 7] [7; 1] Float64 (Some (PInt (-9999))) GNone EmptyString [].
Definition rain7 : list (V dh_env) := qlist 7 5 (fun c => if FlowModel.ceqb c (2, 2) then zq 12 else 0%Qc).
Definition st7 : state (F dh_env) (V dh_env) := mkState [zlist 7 5 ex_dem; rain7] [demo7; wtdo7].
Lemma legal7 : legal 7 5 ch7.
Proof. split; [apply ex_sort_ok|]. split; [apply ex_inputs|apply Permutation_refl]. Qed.
Lemma shows7 : raster st7 0 demo7 5 7 (zlist 7 5 ex_dem) (DZ (-9999)) /\ raster st7 1 wtdo7 5 7 rain7 (DZ (-9999)).
Proof.
  assert (C : forall y x, 0 <= y < 5 -> 0 <= x < 7 -> In y [0;1;2;3;4] /\ In x [0;1;2;3;4;5;6]) by (intros; cbn; lia).
  split; (split; [reflexivity|]; split; [reflexivity|]; split; [discriminate|]; split; [lia|]; split; [lia|]; split; [reflexivity|]; split; [reflexivity|]; split; [|reflexivity];
    eexists; split; [reflexivity|]; split; [reflexivity|]; split; [reflexivity|];
    intros y x Hy Hx; rewrite elem_mem; cbn [demo7 wtdo7 o_strides o_off o_block dot]; unfold mem_at; cbn [nth_error s_mem st7]; f_equal; ring).
Qed.
(** The documentation says that fill_spill_merge "modifies the depression hierarchy deps to indicate the amount of water contained in each depression". Here 12 units of water
    stand in the two basins afterwards, and the caller's hierarchy says 0 for every depression. *)
Theorem C89_water_not_reported_refuted : raster st7 0 demo7 5 7 (zlist 7 5 ex_dem) (DZ (-9999)) /\ raster st7 1 wtdo7 5 7 rain7 (DZ (-9999)) /\ legal 7 5 ch7 /\
  match water_script (gdh0 ch7) (fsm0 ch7) 0 1 st7 with
  | Ret ((deps, wv), _) s' => wv = repeat 0%Qc (length deps) /\ (length deps = 4)%nat /\
      match nth_error (s_mem s') 1 with Some b => map this (map qval b) = [0;0;0;0;0;0;0; 0;0;0;0;0;0;0; 0;0;14#3;5#3;17#3;0;0; 0;0;0;0;0;0;0; 0;0;0;0;0;0;0]%Q | None => False end
  | _ => False
  end.
Proof. split; [apply shows7|]. split; [apply shows7|]. split; [apply legal7|]. vm_compute. repeat split. Qed.
Print Assumptions C89_water_not_reported_refuted.
Example C89_met : exists deps lab fd s' labl fdl lw' wv', water_script (gdh0 ch7) (fsm0 ch7) 0 1 st7 = Ret ((deps, repeat 0%Qc (length deps)), (lab, fd)) s' /\
    (forall r x, object st7 r = Some x -> object s' r = Some x) /\
    (forall b i v, ~ cell_of wtdo7 5 7 b i -> mem_at st7 b i = Some v -> mem_at s' b i = Some v) /\
    shows s' 1 5 7 lw' /\ shows s' lab 5 7 labl /\ shows s' fd 5 7 fdl /\
    water_settled 7 5 (zgrid 7 (zlist 7 5 ex_dem)) (sea_around 7 5) (zgrid 7 labl) deps (qcells 7 rain7) (qcells 7 lw') wv'.
Proof.
  destruct shows7 as [A B]. apply (C89_water st7 0 demo7 5 7 (zlist 7 5 ex_dem) (DZ (-9999)) 1 wtdo7 rain7 (DZ (-9999)) ch7 A); try reflexivity; try exact B; try lia; [apply legal7|discriminate|].
  intros c I. unfold rain7. rewrite qcells_qlist by exact I. destruct (FlowModel.ceqb c (2, 2)); [rewrite <- zq_0; apply zq_le; lia|apply Qcle_refl].
Qed.
(** labels in int32, or a 2 x 2 elevation model *)
Example C89_rejected : (exists s', get_depression_hierarchy (gdh0 ch7) 0 1 st7 = Exn s') /\
  match get_new_depression_hierarchy_labels (E := dh_env) [3; 4] (PInt (-9999)) None st7 with
  | Ret r s' => r = 3%nat /\ nth_error (s_mem s') 2 = Some (map DZ [0;0;0;0; 0;2^32-1;2^32-1;0; 0;0;0;0])
  | _ => False
  end.
Proof. split; [eexists; reflexivity|]. vm_compute. split; reflexivity. Qed.
