(** C29: MoveWaterInDepHier and OverflowInto. *)
From Coq Require Import ZArith List Lia Bool Permutation QArith Qcanon.
From Verif Require Import Base Res QcTac RasterSpec RasterFacts FlowModel FlowSpec FlowProofs PropertiesFlow FlatsSpec FlatsProofs
  DHModel DHSpec DHAll PropertiesDH FSMModel FSMSpec FSMPits FSMPits2 PropertiesPits FSMRoute FSMRoute2 FSMRoute3.
Open Scope Z_scope.

(** The tolerance of the code's floating-point comparisons: one millionth. A depression passes on only
    amounts of at least this size, and drops smaller ones. *)
Definition slack (deps : list dep) : Qc := (zq (Z.of_nat (length deps)) * Q2Qc (1 # 1000000))%Qc.

(** For every hierarchy and every amount of water in its leaf depressions, the call completes (no
    exception, no failing assertion, recursion at most as deep as there are depressions), and leaves no
    depression overfull and no metadepression with water above a child that is not full. *)
Theorem C29_completes : forall n deps wv, well_formed n deps -> n <= 2 ^ 31 -> volumes_ok n deps -> pits_only n deps wv ->
  exists wv', route_water deps wv = Some (Ok wv') /\ levelled deps wv'.
Proof.
  intros n deps wv WF Hn VO PO. destruct (route_correct n deps WF Hn VO wv PO) as [wv' [E [L _]]]. exists wv'. auto.
Qed.

(** No water is created, and at most a millionth per depression is lost. *)
Theorem C29_conserves_water : forall n deps wv wv', well_formed n deps -> n <= 2 ^ 31 -> volumes_ok n deps -> pits_only n deps wv ->
  route_water deps wv = Some (Ok wv') ->
  exists b, holds_upstream deps wv' 0 b /\ (qsum wv - slack deps <= b /\ b <= qsum wv)%Qc.
Proof.
  intros n deps wv wv' WF Hn VO PO E. destruct (route_correct n deps WF Hn VO wv PO) as [w [E' [L [H _]]]].
  assert (w = wv') by congruence. subst w. pose proof (FSMRoute.n_pos n deps WF). pose proof (wf_size _ _ WF).
  destruct (up_total n deps WF Hn VO wv (proj1 PO) 0) as [a HA]; [lia|].
  destruct (up_total n deps WF Hn VO wv' (proj1 L) 0) as [b HB]; [lia|].
  exists b. split; [exact HB|]. rewrite <- (pits_total n deps WF Hn VO wv PO a HA). apply (H a b HA HB).
Qed.

(** Water leaves a depression only when it is full: a depression that is not full at the end holds, with
    its subdepressions, everything they held at the start, and so do, together, it and all the
    depressions whose overflow passes through it. *)
Theorem C29_spills_only_when_full : forall n deps wv wv' d r v q, well_formed n deps -> n <= 2 ^ 31 -> volumes_ok n deps -> pits_only n deps wv ->
  route_water deps wv = Some (Ok wv') ->
  ix deps d = Some r -> d <> 0 -> d_vol r = Some v -> ix wv' d = Some q -> (q < zq v)%Qc ->
  (exists a b, holds deps wv d a /\ holds deps wv' d b /\ (a - slack deps <= b)%Qc) /\
  (exists a b, holds_upstream deps wv d a /\ holds_upstream deps wv' d b /\ (a - slack deps <= b)%Qc).
Proof.
  intros n deps wv wv' d r v q WF Hn VO PO E Ed Nd Ev Q LT. destruct (route_correct n deps WF Hn VO wv PO) as [w [E' [L [_ H]]]].
  assert (w = wv') by congruence. subst w. destruct (H d r v q Ed Nd Ev Q LT) as [H1 H2].
  assert (Hd : 0 <= d < Z.of_nat (length deps)) by (apply ix_some_iff; eauto). split.
  - destruct (holds_total n deps WF Hn VO wv (proj1 PO) (S (Z.to_nat d)) d ltac:(lia) Hd) as [a HA].
    destruct (holds_total n deps WF Hn VO wv' (proj1 L) (S (Z.to_nat d)) d ltac:(lia) Hd) as [b HB]. exists a, b. split; auto.
  - destruct (up_total n deps WF Hn VO wv (proj1 PO) d) as [a HA]; [lia|].
    destruct (up_total n deps WF Hn VO wv' (proj1 L) d) as [b HB]; [lia|]. exists a, b. split; auto.
Qed.

(** Rain on a terrain, run into the pits and routed through the hierarchy. *)
Theorem C29_rain_to_depressions : forall w h dem lab0 tb sorted parts order wtd,
  valid_labels w h lab0 -> has_coast D8 w h lab0 -> w * h < 2 ^ 31 ->
  (forall db, sorting_of db (sorted db)) -> each_cell_once w h parts -> Permutation order (cells w h) ->
  exists lab fd deps wtd' wv wv' b,
    GetDepressionHierarchy D8 w h dem tb sorted parts lab0 (fun _ _ => 0) = Some (Ok (lab, fd, deps)) /\
    MoveWaterIntoPits lab fd w h order (repeat 0%Qc (length deps)) wtd = Some (Ok (wtd', wv)) /\
    route_water deps wv = Some (Ok wv') /\ levelled deps wv' /\ holds_upstream deps wv' 0 b /\
    (surface_total w h wtd - slack deps <= surface_total w h wtd' + b /\
     surface_total w h wtd' + b <= surface_total w h wtd)%Qc.
Proof.
  intros w h dem lab0 tb sorted parts order wtd V1 V2 V3 V4 V5 P.
  destruct (gdh_ok D8 w h dem lab0 (fun _ _ => 0) tb sorted parts V1 V3 V2 V4 V5) as [lab [fd [deps [pits [E [WS [WF [Hn [_ [_ [_ [HV HM]]]]]]]]]]]].
  set (n := Z.of_nat (length pits) + 1) in *.
  assert (VO : volumes_ok n deps).
  { constructor; [|exact HM]. intros d r Ed Nd. destruct (HV d r Ed Nd) as [z [l [_ [[_ CU] [_ [Ev _]]]]]]. exists (depth_sum dem z l). split; [exact Ev|].
    unfold depth_sum. assert (G : forall l', (forall c, In c l' -> elev_at dem c <= z) -> 0 <= zsum (map (fun c => z - elev_at dem c) l')).
    { induction l' as [|c l' IH]; intros Hc; unfold zsum in *; cbn [map fold_right]; [lia|].
      assert (elev_at dem c <= z) by (apply Hc; left; auto). assert (0 <= fold_right Z.add 0 (map (fun c => z - elev_at dem c) l')) by (apply IH; intros; apply Hc; right; auto). lia. }
    apply G. intros c Hc. apply CU, Hc. }
  destruct (watershed_directions w h dem lab0 lab fd pits WS) as [D1 [D2 D3]].
  pose proof (wf_size _ _ WF) as SZ.
  assert (B : forall p, inside w h p -> 0 <= elev_at lab p < Z.of_nat (length (repeat 0%Qc (length deps)))).
  { intros p Hp. rewrite repeat_length. pose proof (ws_label _ _ _ _ _ _ _ _ _ WS p Hp). lia. }
  destruct (C30_settles fd lab w h (repeat 0%Qc (length deps)) wtd order D1 B P) as [wtd' [wv [X [EM [_ [_ [EL CL]]]]]]].
  rewrite repeat_length in EL.
  assert (PO : pits_only n deps wv).
  { split; [exact EL|]. intros d q Q. assert (Hd : 0 <= d < Z.of_nat (length wv)) by (apply ix_some_iff; eauto).
    assert (Ha : ix (repeat 0%Qc (length deps)) d = Some 0%Qc).
    { destruct (proj2 (ix_some_iff (repeat 0%Qc (length deps)) d)) as [a Ea]; [rewrite repeat_length; lia|].
      rewrite Ea. f_equal. unfold ix in Ea. destruct (d <? 0); [discriminate|]. apply nth_error_In, repeat_spec in Ea. exact Ea. }
    destruct (CL d 0%Qc Ha) as [D [[_ DI] ED]]. rewrite Q in ED. injection ED as ->.
    assert (0 <= qsum (map (fun d => qmax 0 (X d)) D))%Qc.
    { apply qsum_nonneg. intros x Hx. apply in_map_iff in Hx. destruct Hx as [c [<- _]]. apply qmax_nonneg. }
    split; [qlra|]. intros Hl. destruct D as [|c D]; [unfold qsum; cbn; ring|]. exfalso.
    destruct (proj1 (DI c) (or_introl eq_refl)) as [[Hc _] [_ LC]]. pose proof (ws_label _ _ _ _ _ _ _ _ _ WS c Hc). unfold n in Hl. lia. }
  destruct (C29_completes n deps wv WF Hn VO PO) as [wv' [ER L]].
  destruct (C29_conserves_water n deps wv wv' WF Hn VO PO ER) as [b [HB [Q1 Q2]]].
  exists lab, fd, deps, wtd', wv, wv', b. split; [exact E|]. split; [exact EM|]. split; [exact ER|]. split; [exact L|]. split; [exact HB|].
  pose proof (C30_conserves_water fd lab w h _ wtd order wtd' wv D1 B EM) as C.
  assert (R0 : qsum (repeat 0%Qc (length deps)) = 0%Qc).
  { generalize (length deps). induction n0 as [|k IH]; [reflexivity|]. unfold qsum in *. cbn [repeat fold_right]. rewrite IH. ring. }
  rewrite R0 in C. split; qlra.
Qed.

(** *** Concrete cases *)
(** The terrain of PropertiesDH: leaf depressions 1 and 2 of volumes 4 and 3, metadepression 3 of volume
    16, spilling into the ocean. *)
Definition show_wv (r : option (res (list Qc))) : option (list Q) := match r with Some (Ok l) => Some (map this l) | _ => None end.
Definition ex_flood (wv : list Qc) : option (list Q) :=
  match GetDepressionHierarchy D8 7 5 ex_dem (fun _ => 0%nat) ex_sort ex_parts ex_lab (fun _ _ => 0) with
  | Some (Ok (_, _, deps)) => show_wv (route_water deps wv)
  | _ => None end.
Definition ex_vols (r : option (res (grid Z * grid Z * list dep))) : option (list (option Z)) :=
  match r with Some (Ok (_, _, deps)) => Some (map d_vol deps) | _ => None end.
Example C29_volumes : ex_vols (GetDepressionHierarchy D8 7 5 ex_dem (fun _ => 0%nat) ex_sort ex_parts ex_lab (fun _ _ => 0)) = Some [None; Some 4; Some 3; Some 16].
Proof. vm_compute. reflexivity. Qed.
(** two units stay *)
Example C29_two : ex_flood [0%Qc; zq 2; 0%Qc; 0%Qc] = Some [0%Q; 2%Q; 0%Q; 0%Q].
Proof. vm_compute. reflexivity. Qed.
(** of six units, two spill into the other leaf *)
Example C29_six : ex_flood [0%Qc; zq 6; 0%Qc; 0%Qc] = Some [0%Q; 4%Q; 2%Q; 0%Q].
Proof. vm_compute. reflexivity. Qed.
(** twelve units fill both leaves and rise in the metadepression *)
Example C29_twelve : ex_flood [0%Qc; zq 12; 0%Qc; 0%Qc] = Some [0%Q; 4%Q; 3%Q; 12%Q].
Proof. vm_compute. reflexivity. Qed.
(** twenty units: four reach the ocean *)
Example C29_twenty : ex_flood [0%Qc; zq 15; zq 5; 0%Qc] = Some [4%Q; 4%Q; 3%Q; 16%Q].
Proof. vm_compute. reflexivity. Qed.

(** The bound on the loss is not idle: of 4 + 1/10000000 units only 4 are left. *)
Example C29_drops_small_amounts : ex_flood [0%Qc; (zq 4 + Q2Qc (1 # 10000000))%Qc; 0%Qc; 0%Qc] = Some [0%Q; 4%Q; 0%Q; 0%Q].
Proof. vm_compute. reflexivity. Qed.
Example C29_children : match GetDepressionHierarchy D8 7 5 ex_dem (fun _ => 0%nat) ex_sort ex_parts ex_lab (fun _ _ => 0) with
  Some (Ok (_, _, deps)) => map d_lchild deps = [NO_VALUE; NO_VALUE; NO_VALUE; 1] | _ => False end.
Proof. vm_compute. reflexivity. Qed.

(** The hypotheses of the three general theorems are met by that hierarchy and those amounts. *)
Example C29_hypotheses_met : exists n deps wv, well_formed n deps /\ n <= 2 ^ 31 /\ volumes_ok n deps /\ pits_only n deps wv /\
  map d_vol deps = [None; Some 4; Some 3; Some 16] /\ show_wv (route_water deps wv) = Some [4%Q; 4%Q; 3%Q; 16%Q].
Proof.
  destruct ex_inputs as [A [B C]].
  destruct (gdh_ok D8 7 5 ex_dem ex_lab (fun _ _ => 0) (fun _ => 0%nat) ex_sort ex_parts A ltac:(lia) B ex_sort_ok C)
    as [lab [fd [deps [pits [E [WS [WF [Hn [_ [_ [_ [HV HM]]]]]]]]]]]].
  set (n := Z.of_nat (length pits) + 1) in *.
  pose proof C29_volumes as W. unfold ex_vols in W. rewrite E in W. injection W as W.
  pose proof C29_twenty as R. unfold ex_flood in R. rewrite E in R.
  exists n, deps, [0%Qc; zq 15; zq 5; 0%Qc]. split; [exact WF|]. split; [exact Hn|]. split; [|split; [|split; [exact W|exact R]]].
  - constructor; [|exact HM]. intros d r Ed Nd.
    assert (Hd : 0 <= d < Z.of_nat (length deps)) by (apply ix_some_iff; eauto).
    assert (L : length deps = 4%nat) by (rewrite <- (map_length d_vol deps), W; reflexivity). rewrite L in Hd.
    assert (M : ix (map d_vol deps) d = Some (d_vol r)).
    { unfold ix in *. destruct (d <? 0); [discriminate|]. rewrite nth_error_map, Ed. reflexivity. }
    rewrite W in M. assert (D : d = 1 \/ d = 2 \/ d = 3) by lia.
    destruct D as [-> | [-> | ->]]; unfold ix in M; cbn in M; injection M as <-; eexists; split; eauto; lia.
  - assert (L : length deps = 4%nat) by (rewrite <- (map_length d_vol deps), W; reflexivity). split; [rewrite L; reflexivity|].
    assert (N : n = 3). { pose proof (wf_size _ _ WF) as S. rewrite L in S.
      destruct (Z.eq_dec n 3) as [|N3]; [auto|]. exfalso. pose proof C29_children as CH. rewrite E in CH.
      destruct (proj2 (ix_some_iff deps 3)) as [r Er]; [lia|]. destruct (wf_leaf _ _ WF 3 r Er ltac:(lia)) as [LF _].
      assert (M : ix (map d_lchild deps) 3 = Some (d_lchild r)) by (unfold ix in *; cbn in *; rewrite nth_error_map, Er; reflexivity).
      rewrite CH, LF in M. vm_compute in M. discriminate M. }
    intros d q Q. assert (Hd : 0 <= d < 4) by (apply (proj1 (ix_some_iff [0%Qc; zq 15; zq 5; 0%Qc] d)); eauto).
    rewrite N. assert (D : d = 0 \/ d = 1 \/ d = 2 \/ d = 3) by lia.
    destruct D as [-> | [-> | [-> | ->]]]; unfold ix in Q; cbn in Q; injection Q as <-; split; try lia; try reflexivity; try (intros _; reflexivity); rewrite <- zq_0; apply zq_le; lia.
Qed.

Print Assumptions C29_completes.
Print Assumptions C29_conserves_water.
Print Assumptions C29_spills_only_when_full.
Print Assumptions C29_rain_to_depressions.
