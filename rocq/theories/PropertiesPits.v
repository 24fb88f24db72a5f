(** C30: MoveWaterIntoPits. *)
From Coq Require Import ZArith List Lia Bool Permutation QArith Qcanon.
From Verif Require Import Base Res QcTac RasterSpec RasterFacts FlowModel FlowSpec FlowProofs PropertiesFlow FlatsSpec FlatsProofs
  DHModel DHSpec DHAll PropertiesDH FSMModel FSMSpec FSMPits FSMPits2.
Open Scope Z_scope.

(** For every raster of directions that stay in the raster, every labelling by depressions, every water
    table and every schedule of the dependency loop, the call completes. Each cell that gets its turn
    (is not [blocked]) ends up with the negative part of what arrived and passes on the positive part; a
    delivering cell adds it to its depression; blocked cells keep what they have received. *)
Theorem C30_settles : forall fd lab w h wv wtd order,
  directions_ok fd w h -> (forall p, inside w h p -> 0 <= elev_at lab p < Z.of_nat (length wv)) ->
  Permutation order (cells w h) ->
  exists wtd' wv' X, MoveWaterIntoPits lab fd w h order wv wtd = Some (Ok (wtd', wv')) /\
    arrivals fd w h wtd X /\ settled fd w h wtd X wtd' /\ collected fd w h lab X wv wv'.
Proof.
  intros fd lab w h wv wtd order A B C.
  destruct (mwp_correct fd lab w h wv wtd A B order C) as [wtd' [wv' [X [E [_ H]]]]]. exists wtd', wv', X. auto.
Qed.

(** Without flow loops and without a cell flowing into the corner (0,0), every cell gets its turn: no
    water is left above the surface. *)
Theorem C30_no_surface_water_left : forall fd lab w h wv wtd order,
  directions_ok fd w h -> (forall p, inside w h p -> 0 <= elev_at lab p < Z.of_nat (length wv)) ->
  Permutation order (cells w h) -> (forall p, ~ circulates fd w h p) -> ~ corner_fed fd w h ->
  exists wtd' wv', MoveWaterIntoPits lab fd w h order wv wtd = Some (Ok (wtd', wv')) /\
    (forall p, inside w h p -> ~ blocked fd w h p /\ (wtd' p <= 0)%Qc) /\
    (forall l a b, ix wv l = Some a -> ix wv' l = Some b -> (a <= b)%Qc).
Proof.
  intros fd lab w h wv wtd order A B C NC NF.
  destruct (C30_settles fd lab w h wv wtd order A B C) as [wtd' [wv' [X [E [H1 [[H2 _] [_ H3]]]]]]].
  exists wtd', wv'. split; [exact E|]. split.
  - intros p Hp. assert (NB : ~ blocked fd w h p).
    { intros [q [_ [[r [G [F _]]]|[_ F]]]]; [|auto]. apply (NC q). exists r. split; [apply goes_flows_on, G|exact F]. }
    split; [exact NB|]. rewrite (H2 p Hp NB). qlra.
  - intros l a b Ha Hb. destruct (H3 l a Ha) as [D [_ E']]. rewrite Hb in E'. injection E' as ->.
    assert (0 <= qsum (map (fun d => qmax 0 (X d)) D))%Qc.
    { apply qsum_nonneg. intros x Hx. apply in_map_iff in Hx. destruct Hx as [d [<- _]]. apply qmax_nonneg. }
    qlra.
Qed.

(** Water is never created or destroyed, with or without loops. *)
Theorem C30_conserves_water : forall fd lab w h wv wtd order wtd' wv',
  directions_ok fd w h -> (forall p, inside w h p -> 0 <= elev_at lab p < Z.of_nat (length wv)) ->
  MoveWaterIntoPits lab fd w h order wv wtd = Some (Ok (wtd', wv')) ->
  (surface_total w h wtd' + qsum wv' = surface_total w h wtd + qsum wv)%Qc.
Proof.
  intros fd lab w h wv wtd order wtd' wv' A B E. unfold surface_total. rewrite <- (wsum_all wv), <- (wsum_all wv').
  exact (mwp_balance fd lab w h (length wv) (fun _ => true) (fun _ => true) A B (fun _ _ _ => eq_refl) (fun _ _ => eq_refl)
           order wv wtd wtd' wv' eq_refl E).
Qed.

(** If flow does not cross watersheds, the water of each watershed stays in it or goes to its own depression. *)
Theorem C30_watershed_balance : forall fd lab w h wv wtd order wtd' wv',
  directions_ok fd w h -> (forall p, inside w h p -> 0 <= elev_at lab p < Z.of_nat (length wv)) ->
  (forall p q, flows fd w h p q -> elev_at lab p = elev_at lab q) ->
  MoveWaterIntoPits lab fd w h order wv wtd = Some (Ok (wtd', wv')) ->
  forall l a b, ix wv l = Some a -> ix wv' l = Some b ->
    let shed := filter (fun p => elev_at lab p =? l) (cells w h) in
    (qsum (map wtd' shed) + b = qsum (map wtd shed) + a)%Qc.
Proof.
  intros fd lab w h wv wtd order wtd' wv' A B L E l a b Ha Hb shed.
  pose proof (mwp_balance fd lab w h (length wv) (fun p => elev_at lab p =? l) (fun i => i =? l) A B) as H.
  specialize (H (fun p q F => f_equal (fun z => z =? l) (L p q F)) (fun _ _ => eq_refl) order wv wtd wtd' wv' eq_refl E).
  rewrite (wsum_one wv l a Ha), (wsum_one wv' l b Hb) in H.
  assert (S : forall v, fsum (fun p => elev_at lab p =? l) w h v = qsum (map v shed)).
  { intros v. unfold fsum, shed. unfold qsum. generalize (cells w h) as Lc. induction Lc as [|c Lc IH]; cbn [map fold_right filter]; [reflexivity|].
    change (elev_at lab c =? l) with (elev_at lab c =? l). destruct (elev_at lab c =? l); cbn [map fold_right]; rewrite IH; ring. }
  rewrite !S in H. exact H.
Qed.

(** The result is the same for every schedule of the parallel loop. *)
Theorem C30_schedule_independent : forall fd lab w h wv wtd order order' wtd1 wv1 wtd2 wv2,
  directions_ok fd w h -> (forall p, inside w h p -> 0 <= elev_at lab p < Z.of_nat (length wv)) ->
  Permutation order (cells w h) -> Permutation order' (cells w h) ->
  MoveWaterIntoPits lab fd w h order wv wtd = Some (Ok (wtd1, wv1)) ->
  MoveWaterIntoPits lab fd w h order' wv wtd = Some (Ok (wtd2, wv2)) ->
  wv1 = wv2 /\ forall p, wtd1 p = wtd2 p.
Proof.
  intros fd lab w h wv wtd order order' wtd1 wv1 wtd2 wv2 A B C C' E E'.
  unfold MoveWaterIntoPits, mwp_deps in E, E'.
  assert (G : forall (l : list cellt) d0, (forall c, In c l -> inside w h c) ->
      exists d, forM l (fun (c : cellt) d => do k <- donors_of fd w h c; Ok (cset d c k)) d0 = Ok d /\
        forall c, d c = if existsb (ceqb c) l then Z.of_nat (length (filter (ptsb fd c) (cells w h))) else d0 c).
  { induction l as [|a l IH]; intros d0 Hl; cbn [forM existsb]; [exists d0; auto|].
    rewrite (donors_of_ok fd w h wtd A) by (apply Hl; left; auto). cbn [bind].
    destruct (IH (cset d0 a (Z.of_nat (length (filter (ptsb fd a) (cells w h)))))) as [d [X H]]; [intros; apply Hl; right; auto|].
    exists d. split; [exact X|]. intros e. rewrite H. unfold cset, Kahn.kupd.
    destruct (ceqb_spec e a) as [->|]; cbn [orb]; [destruct (existsb _ _); auto|auto]. }
  destruct (G order (fun _ => 0)) as [d [Ed Hd]]; [intros c Hc; apply cells_inside; eapply Permutation_in; [exact C|exact Hc]|].
  destruct (G order' (fun _ => 0)) as [d' [Ed' Hd']]; [intros c Hc; apply cells_inside; eapply Permutation_in; [exact C'|exact Hc]|].
  rewrite Ed in E. rewrite Ed' in E'.
  assert (Hdd : forall c, d c = d' c).
  { intros c. rewrite Hd, Hd'. replace (existsb (ceqb c) order') with (existsb (ceqb c) order); [reflexivity|].
    apply eq_true_iff_eq. rewrite !existsb_exists. split; intros [x [Hx Hc]]; exists x; (split; [|exact Hc]).
    - eapply Permutation_in; [symmetry; exact C'|]. eapply Permutation_in; [exact C|exact Hx].
    - eapply Permutation_in; [symmetry; exact C|]. eapply Permutation_in; [exact C'|exact Hx]. }
  assert (Hs : filter (fun c => d c =? 0) (scan w h) = filter (fun c => d' c =? 0) (scan w h)).
  { apply filter_ext. intros c. rewrite Hdd. reflexivity. }
  rewrite Hs in E.
  pose proof (mwp_loop_eq lab fd w h (Z.to_nat w * Z.to_nat h) 0
    (mkM (Kahn.mkK d wtd (filter (fun c => d' c =? 0) (scan w h))) wv) (mkM (Kahn.mkK d' wtd (filter (fun c => d' c =? 0) (scan w h))) wv)) as Q.
  assert (M : meq (mkM (Kahn.mkK d wtd (filter (fun c => d' c =? 0) (scan w h))) wv) (mkM (Kahn.mkK d' wtd (filter (fun c => d' c =? 0) (scan w h))) wv)).
  { split; [|reflexivity]. split; [exact Hdd|]. split; reflexivity. }
  specialize (Q M).
  destruct (whileR mpop _ _ _ _) as [[s| |]|]; try discriminate. injection E as <- <-.
  destruct (whileR mpop _ _ _ _) as [[s'| |]|]; try discriminate. injection E' as <- <-.
  destruct Q as [[_ [Q _]] R]. auto.
Qed.

(** On the output of GetDepressionHierarchy<D8> (flow directions initialised with 0) the call completes,
    every watershed keeps its water, and unless cells flow into the corner no surface water is left. *)
Theorem C30_on_hierarchy : forall w h dem lab0 tb sorted parts lab fd deps order wtd,
  valid_labels w h lab0 -> has_coast D8 w h lab0 -> w * h < 2 ^ 31 ->
  (forall db, sorting_of db (sorted db)) -> each_cell_once w h parts ->
  GetDepressionHierarchy D8 w h dem tb sorted parts lab0 (fun _ _ => 0) = Some (Ok (lab, fd, deps)) ->
  Permutation order (cells w h) ->
  exists wtd' wv', MoveWaterIntoPits lab fd w h order (repeat 0%Qc (length deps)) wtd = Some (Ok (wtd', wv')) /\
    length wv' = length deps /\
    (forall l b, ix wv' l = Some b ->
       let shed := filter (fun p => elev_at lab p =? l) (cells w h) in
       (qsum (map wtd' shed) + b = qsum (map wtd shed))%Qc) /\
    (~ corner_fed fd w h -> forall p, inside w h p -> (wtd' p <= 0)%Qc).
Proof.
  intros w h dem lab0 tb sorted parts lab fd deps order wtd V1 V2 V3 V4 V5 E P.
  destruct (gdh_ok D8 w h dem lab0 (fun _ _ => 0) tb sorted parts V1 V3 V2 V4 V5) as [lab' [fd' [deps' [pits [E' [WS [WF _]]]]]]].
  assert (EE : (lab', fd', deps') = (lab, fd, deps)) by congruence. injection EE as -> -> ->.
  destruct (watershed_directions w h dem lab0 lab fd pits WS) as [D1 [D2 D3]].
  assert (B : forall p, inside w h p -> 0 <= elev_at lab p < Z.of_nat (length (repeat 0%Qc (length deps)))).
  { intros p Hp. rewrite repeat_length. pose proof (ws_label _ _ _ _ _ _ _ _ _ WS p Hp). pose proof (wf_size _ _ WF). lia. }
  destruct (C30_settles fd lab w h (repeat 0%Qc (length deps)) wtd order D1 B P) as [wtd' [wv' [X [EM [_ [_ [EL _]]]]]]].
  exists wtd', wv'. split; [exact EM|]. rewrite repeat_length in EL. split; [exact EL|]. split.
  - intros l b Hb shed.
    assert (Ha : ix (repeat 0%Qc (length deps)) l = Some 0%Qc).
    { assert (0 <= l < Z.of_nat (length wv')) by (apply ix_some_iff; eauto).
      destruct (proj2 (ix_some_iff (repeat 0%Qc (length deps)) l)) as [a Ea]; [rewrite repeat_length; lia|].
      rewrite Ea. f_equal. unfold ix in Ea. destruct (l <? 0); [discriminate|]. apply nth_error_In, repeat_spec in Ea. exact Ea. }
    pose proof (C30_watershed_balance fd lab w h _ wtd order wtd' wv' D1 B D3 EM l 0%Qc b Ha Hb) as H. cbv zeta in H. fold shed in H.
    rewrite H. ring.
  - intros NF p Hp. destruct (C30_no_surface_water_left fd lab w h _ wtd order D1 B P D2 NF) as [a [b [E2 [H _]]]].
    assert (a = wtd') by congruence. subst a. apply H, Hp.
Qed.

(** *** Concrete cases *)
Definition show (w h : Z) (r : option (res ((cell -> Qc) * list Qc))) : option (list (list Q) * list Q) :=
  match r with
  | Some (Ok (v, wv)) => Some (map (fun y => map (fun x => this (v (x, y))) (zrange 0 (Z.to_nat w))) (zrange 0 (Z.to_nat h)), map this wv)
  | _ => None
  end.

(** one unit of rain on the terrain of PropertiesDH; cell (3,2) has a soil deficit of 5 *)
Example C30_run : exists lab fd deps,
  GetDepressionHierarchy D8 7 5 ex_dem (fun _ => 0%nat) ex_sort ex_parts ex_lab (fun _ _ => 0) = Some (Ok (lab, fd, deps)) /\
  show 7 5 (MoveWaterIntoPits lab fd 7 5 (rev (cells 7 5)) (repeat 0%Qc 4)
     (fun p => if ceqb p (3, 2) then zq (-5) else zq 1)) =
  Some ([[0; 0; 0; 0; 0; 0; 0]; [0; 0; 0; 0; 0; 0; 0]; [0; 0; 0; -5; 0; 0; 0]; [0; 0; 0; 0; 0; 0; 0]; [0; 0; 0; 0; 0; 0; 0]], [32; 1; 1; 0])%Q.
Proof. eexists _, _, _. split; [vm_compute; reflexivity|]. vm_compute. reflexivity. Qed.

(** the hypotheses of the theorems are met by it *)
Example C30_hypotheses_met : exists lab fd deps wtd' wv',
  GetDepressionHierarchy D8 7 5 ex_dem (fun _ => 0%nat) ex_sort ex_parts ex_lab (fun _ _ => 0) = Some (Ok (lab, fd, deps)) /\
  ~ corner_fed fd 7 5 /\
  MoveWaterIntoPits lab fd 7 5 (rev (cells 7 5)) (repeat 0%Qc (length deps)) (fun _ => 1%Qc) = Some (Ok (wtd', wv')) /\
  forall p, inside 7 5 p -> (wtd' p <= 0)%Qc.
Proof.
  destruct ex_inputs as [A [B C]].
  assert (E : exists lab fd deps, GetDepressionHierarchy D8 7 5 ex_dem (fun _ => 0%nat) ex_sort ex_parts ex_lab (fun _ _ => 0) = Some (Ok (lab, fd, deps)) /\
     forallb (fun p => negb (ptsb fd corner p)) (cells 7 5) = true).
  { eexists _, _, _. split; vm_compute; reflexivity. }
  destruct E as [lab [fd [deps [E K]]]]. exists lab, fd, deps.
  destruct (C30_on_hierarchy 7 5 ex_dem ex_lab (fun _ => 0%nat) ex_sort ex_parts lab fd deps (rev (cells 7 5)) (fun _ => 1%Qc) A B)
    as [wtd' [wv' [EM [_ [_ H]]]]]; [lia|apply ex_sort_ok|exact C|exact E|symmetry; apply Permutation_rev|].
  exists wtd', wv'. split; [exact E|].
  assert (NF : ~ corner_fed fd 7 5).
  { intros [p F]. pose proof F as [Hp [_ T]]. rewrite forallb_forall in K.
    pose proof (K p (proj2 (cells_inside 7 5 p) Hp)) as X. apply toward_iff in T. destruct T as [T0 [T1 T2]].
    unfold ptsb in X. destruct (Z.eqb_spec (elev_at fd p) 0); [lia|]. cbn [negb andb] in X.
    destruct (ceqb_spec (tgt fd p) corner) as [|Y]; [discriminate|]. apply Y. unfold tgt. rewrite <- T1, <- T2. reflexivity. }
  split; [exact NF|]. split; [exact EM|]. apply H, NF.
Qed.

(** "All values in wtd will be <=0 following this operation" is false if a cell flows into the corner:
    a 4x1 terrain whose pit is the corner cell, one unit of rain; the corner keeps its unit. *)
Definition corner_dem : grid Z := of_rows [[1; 5; 9; 0]].
Definition corner_lab : grid Z := fun x _ => if x =? 3 then 0 else 2 ^ 32 - 1.
Theorem C30_corner_keeps_water_refuted : exists w h dem lab0 lab fd deps wtd' wv',
  valid_labels w h lab0 /\ has_coast D8 w h lab0 /\
  GetDepressionHierarchy D8 w h dem (fun _ => 0%nat) ex_sort [cells w h] lab0 (fun _ _ => 0) = Some (Ok (lab, fd, deps)) /\
  MoveWaterIntoPits lab fd w h (cells w h) (repeat 0%Qc (length deps)) (fun _ => 1%Qc) = Some (Ok (wtd', wv')) /\
  inside w h corner /\ (0 < wtd' corner)%Qc.
Proof.
  assert (E : exists lab fd deps, GetDepressionHierarchy D8 4 1 corner_dem (fun _ => 0%nat) ex_sort [cells 4 1] corner_lab (fun _ _ => 0) = Some (Ok (lab, fd, deps)) /\
    option_map fst (show 4 1 (MoveWaterIntoPits lab fd 4 1 (cells 4 1) (repeat 0%Qc (length deps)) (fun _ => 1%Qc))) = Some [[1; 0; 0; 0]]%Q).
  { eexists _, _, _. split; vm_compute; reflexivity. }
  destruct E as [lab [fd [deps [E K]]]].
  exists 4, 1, corner_dem, corner_lab, lab, fd, deps.
  destruct (MoveWaterIntoPits lab fd 4 1 (cells 4 1) (repeat 0%Qc (length deps)) (fun _ => 1%Qc)) as [[[v wv]| |]|] eqn:EM; try discriminate K.
  exists v, wv. split; [|split; [|split; [|split; [|split]]]].
  - intros [x y] _. unfold corner_lab, elev_at. cbn [fst snd]. destruct (x =? 3); auto.
  - exists (3, 0), (2, 0). unfold ocean_cell, land_cell, inside, in_raster, neighbours, adjacent, elev_at. cbn. repeat split; try lia; try congruence.
  - exact E.
  - reflexivity.
  - unfold inside, in_raster, corner. cbn. lia.
  - cbn [show option_map fst] in K. injection K as K _. unfold corner, Qclt. rewrite K. reflexivity.
Qed.

(** A hierarchy computed with D4 connectivity holds D4 codes (3 = right), which MoveWaterIntoPits reads as
    D8 codes (3 = up): on a 4x1 terrain the routing leaves the raster. *)
Definition d4_lab : grid Z := fun x _ => if x =? 0 then 0 else 2 ^ 32 - 1.
Theorem C30_d4_hierarchy_misread_refuted : exists w h dem lab0 lab fd deps,
  valid_labels w h lab0 /\ has_coast D4 w h lab0 /\
  GetDepressionHierarchy D4 w h dem (fun _ => 0%nat) ex_sort [cells w h] lab0 (fun _ _ => 0) = Some (Ok (lab, fd, deps)) /\
  MoveWaterIntoPits lab fd w h (cells w h) (repeat 0%Qc (length deps)) (fun _ => 1%Qc) = Some Undef.
Proof.
  exists 4, 1, (of_rows [[0; 9; 5; 1]]), d4_lab. eexists _, _, _. split; [|split; [|split]].
  - intros [x y] _. unfold d4_lab, elev_at. cbn [fst snd]. destruct (x =? 0); auto.
  - exists (0, 0), (1, 0). unfold ocean_cell, land_cell, inside, in_raster, neighbours, adjacent, elev_at. cbn. repeat split; try lia; try congruence.
  - vm_compute. reflexivity.
  - vm_compute. reflexivity.
Qed.
Print Assumptions C30_d4_hierarchy_misread_refuted.

Print Assumptions C30_settles.
Print Assumptions C30_no_surface_water_left.
Print Assumptions C30_conserves_water.
Print Assumptions C30_watershed_balance.
Print Assumptions C30_schedule_independent.
Print Assumptions C30_on_hierarchy.
Print Assumptions C30_corner_keeps_water_refuted.
