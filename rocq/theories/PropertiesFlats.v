(** C23, C24, C37, C38: flats and their resolution. *)
From Coq Require Import ZArith List Lia Bool Permutation.
From Verif Require Import Base Res BFS RasterSpec RasterFacts FlowModel FlowSpec FlowProofs FlatsModel FlatsSpec FlatsProofs FlatsProofs2 FlatsProofs3 PropertiesFlow.
Open Scope Z_scope.

(** value of a raster at a cell *)
Definition val (g : grid Z) (p : cell) : Z := g (fst p) (snd p).

Lemma order_inside w h order : Permutation order (cells w h) -> forall c, In c order <-> inside w h c.
Proof.
  intros Ho c. rewrite <- cells_inside. split; intros H; [exact (Permutation_in c Ho H)|exact (Permutation_in c (Permutation_sym Ho) H)].
Qed.

(** C23. For every raster and every order in which the cells are written, FindFlats completes without
    touching memory outside the raster and classifies every cell: -1 NoData, 1 no local gradient, 0 the
    rest. *)
Theorem C23_find_flats : forall e nd w h order, Permutation order (cells w h) ->
  exists flats, FindFlats e nd w h order = Ok flats /\ forall p, inside w h p ->
    (val flats p = -1 <-> ~ has_data e nd w h p) /\
    (val flats p = 1 <-> flat_cell e nd w h p) /\
    (val flats p = 0 <-> has_data e nd w h p /\ ~ flat_cell e nd w h p).
Proof.
  intros e nd w h order Ho. destruct (FindFlats_ok e nd w h order (order_inside w h order Ho)) as [st [E H]].
  exists st. split; auto. intros p Hp. pose proof (flat_cell_data e nd w h p) as FD. unfold val.
  destruct (H p Hp) as [[-> X]|[[-> X]|[-> [X Y]]]]; (split; [|split]); split; intros; try lia; try tauto.
Qed.

Definition dem23 : grid Z := of_rows
 [[9;9;9;9;9;9;9];
  [9;5;5;5;5;5;9];
  [9;5;5;5;5;5;3];
  [9;5;5;7;5;5;9];
  [9;9;9;9;9;-1;9];
  [9;4;4;9;9;9;9];
  [9;4;4;9;9;9;9];
  [9;9;9;9;9;9;9]].
Example C23_run : match FindFlats dem23 (-1) 7 8 (rev (scan 7 8)) with Ok fl => to_rows 7 8 fl | _ => [] end =
 [[0; 0; 0; 0; 0; 0; 0]; [0; 1; 1; 1; 1; 0; 0]; [0; 1; 1; 1; 1; 0; 0]; [0; 1; 1; 0; 0; 0; 0];
  [0; 0; 0; 0; 0; -1; 0]; [0; 1; 1; 0; 0; 0; 0]; [0; 1; 1; 0; 1; 1; 0]; [0; 0; 0; 0; 0; 0; 0]].
Proof. vm_compute. reflexivity. Qed.
Print Assumptions C23_find_flats.

(** C24. For every raster and all schedules of the two parallel loops GetFlatMask completes (no access
    outside the raster or the height vector, no endless loop); the label of a cell is positive exactly if
    the cell belongs to a flat with an outlet, labels agree exactly on cells connected through equal
    elevation; the mask holds the specified increments. *)
Theorem C24_get_flat_mask : forall e nd w h o1 o2, Permutation o1 (cells w h) -> Permutation o2 (cells w h) ->
  exists mask labels, GetFlatMask e nd w h o1 o2 = Some (Ok (mask, labels)) /\
    (forall p, inside w h p -> mask_value e nd w h (flat_cell e nd w h) p (val mask p)) /\
    (forall p, inside w h p -> 0 <= val labels p) /\
    (forall p, inside w h p -> (0 < val labels p <-> drainable e nd w h (flat_cell e nd w h) p)) /\
    (forall p q, inside w h p -> inside w h q -> drainable e nd w h (flat_cell e nd w h) p ->
       (val labels p = val labels q <-> same_flat e nd w h p q)).
Proof.
  intros e nd w h o1 o2 H1 H2.
  destruct (GetFlatMask_ok e nd w h o1 o2 (order_inside w h o1 H1) (order_inside w h o2 H2)) as [mask [labels [E [G1 [G2 [G3 G4]]]]]].
  exists mask, labels. unfold val. split; [auto|]. split; [auto|]. split; [auto|]. split; [auto|].
  intros p q _ _ Hp. rewrite <- (G4 p q Hp). split; congruence.
Qed.

(** C24. The increments drain: they are zero outside outlets and drainable flats, 2 at outlets, and
    every flat cell of a drainable flat touches a cell of the same flat (the same label) with a strictly
    smaller increment. *)
Theorem C24_mask_drains : forall e nd w h o1 o2 mask labels,
  Permutation o1 (cells w h) -> Permutation o2 (cells w h) ->
  GetFlatMask e nd w h o1 o2 = Some (Ok (mask, labels)) ->
  let flat := flat_cell e nd w h in
  forall p, has_data e nd w h p ->
    0 <= val mask p /\
    (0 < val mask p <-> outlet e nd w h flat p \/ (flat p /\ drainable e nd w h flat p)) /\
    (outlet e nd w h flat p -> val mask p = 2) /\
    (flat p -> drainable e nd w h flat p ->
       exists q, touching p q /\ elev_at e q = elev_at e p /\ val labels q = val labels p /\ val mask q < val mask p).
Proof.
  intros e nd w h o1 o2 mask labels H1 H2 E flat p Hp.
  destruct (GetFlatMask_ok e nd w h o1 o2 (order_inside w h o1 H1) (order_inside w h o2 H2)) as [mask' [labels' [E' G]]].
  rewrite E in E'. injection E' as <- <-. fold flat in G. destruct G as [G1 [G2 [G3 G4]]].
  assert (FD : forall p, flat p -> has_data e nd w h p) by apply flat_cell_data.
  assert (DEC : forall p, flat p \/ ~ flat p).
  { intros q. destruct (inside_dec w h q) as [Hq|Hq]; [|right; intros F; apply Hq; exact (proj1 (proj1 F))].
    destruct (FindFlats_ok e nd w h o1 (order_inside w h o1 H1)) as [st [_ H]].
    destruct (H q Hq) as [[_ X]|[[_ X]|[_ [_ X]]]]; auto. }
  split; [eapply (mask_value_nonneg e nd w h flat); auto; apply G1; apply Hp|].
  split; [apply (mask_positive e nd w h flat) with (mask := val mask); auto|].
  split.
  - intros Ho. pose proof (G1 p (proj1 Hp)) as M. unfold val.
    destruct M as [[t [T M]]|[T _]]; [|exfalso; apply (T 0%nat); apply fo_0; auto].
    assert (t = 0%nat) by (assert (t <= 0)%nat by (apply (proj2 T); apply fo_0; auto); lia). subst t.
    destruct M as [[a [b [A _]]]|[_ ->]]; [|reflexivity]. exfalso. destruct A as [A _].
    apply from_high_flat in A. destruct Ho as [_ [N _]]. contradiction.
  - intros Hf Hd. destruct (mask_descends e nd w h flat DEC FD (val mask) G1 p Hf Hd) as [q [Hs Hm]].
    exists q. pose proof Hs as Hs'. destruct Hs' as [A [B [T Ee]]]. split; auto. split; auto. split; auto.
    apply G4; auto. apply sflat_step; auto.
Qed.

(** C24. The mask does not depend on the schedules; neither does the partition into labels. *)
Theorem C24_schedule_independent : forall e nd w h o1 o2 o1' o2' mask labels mask' labels',
  Permutation o1 (cells w h) -> Permutation o2 (cells w h) ->
  Permutation o1' (cells w h) -> Permutation o2' (cells w h) ->
  GetFlatMask e nd w h o1 o2 = Some (Ok (mask, labels)) ->
  GetFlatMask e nd w h o1' o2' = Some (Ok (mask', labels')) ->
  forall p q, inside w h p -> inside w h q ->
    val mask p = val mask' p /\ (val labels p = 0 <-> val labels' p = 0) /\
    (val labels p = val labels q <-> val labels' p = val labels' q).
Proof.
  intros e nd w h o1 o2 o1' o2' mask labels mask' labels' H1 H2 H3 H4 E E' p q Hp Hq.
  destruct (C24_get_flat_mask e nd w h o1 o2 H1 H2) as [m [l [Em [A1 [A2 [A3 A4]]]]]].
  destruct (C24_get_flat_mask e nd w h o1' o2' H3 H4) as [m' [l' [Em' [B1 [B2 [B3 B4]]]]]].
  rewrite E in Em. injection Em as <- <-. rewrite E' in Em'. injection Em' as <- <-.
  split; [eapply mask_value_unique; [apply A1|apply B1]; auto|].
  pose proof (A2 p Hp). pose proof (A2 q Hq). pose proof (B2 p Hp). pose proof (B2 q Hq).
  pose proof (A3 p Hp). pose proof (A3 q Hq). pose proof (B3 p Hp). pose proof (B3 q Hq).
  assert (PP : 0 < val labels p <-> 0 < val labels' p) by tauto.
  assert (PQ : 0 < val labels q <-> 0 < val labels' q) by tauto.
  split; [lia|].
  destruct (Z.eq_dec (val labels p) 0) as [Z1|Z1].
  - assert (Z2 : val labels' p = 0) by lia. rewrite Z1, Z2. lia.
  - assert (D : drainable e nd w h (flat_cell e nd w h) p) by (apply A3; auto; lia).
    rewrite (A4 p q Hp Hq D), (B4 p q Hp Hq D). tauto.
Qed.

Example C24_run : match GetFlatMask dem23 (-1) 7 8 (rev (scan 7 8)) (scan 7 8) with
  | Some (Ok (mask, labels)) => (to_rows 7 8 mask, to_rows 7 8 labels) | _ => ([], []) end =
 ([[0; 0; 0; 0; 0; 0; 0]; [0; 8; 6; 6; 4; 2; 0]; [0; 8; 6; 4; 4; 2; 0]; [0; 8; 6; 0; 2; 2; 0];
   [0; 0; 0; 0; 0; 0; 0]; [0; 0; 0; 2; 2; 2; 2]; [0; 0; 0; 2; 4; 4; 2]; [0; 0; 0; 2; 2; 2; 2]],
  [[2; 2; 2; 2; 2; 2; 2]; [2; 1; 1; 1; 1; 1; 2]; [2; 1; 1; 1; 1; 1; 0]; [2; 1; 1; 0; 1; 1; 2];
   [2; 2; 2; 2; 2; 0; 2]; [2; 0; 0; 2; 2; 2; 2]; [2; 0; 0; 2; 2; 2; 2]; [2; 2; 2; 2; 2; 2; 2]]).
Proof. vm_compute. reflexivity. Qed.
Print Assumptions C24_get_flat_mask.
Print Assumptions C24_mask_drains.
Print Assumptions C24_schedule_independent.

(** C37. ResolveFlatsEpsilon on a floating point DEM (elevations numbered in increasing order, [top] the
    number of infinity), for all schedules: cells outside drainable flats and edge cells are unchanged,
    the others are raised by their increment, and afterwards every flat cell of a drainable flat has a
    strictly lower neighbour, unless it reached infinity. *)
Theorem C37_epsilon_drains : forall top e nd w h o1 o2 o3,
  Permutation o1 (cells w h) -> Permutation o2 (cells w h) -> Permutation o3 (interior_cells w h) ->
  let flat := flat_cell e nd w h in
  exists e', ResolveFlatsEpsilon (next_float top) e nd w h o1 o2 o3 = Some (Ok e') /\
    forall p, inside w h p ->
      (~ drainable e nd w h flat p \/ on_edge w h (fst p) (snd p) -> val e' p = val e p) /\
      (forall m, mask_value e nd w h flat p m -> val e p + m <= top ->
         (drainable e nd w h flat p -> ~ on_edge w h (fst p) (snd p) -> val e' p = val e p + m) /\
         (flat p -> drainable e nd w h flat p -> exists q, touching p q /\ elev_at e q = elev_at e p /\ val e' q < val e' p)).
Proof.
  intros top e nd w h o1 o2 o3 H1 H2 H3 flat. unfold ResolveFlatsEpsilon.
  destruct (GetFlatMask_ok e nd w h o1 o2 (order_inside w h o1 H1) (order_inside w h o2 H2)) as [mask [labels [E G]]].
  rewrite E. cbn [bindF fst snd]. fold flat in G.
  assert (FD : forall p, flat p -> has_data e nd w h p) by apply flat_cell_data.
  assert (DEC : forall p, flat p \/ ~ flat p).
  { intros q. destruct (inside_dec w h q) as [Hq|Hq]; [|right; intros F; apply Hq; exact (proj1 (proj1 F))].
    destruct (FindFlats_ok e nd w h o1 (order_inside w h o1 H1)) as [st [_ H]].
    destruct (H q Hq) as [[_ X]|[[_ X]|[_ [_ X]]]]; auto. }
  assert (FI : forall p, flat p -> ~ on_edge w h (fst p) (snd p)) by (intros p F; apply F).
  destruct (alter_altered e nd w h flat mask labels G (next_float top) o3 H3) as [e' [Ea HA]].
  rewrite Ea. exists e'. split; [reflexivity|]. intros p Hp. split; [intros X; apply (proj2 (HA p Hp) X)|].
  intros m Hm Ht. assert (m = mask @ p) by (eapply mask_value_unique; [exact Hm|apply G; auto]). subst m.
  split.
  - intros D NE. unfold val. rewrite (proj1 (HA p Hp) D NE). unfold val in Ht.
    pose proof (mask_pos e nd w h flat mask labels FD G p Hp).
    rewrite next_float_iter by lia. lia.
  - intros F D. destruct (altered_descends e nd w h flat mask labels DEC FD FI G top e' p HA F D Ht) as [q [Hs Hq]].
    exists q. destruct Hs as [_ [_ [T Ee]]]. auto.
Qed.

(** C37. On an integer DEM the same call lowers positive elevations instead (infinity() is 0 for integer
    types): whenever the increment does not exceed the elevation, a flat cell of a drainable flat ends up
    strictly below the neighbour it should drain to. *)
Theorem C37_epsilon_integer_inverted : forall e nd w h o1 o2 o3,
  Permutation o1 (cells w h) -> Permutation o2 (cells w h) -> Permutation o3 (interior_cells w h) ->
  let flat := flat_cell e nd w h in
  exists e', ResolveFlatsEpsilon next_int e nd w h o1 o2 o3 = Some (Ok e') /\
    forall p m, flat p -> drainable e nd w h flat p -> mask_value e nd w h flat p m -> m <= val e p ->
      val e' p = val e p - m /\
      exists q mq, touching p q /\ elev_at e q = elev_at e p /\ mask_value e nd w h flat q mq /\ mq < m /\ val e' p < val e' q.
Proof.
  intros e nd w h o1 o2 o3 H1 H2 H3 flat. unfold ResolveFlatsEpsilon.
  destruct (GetFlatMask_ok e nd w h o1 o2 (order_inside w h o1 H1) (order_inside w h o2 H2)) as [mask [labels [E G]]].
  rewrite E. cbn [bindF fst snd]. fold flat in G.
  assert (FD : forall p, flat p -> has_data e nd w h p) by apply flat_cell_data.
  assert (DEC : forall p, flat p \/ ~ flat p).
  { intros q. destruct (inside_dec w h q) as [Hq|Hq]; [|right; intros F; apply Hq; exact (proj1 (proj1 F))].
    destruct (FindFlats_ok e nd w h o1 (order_inside w h o1 H1)) as [st [_ H]].
    destruct (H q Hq) as [[_ X]|[[_ X]|[_ [_ X]]]]; auto. }
  assert (FI : forall p, flat p -> ~ on_edge w h (fst p) (snd p)) by (intros p F; apply F).
  destruct (alter_altered e nd w h flat mask labels G next_int o3 H3) as [e' [Ea HA]].
  rewrite Ea. exists e'. split; [reflexivity|]. intros p m F D Hm Ht.
  assert (Hp : inside w h p) by (exact (proj1 (FD p F))).
  assert (m = mask @ p) by (eapply mask_value_unique; [exact Hm|apply G; auto]). subst m.
  destruct (altered_int_rises e nd w h flat mask labels DEC FD FI G e' p HA F D Ht) as [q [Hs [Hlt [Hr He]]]].
  split; [exact He|]. exists q, (mask @ q). destruct Hs as [_ [Hq [T Ee]]].
  split; auto. split; auto. split; [apply G; apply Hq|]. auto.
Qed.

(** a flat draining through (5,1): float vs. integer *)
Definition dem37 : grid Z := of_rows [[9;9;9;9;9;9];[9;7;7;7;7;3];[9;9;9;9;9;9]].
Example C37_run_float : match ResolveFlatsEpsilon (next_float 1000) dem37 (-1) 6 3 (scan 6 3) (scan 6 3) (interior_cells 6 3) with
  | Some (Ok g) => to_rows 6 3 g | _ => [] end = [[9;9;9;9;9;9];[9;15;13;11;9;3];[9;9;9;9;9;9]].
Proof. vm_compute. reflexivity. Qed.
Example C37_run_int : match ResolveFlatsEpsilon next_int dem37 (-1) 6 3 (scan 6 3) (scan 6 3) (interior_cells 6 3) with
  | Some (Ok g) => to_rows 6 3 g | _ => [] end = [[9;9;9;9;9;9];[9;0;1;3;5;3];[9;9;9;9;9;9]].
Proof. vm_compute. reflexivity. Qed.
Print Assumptions C37_epsilon_drains.
Print Assumptions C37_epsilon_integer_inverted.

(** C38. barnes_flat_resolution_d8 without alteration: NoData cells 255; cells with a local gradient keep
    their D8 direction; cells of flats without outlet keep 0; every other flat cell points to the
    neighbour of its flat with the smallest increment, which is strictly smaller than its own. *)
Theorem C38_flat_directions : forall top e nd w h o1 o2 o3,
  Permutation o1 (cells w h) -> Permutation o2 (interior_cells w h) ->
  let flat := no_flow_cell e nd w h in
  exists fd mask, barnes_flat_resolution_d8 top e nd w h false o1 o2 o3 = Some (Ok (e, fd)) /\
    (forall p, inside w h p -> mask_value e nd w h flat p (val mask p)) /\
    forall p, inside w h p ->
      (elev_at e p = nd -> val fd p = 255) /\
      (has_data e nd w h p -> ~ flat p -> 1 <= val fd p <= 8 /\ right_direction e w h (fst p) (snd p) (val fd p)) /\
      (flat p -> ~ drainable e nd w h flat p -> val fd p = 0) /\
      (flat p -> drainable e nd w h flat p -> exists q,
         toward (val fd p) (fst p) (snd p) (fst q) (snd q) /\ level_step e nd w h p q /\ val mask q < val mask p /\
         forall n r, toward n (fst p) (snd p) (fst r) (snd r) -> level_step e nd w h p r ->
           val mask q <= val mask r /\ (val mask q = val mask r -> preferred (val fd p) n)).
Proof.
  intros top e nd w h o1 o2 o3 H1 H2 flat. unfold barnes_flat_resolution_d8.
  destruct (d8_flow_directions_ok e nd w h o1) as [fd [E _]].
  { intros [a b] Hab. apply cells_In. eapply Permutation_in; eauto. }
  rewrite E. cbn [bindF].
  destruct (resolve_flats_barnes_ok e nd w h o1 fd H1 E) as [S [mask [labels [Er G]]]].
  rewrite Er. cbn [bindF fst snd]. fold flat in G, S.
  assert (FD : forall p, flat p -> has_data e nd w h p) by apply no_flow_data.
  assert (DEC : forall p, flat p \/ ~ flat p).
  { intros q. destruct (inside_dec w h q) as [Hq|Hq]; [|right; intros F; apply Hq; exact (proj1 (proj1 F))].
    destruct (S q Hq) as [_ [X _]]. rewrite <- X. lia. }
  assert (FI : forall p, flat p -> ~ on_edge w h (fst p) (snd p)) by (intros p F; apply F).
  destruct (d8_flow_flats_ok mask labels w h o2 fd) as [fd' [E' H]].
  { eapply Permutation_NoDup; [symmetry; eauto|apply interior_cells_NoDup]. }
  { intros c Hc. apply interior_cells_In. eapply Permutation_in; eauto. }
  { intros p Hp. apply (mask_pos e nd w h flat mask labels FD G p Hp). }
  rewrite E'. cbn [bindF]. exists fd', mask. split; [reflexivity|]. split; [apply G|].
  intros p Hp. destruct (S p Hp) as [S1 [S2 S3]]. destruct (H p) as [HH1 HH2]. unfold val.
  destruct G as [G1 [G2 [G3 G4]]].
  split; [|split; [|split]].
  - intros En. assert (X : fd @ p = 255) by (apply S1; intros [_ N]; contradiction). rewrite HH2 by (right; lia). exact X.
  - intros Hd Hf. destruct (S3 Hd) as [R1 R2]. assert (fd @ p <> 0) by (rewrite S2; auto).
    rewrite HH2 by auto. split; [lia|auto].
  - intros Hf Hnd. assert (F0 : fd @ p = 0) by (apply S2; auto).
    assert (Io : In p o2).
    { eapply Permutation_in; [symmetry; eauto|]. apply interior_cells_In. split; auto. }
    assert (ZN : forall q, inside w h q -> ~ drainable e nd w h flat q -> mask @ q = 0).
    { intros q Hq Nq. destruct (G1 q Hq) as [[t [T _]]|[_ Z0]]; auto. exfalso. apply Nq. eapply from_outlet_drainable. apply T. }
    destruct (HH1 Io F0) as [[D0 _]|[xd [yd [T [L [M _]]]]]]; auto. exfalso.
    assert (Tq : touching p (xd, yd)) by (apply (toward_touching (fd' @ p)); exact T).
    assert (Hq : inside w h (xd, yd)) by (eapply interior_touching; eauto).
    rewrite (ZN p Hp Hnd) in M. pose proof (mask_pos e nd w h flat mask labels FD (conj G1 (conj G2 (conj G3 G4))) (xd, yd) Hq) as N.
    cbn [fst snd] in N. lia.
  - intros Hf Hd. assert (F0 : fd @ p = 0) by (apply S2; auto).
    assert (Io : In p o2).
    { eapply Permutation_in; [symmetry; eauto|]. apply interior_cells_In. split; auto. }
    destruct (mask_descends e nd w h flat DEC FD (fun p => mask @ p) G1 p Hf Hd) as [q0 [Hs0 Hm0]].
    assert (SL : forall q, level_step e nd w h p q -> labels @ q = labels @ p).
    { intros q Hs. apply G4; auto. apply sflat_step; auto. }
    destruct (HH1 Io F0) as [[D0 X]|[xd [yd [T [L [M X]]]]]].
    + exfalso. pose proof Hs0 as Hs0'. destruct Hs0' as [_ [_ [T0 _]]]. apply touching_toward in T0. destruct T0 as [d [_ T0]].
      specialize (X d _ _ T0 (SL q0 Hs0)). lia.
    + exists (xd, yd). cbn [fst snd]. split; [exact T|].
      assert (Sd : same_flat e nd w h p (xd, yd)) by (apply G4; auto).
      split; [|split; [exact M|]].
      * destruct (sflat_data _ _ _ _ _ _ Sd) as [A B]. split; auto. split; auto. split; [|eapply sflat_elev; eauto].
        apply (toward_touching (fd' @ p)). exact T.
      * intros n r Tr Hs. apply X; auto.
Qed.

(** C38. The resolved directions never loop, and from every flat cell with an outlet the water reaches an
    outlet of the same flat. *)
Theorem C38_flat_directions_drain : forall top e nd w h o1 o2 o3 e' fd,
  Permutation o1 (cells w h) -> Permutation o2 (interior_cells w h) ->
  barnes_flat_resolution_d8 top e nd w h false o1 o2 o3 = Some (Ok (e', fd)) ->
  let flat := no_flow_cell e nd w h in
  (forall p, ~ looping fd 255 w h p) /\
  (forall p, flat p -> drainable e nd w h flat p ->
     exists q, passes fd 255 w h p q /\ outlet e nd w h flat q /\ same_flat e nd w h p q).
Proof.
  intros top e nd w h o1 o2 o3 e' fd H1 H2 E flat.
  destruct (C38_flat_directions top e nd w h o1 o2 o3 H1 H2) as [fd0 [mask [E0 [HM H]]]].
  rewrite E in E0. injection E0 as -> <-. fold flat in H, HM.
  assert (DEC : forall p, flat p \/ ~ flat p).
  { intros q. destruct (inside_dec w h q) as [Hq|Hq]; [|right; intros F; apply Hq; exact (proj1 (proj1 F))].
    destruct (d8_flow_directions_ok e nd w h o1) as [fd1 [E1 _]].
    { intros [a b] Hab. apply cells_In. eapply Permutation_in; eauto. }
    destruct (resolve_flats_barnes_ok e nd w h o1 fd1 H1 E1) as [S _].
    destruct (S q Hq) as [_ [X _]]. unfold flat. rewrite <- X. lia. }
  assert (TU : forall d p q q', toward d (fst p) (snd p) (fst q) (snd q) -> toward d (fst p) (snd p) (fst q') (snd q') -> q = q').
  { intros d p [a b] [a' b'] T T'. cbn [fst snd] in *. apply toward_iff in T. apply toward_iff in T'. destruct T as [_ [-> ->]], T' as [_ [-> ->]]. reflexivity. }
  assert (DR : forall p, flat p -> has_data e nd w h p) by apply no_flow_data.
  (* every step decreases (elevation, increment) *)
  assert (D : forall p q, gives fd 255 w h p q -> elev_at e q < elev_at e p \/ (elev_at e q = elev_at e p /\ val mask q < val mask p)).
  { intros p q [[Hp Hpd] [[Hq Hqd] T]]. destruct (H p Hp) as [A1 [A2 [A3 A4]]].
    assert (Dp : has_data e nd w h p) by (split; [exact Hp|]; intros En; apply Hpd; apply A1; exact En).
    destruct (DEC p) as [Hf|Hf].
    - assert (DD : drainable e nd w h flat p \/ ~ drainable e nd w h flat p).
      { destruct (HM p Hp) as [[t [Tt _]]|[Tt _]]; [left; eapply from_outlet_drainable; apply Tt|].
        right. intros X. destruct (drainable_reached e nd w h flat DEC p Hf X) as [n Hn]. eapply Tt; eauto. }
      destruct DD as [Hd|Hd]; [|specialize (A3 Hf Hd); unfold val in A3; rewrite A3 in T; inversion T].
      destruct (A4 Hf Hd) as [q' [T' [Hs [Hm _]]]]. rewrite <- (TU _ _ _ _ T T') in Hs, Hm. right. split; auto. symmetry. apply Hs.
    - destruct (A2 Dp Hf) as [R1 [R2 R3]]. left.
      destruct (isEdgeCell w h (fst p) (snd p)) eqn:HE.
      + apply on_edge_iff in HE; auto. specialize (R2 HE). exfalso.
        apply toward_iff in T. apply toward_iff in R2. destruct T as [_ [T1 T2]], R2 as [_ [R4 R5]]. unfold val in *.
        destruct p as [x y], q as [x' y']. cbn [fst snd] in *.
        assert (x' = x + outward x w) by lia. assert (y' = y + outward y h) by lia.
        unfold outward, on_edge, in_raster, inside in *. cbn [fst snd] in *.
        destruct (Z.eqb_spec x 0); destruct (Z.eqb_spec y 0); destruct (Z.eqb_spec x (w - 1)); destruct (Z.eqb_spec y (h - 1)); lia.
      + apply edge_false in HE; auto. destruct (R3 Hp HE) as [[R0 _]|[xd [yd [Td [Hlt _]]]]]; [lia|].
        assert (EQ : q = (xd, yd)) by (eapply TU; [exact T|exact Td]). subst q. exact Hlt. }
  split.
  - intros p [q [Hpq Hqp]].
    assert (PD : forall a b, passes fd 255 w h a b -> a = b \/ elev_at e b < elev_at e a \/ (elev_at e b = elev_at e a /\ val mask b < val mask a)).
    { intros a b P. induction P as [a|a b c P IH Gv]; auto. apply D in Gv. right.
      destruct IH as [->|IH]; lia. }
    apply D in Hqp. destruct (PD p q Hpq) as [->|X]; lia.
  - assert (IND : forall (n : nat) p, val mask p <= Z.of_nat n -> flat p -> drainable e nd w h flat p ->
       exists q, passes fd 255 w h p q /\ outlet e nd w h flat q /\ same_flat e nd w h p q).
    { induction n as [|n IH]; intros p Hn Hf Hd; pose proof (DR p Hf) as Hpd; destruct (H p (proj1 Hpd)) as [_ [_ [_ A4]]];
        destruct (A4 Hf Hd) as [q [T [Hs [Hm _]]]].
      - assert (0 <= val mask q); [|lia]. eapply (mask_value_nonneg e nd w h flat DR). apply HM. apply Hs.
      - assert (Gv : gives fd 255 w h p q).
        { assert (N : forall r, has_data e nd w h r -> val fd r <> 255).
          { intros r Hr. destruct (H r (proj1 Hr)) as [_ [B2 [B3 B4]]]. destruct (DEC r) as [Fr|Fr]; [|specialize (B2 Hr Fr); lia].
            assert (DD : drainable e nd w h flat r \/ ~ drainable e nd w h flat r).
            { destruct (HM r (proj1 Hr)) as [[t [Tt _]]|[Tt _]]; [left; eapply from_outlet_drainable; apply Tt|].
              right. intros X. destruct (drainable_reached e nd w h flat DEC r Fr X) as [k Hk]. eapply Tt; eauto. }
            destruct DD as [Dr|Dr]; [|rewrite (B3 Fr Dr); lia].
            destruct (B4 Fr Dr) as [s [Ts _]]. apply toward_iff in Ts. lia. }
          destruct Hs as [A [B _]]. split; [split; [apply A|apply N; auto]|]. split; [split; [apply B|apply N; auto]|exact T]. }
        destruct (DEC q) as [Fq|Fq].
        + destruct (IH q) as [r [P [Ho Sr]]]; auto; [lia|eapply drainable_flat; eauto; apply sflat_step; auto|].
          exists r. split; [|split; auto; eapply sflat_left; eauto].
          clear - Gv P. induction P as [q|q r s P IHP Gs]; [|eapply passes_on; [apply IHP; auto|exact Gs]].
          eapply passes_on; [apply passes_here|exact Gv].
        + exists q. split; [eapply passes_on; [apply passes_here|exact Gv]|]. split; [|apply sflat_step; auto].
          split; [apply Hs|]. split; auto. exists p. split; auto. apply lstep_sym; auto. }
    intros p Hf Hd. apply (IND (Z.to_nat (val mask p))); auto.
    assert (0 <= val mask p); [|lia]. eapply (mask_value_nonneg e nd w h flat DR). apply HM. apply (DR p Hf).
Qed.

(** C38. With alteration: drained flats have a direction afterwards, unless the raised elevation reached
    infinity or the NoData value. *)
Theorem C38_altered_directions : forall top e nd w h o1 o2 o3,
  Permutation o1 (cells w h) -> Permutation o2 (interior_cells w h) -> Permutation o3 (cells w h) ->
  let flat := no_flow_cell e nd w h in
  exists e' fd, barnes_flat_resolution_d8 top e nd w h true o1 o2 o3 = Some (Ok (e', fd)) /\
    (forall p, inside w h p -> ~ drainable e nd w h flat p \/ on_edge w h (fst p) (snd p) -> val e' p = val e p) /\
    (forall p, inside w h p -> val e' p <> nd -> right_direction e' w h (fst p) (snd p) (val fd p)) /\
    forall p m, flat p -> drainable e nd w h flat p -> mask_value e nd w h flat p m -> val e p + m <= top ->
      val e' p = val e p + m /\ (val e p + m <> nd -> 1 <= val fd p <= 8).
Proof.
  intros top e nd w h o1 o2 o3 H1 H2 H3 flat. unfold barnes_flat_resolution_d8.
  destruct (d8_flow_directions_ok e nd w h o1) as [fd [E _]].
  { intros p Hab. apply cells_In. destruct p as [a b]. exact (Permutation_in (a, b) H1 Hab). }
  rewrite E. cbn [bindF].
  destruct (resolve_flats_barnes_ok e nd w h o1 fd H1 E) as [S [mask [labels [Er G]]]].
  rewrite Er. cbn [bindF fst snd]. fold flat in G, S.
  assert (FD : forall p, flat p -> has_data e nd w h p) by apply no_flow_data.
  assert (DEC : forall p, flat p \/ ~ flat p).
  { intros q. destruct (inside_dec w h q) as [Hq|Hq]; [|right; intros F; apply Hq; exact (proj1 (proj1 F))].
    destruct (S q Hq) as [_ [X _]]. rewrite <- X. lia. }
  assert (FI : forall p, flat p -> ~ on_edge w h (fst p) (snd p)) by (intros p F; apply F).
  destruct (alter_altered e nd w h flat mask labels G (next_float top) o2 H2) as [e' [Ea HA]].
  rewrite Ea. cbn [bindF].
  destruct (C16_d8_flow_directions e' nd w h o3 H3) as [fd' [E' H]]. rewrite E'. cbn [bindF].
  exists e', fd'. split; [reflexivity|]. split; [intros p Hp X; apply (proj2 (HA p Hp) X)|].
  split; [intros p Hp Hn; apply (H (fst p) (snd p) Hp); exact Hn|].
  intros p m Hf Hd Hm Ht. assert (Hp : inside w h p) by exact (proj1 (FD p Hf)).
  assert (m = mask @ p) by (eapply mask_value_unique; [exact Hm|apply G; auto]). subst m.
  pose proof (mask_pos e nd w h flat mask labels FD G p Hp).
  assert (Ep : e' @ p = e @ p + mask @ p).
  { rewrite (proj1 (HA p Hp) Hd (FI p Hf)). unfold val in Ht. rewrite next_float_iter by lia. lia. }
  split; [exact Ep|]. intros Hn. unfold val in *. rewrite <- Ep in Hn.
  destruct (proj2 (H (fst p) (snd p) Hp) Hn) as [R1 [_ R2]].
  destruct (R2 Hp (FI p Hf)) as [[R0 R]|[xd [yd [T _]]]].
  - exfalso. destruct (altered_descends e nd w h flat mask labels DEC FD FI G top e' p HA Hf Hd Ht) as [q [Hs Hq]].
    destruct Hs as [_ [_ [T _]]]. apply touching_toward in T. destruct T as [d [_ T]]. specialize (R d _ _ T). lia.
  - apply toward_iff in T. lia.
Qed.

Example C38_run : match barnes_flat_resolution_d8 1000 dem23 (-1) 7 8 false (scan 7 8) (interior_cells 7 8) [] with
  | Some (Ok (_, fd)) => to_rows 7 8 fd | _ => [] end =
 [[2; 3; 3; 3; 3; 3; 4]; [1; 5; 6; 5; 5; 6; 5]; [1; 5; 5; 6; 5; 5; 5]; [1; 5; 4; 1; 6; 7; 5];
  [1; 7; 7; 8; 5; 255; 5]; [1; 0; 0; 1; 4; 3; 5]; [1; 0; 0; 1; 1; 3; 5]; [8; 7; 7; 7; 7; 7; 6]].
Proof. vm_compute. reflexivity. Qed.
Print Assumptions C38_flat_directions.
Print Assumptions C38_flat_directions_drain.
Print Assumptions C38_altered_directions.
