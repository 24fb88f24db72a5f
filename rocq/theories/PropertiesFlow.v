(** C16-C19: D8 flow directions and D8 flow accumulation. *)
From Coq Require Import ZArith List Lia Bool Permutation.
From Verif Require Import Base Res RasterSpec RasterFacts FlowModel FlowSpec FlowProofs.
Open Scope Z_scope.

Definition of_rows (rows : list (list Z)) : grid Z := fun x y => nth (Z.to_nat x) (nth (Z.to_nat y) rows []) 0.
Definition to_rows (w h : Z) (g : grid Z) : list (list Z) :=
  map (fun y => map (fun x => g x y) (zrange 0 (Z.to_nat w))) (zrange 0 (Z.to_nat h)).

(** C16. In whatever order the cells are processed ([order] is any order covering the raster once), the
    call completes without reading outside the raster; NoData cells get 255, all others the right
    direction. *)
Theorem C16_d8_flow_directions : forall e nd w h order,
  Permutation order (cells w h) ->
  exists fd, d8_flow_directions e nd w h order = Ok fd /\
    forall x y, in_raster w h x y ->
      (e x y = nd -> fd x y = 255) /\
      (e x y <> nd -> 0 <= fd x y <= 8 /\ right_direction e w h x y (fd x y)).
Proof.
  intros e nd w h order Ho. destruct (d8_flow_directions_ok e nd w h order) as [fd [E H]].
  - intros [x y] Hc. apply cells_In. eapply Permutation_in; eauto.
  - exists fd. split; [exact E|]. intros x y Hin. destruct (H x y) as [H1 _].
    destruct H1 as [A B]; [eapply Permutation_in; [symmetry; exact Ho|apply cells_In; exact Hin]|].
    split; [exact A|]. intros Hn. destruct (B Hn) as [B1 [B2 _]]. auto.
Qed.

(** the right direction is unique, so the result does not depend on the order *)
Theorem C16_direction_unique : forall e w h x y d d', in_raster w h x y ->
  right_direction e w h x y d -> right_direction e w h x y d' -> d = d'.
Proof.
  intros e w h x y d d' Hin [E1 I1] [E2 I2].
  assert (T : forall d d' a b, toward d x y a b -> toward d' x y a b -> d = d').
  { intros a b p q H H'. inversion H; subst; inversion H'; subst; auto; lia. }
  destruct (isEdgeCell w h x y) eqn:HE.
  - apply on_edge_iff in HE; [|auto]. exact (T _ _ _ _ (E1 HE) (E2 HE)).
  - assert (Hn : ~ on_edge w h x y) by (rewrite on_edge_iff by auto; congruence).
    destruct (I1 Hin Hn) as [[-> A]|[a [b [A1 [A2 A3]]]]], (I2 Hin Hn) as [[-> B]|[a' [b' [B1 [B2 B3]]]]].
    + auto.
    + specialize (A _ _ _ B1). lia.
    + specialize (B _ _ _ A1). lia.
    + destruct (A3 _ _ _ B1) as [C1 C2], (B3 _ _ _ A1) as [C3 C4].
      assert (e a b = e a' b') by lia. specialize (C2 H). specialize (C4 (eq_sym H)).
      unfold preferred in *. destruct C2 as [[S1 S2]|[S1 [S2 S3]]], C4 as [[S4 S5]|[S4 [S5 S6]]]; try contradiction; [|lia].
      specialize (S2 S4). specialize (S5 S1). lia.
Qed.

Example C16_run : match d8_flow_directions (of_rows [[9;9;9;9];[9;5;3;9];[9;5;-1;9];[9;1;1;9]]) (-1) 4 4 (rev (scan 4 4)) with
  | Ok fd => to_rows 4 4 fd | _ => [] end = [[2; 3; 3; 4]; [1; 6; 7; 5]; [1; 5; 255; 5]; [8; 7; 7; 6]].
Proof. vm_compute. reflexivity. Qed.
Print Assumptions C16_d8_flow_directions.
Print Assumptions C16_direction_unique.

(** C17 (D8 part). Following the directions strictly descends, so no cell is ever revisited. *)
Theorem C17_d8_flow_acyclic : forall e nd w h order fd,
  Permutation order (cells w h) -> d8_flow_directions e nd w h order = Ok fd ->
  (forall p q, gives fd 255 w h p q -> e (fst q) (snd q) < e (fst p) (snd p)) /\
  (forall p, ~ looping fd 255 w h p).
Proof.
  intros e nd w h order fd Ho E. split.
  - intros p q. exact (directions_decrease e nd w h order fd p q Ho E).
  - exact (directions_acyclic e nd w h order fd Ho E).
Qed.
Print Assumptions C17_d8_flow_acyclic.

(** C18. For every raster of direction codes, and whatever the order of the dependency loop, the call
    terminates without out-of-range access; a data cell not downstream of a loop gets the number of
    data cells draining through it; one downstream of a loop gets the number of cells draining into it
    without touching a loop; NoData cells get -1. *)
Theorem C18_d8_flow_accum : forall fd fnd w h order,
  codes_ok fd fnd w h -> Permutation order (cells w h) ->
  exists area, d8_flow_accum fd fnd w h order = Some (Ok area) /\
    (forall p, data fd fnd w h p -> ~ below_loop fd fnd w h p -> upstream_count fd fnd w h p (area p)) /\
    (forall p, data fd fnd w h p -> below_loop fd fnd w h p -> loop_free_count fd fnd w h p (area p)) /\
    (forall p, in_raster w h (fst p) (snd p) -> fd (fst p) (snd p) = fnd -> area p = -1).
Proof.
  intros fd fnd w h order Hc Ho. destruct (accum_correct fd fnd w h Hc order Ho) as [area [E [G _]]].
  exists area. split; [exact E|exact G].
Qed.

(** On directions computed from a DEM there are no loops: every data cell gets its upstream count. *)
Theorem C18_directions_then_accum : forall e nd w h order order',
  Permutation order (cells w h) -> Permutation order' (cells w h) ->
  exists fd area, d8_flow_directions e nd w h order = Ok fd /\ d8_flow_accum fd 255 w h order' = Some (Ok area) /\
    forall x y, in_raster w h x y ->
      (e x y = nd -> area (x, y) = -1) /\
      (e x y <> nd -> upstream_count fd 255 w h (x, y) (area (x, y))).
Proof.
  intros e nd w h order order' Ho Ho'.
  destruct (C16_d8_flow_directions e nd w h order Ho) as [fd [E H]].
  destruct (C18_d8_flow_accum fd 255 w h order') as [area [E' [A1 [A2 A3]]]].
  - intros x y Hin Hn. destruct (H x y Hin) as [B1 B2]. destruct (Z.eq_dec (e x y) nd) as [C|C].
    + specialize (B1 C). congruence.
    + apply B2; auto.
  - exact Ho'.
  - exists fd, area. split; [exact E|]. split; [exact E'|]. intros x y Hin. destruct (H x y Hin) as [B1 B2]. split.
    + intros C. apply A3; [exact Hin|]. apply B1, C.
    + intros C. apply A1.
      * split; [exact Hin|]. cbn [fst snd]. destruct (B2 C) as [B3 _]. lia.
      * intros [q [L _]]. destruct (C17_d8_flow_acyclic e nd w h order fd Ho E) as [_ N]. exact (N q L).
Qed.

(** a raster with a loop at (0,0),(1,0), a cell below it, NoData at (3,1) *)
Example C18_run : match d8_flow_accum (of_rows [[5;1;1;1];[6;7;255;7];[4;5;0;1]]) 255 4 3 (rev (scan 4 3)) with
  | Some (Ok a) => to_rows 4 3 (fun x y => a (x, y)) | _ => [] end = [[0; 2; 2; 1]; [1; 2; -1; 1]; [1; 4; 7; 2]].
Proof. vm_compute. reflexivity. Qed.
Example C18_run_codes : codes_ok (of_rows [[5;1;1;1];[6;7;255;7];[4;5;0;1]]) 255 4 3.
Proof.
  intros x y [Hx Hy]. assert (x = 0 \/ x = 1 \/ x = 2 \/ x = 3) by lia. assert (y = 0 \/ y = 1 \/ y = 2) by lia.
  destruct H as [->|[->|[->| ->]]], H0 as [->|[->| ->]]; vm_compute; intuition congruence.
Qed.
Print Assumptions C18_d8_flow_accum.
Print Assumptions C18_directions_then_accum.

(** C19. The result is the same for every order of the loop iterations ... *)
Theorem C19_accum_order_independent : forall fd fnd w h order order' area area',
  codes_ok fd fnd w h -> Permutation order (cells w h) -> Permutation order' (cells w h) ->
  d8_flow_accum fd fnd w h order = Some (Ok area) -> d8_flow_accum fd fnd w h order' = Some (Ok area') ->
  forall x y, in_raster w h x y -> area (x, y) = area' (x, y).
Proof.
  intros fd fnd w h order order' area area' Hc Ho Ho' E E' x y Hin.
  destruct (accum_correct fd fnd w h Hc order Ho) as [a [Ea [Ga _]]].
  destruct (accum_correct fd fnd w h Hc order' Ho') as [b [Eb [Gb _]]].
  assert (a = area) by congruence. assert (b = area') by congruence. subst.
  exact (good_area_unique fd fnd w h Hc area area' Ga Gb (x, y) Hin).
Qed.

(** ... and for every interleaving of the threads' loads and stores in which no two increments of the
    same counter overlap ... *)
Definition increments_do_not_overlap (fd : grid Z) (fnd w h : Z) (sched : list access) : Prop :=
  forall m, exists L, filter (fun a => match dep_target fd fnd w h (acell a) with Some t => ceqb t m | None => false end) sched
                      = flat_map (fun c => [Ld c; St c]) L.

Theorem C19_accum_no_overlap : forall fd fnd w h sched order,
  codes_ok fd fnd w h -> interleaving fd fnd w h sched -> increments_do_not_overlap fd fnd w h sched ->
  Permutation order (cells w h) ->
  exists area area', d8_flow_accum_par fd fnd w h sched = Some (Ok area) /\ d8_flow_accum fd fnd w h order = Some (Ok area') /\
    forall x y, in_raster w h x y -> area (x, y) = area' (x, y).
Proof.
  intros fd fnd w h sched order Hc HI HN Ho.
  destruct (accum_par_correct fd fnd w h Hc sched HI HN) as [a [Ea Ga]].
  destruct (accum_correct fd fnd w h Hc order Ho) as [b [Eb [Gb _]]].
  exists a, b. split; [exact Ea|]. split; [exact Eb|]. intros x y Hin.
  exact (good_area_unique fd fnd w h Hc a b Ga Gb (x, y) Hin).
Qed.

(** ... but nothing in the code prevents overlapping increments, and then areas are silently wrong:
    a DEM, its own flow directions, and an interleaving of two rows for which the outlet (4,2) reports
    10 upstream cells instead of 13. *)
Definition dem19 : grid Z := of_rows
 [[9;9;9;9;9];
  [9;5;7;7;9];
  [9;3;2;1;0];
  [9;4;7;7;9];
  [9;6;8;8;9];
  [9;9;9;9;9]].
Definition fd19 : grid Z := of_rows
 [[2; 3; 3; 3; 4];
  [1; 6; 6; 6; 5];
  [1; 5; 5; 5; 5];
  [1; 4; 4; 4; 5];
  [1; 3; 2; 3; 5];
  [8; 7; 7; 7; 6]].
Definition sched19 : list access :=
  [Ld (1,1); Ld (1,2); St (1,1); St (1,2)] ++
  [Ld (2,1); St (2,1); Ld (3,1); St (3,1)] ++ [Ld (2,2); St (2,2); Ld (3,2); St (3,2)] ++
  flat_map (row_accesses fd19 255 5 6) [3; 4].

Theorem C19_accum_race_refuted :
  exists fd fnd w h sched area area' x y,
    codes_ok fd fnd w h /\ interleaving fd fnd w h sched /\
    d8_flow_accum fd fnd w h (cells w h) = Some (Ok area) /\
    d8_flow_accum_par fd fnd w h sched = Some (Ok area') /\
    in_raster w h x y /\ area (x, y) = 13 /\ area' (x, y) = 10.
Proof.
  exists fd19, 255, 5, 6, sched19.
  assert (Hc : codes_ok fd19 255 5 6).
  { intros x y [Hx Hy]. assert (x = 0 \/ x = 1 \/ x = 2 \/ x = 3 \/ x = 4) by lia. assert (y = 0 \/ y = 1 \/ y = 2 \/ y = 3 \/ y = 4 \/ y = 5) by lia.
    destruct H as [->|[->|[->|[->| ->]]]], H0 as [->|[->|[->|[->|[->| ->]]]]]; vm_compute; intuition congruence. }
  assert (HI : interleaving fd19 255 5 6 sched19).
  { split.
    - assert (F : Forall (fun a => 0 <= snd (acell a) < 6) sched19) by (vm_compute; repeat constructor; congruence).
      rewrite Forall_forall in F. exact F.
    - intros y Hy. assert (y = 0 \/ y = 1 \/ y = 2 \/ y = 3 \/ y = 4 \/ y = 5) by lia.
      destruct H as [->|[->|[->|[->|[->| ->]]]]]; vm_compute; reflexivity. }
  assert (D : forall r : option (res (cellt -> Z)), match r with Some (Ok a) => a (4, 2) | _ => -9 end <> -9 ->
     exists a, r = Some (Ok a) /\ match r with Some (Ok a) => a (4, 2) | _ => -9 end = a (4, 2)).
  { intros [[a| |]|]; try congruence. eauto. }
  destruct (D (d8_flow_accum fd19 255 5 6 (cells 5 6))) as [a [Ea Va]]; [vm_compute; discriminate|].
  destruct (D (d8_flow_accum_par fd19 255 5 6 sched19)) as [b [Eb Vb]]; [vm_compute; discriminate|].
  exists a, b, 4, 2. split; [exact Hc|]. split; [exact HI|]. split; [exact Ea|]. split; [exact Eb|].
  split; [unfold in_raster; lia|]. split.
  - rewrite <- Va. vm_compute. reflexivity.
  - rewrite <- Vb. vm_compute. reflexivity.
Qed.
(** and [fd19] is what d8_flow_directions computes from [dem19] *)
Example C19_fd19 : match d8_flow_directions dem19 (-1) 5 6 (cells 5 6) with Ok fd => to_rows 5 6 fd | _ => [] end = to_rows 5 6 fd19.
Proof. vm_compute. reflexivity. Qed.
(** the hypotheses of [C19_accum_no_overlap] are met by the schedule running one row after the other *)
Example C19_sequential : let sched := flat_map (row_accesses fd19 255 5 6) (zrange 0 6) in
  interleaving fd19 255 5 6 sched /\ increments_do_not_overlap fd19 255 5 6 sched.
Proof.
  cbn zeta. split.
  - split.
    + assert (F : Forall (fun a => 0 <= snd (acell a) < 6) (flat_map (row_accesses fd19 255 5 6) (zrange 0 6))) by (vm_compute; repeat constructor; congruence).
      rewrite Forall_forall in F. exact F.
    + intros y Hy. assert (y = 0 \/ y = 1 \/ y = 2 \/ y = 3 \/ y = 4 \/ y = 5) by lia.
      destruct H as [->|[->|[->|[->|[->| ->]]]]]; vm_compute; reflexivity.
  - intros m. set (cs := filter (fun c => match dep_target fd19 255 5 6 c with Some _ => true | None => false end) (scan 5 6)).
    exists (filter (fun c => match dep_target fd19 255 5 6 c with Some t => ceqb t m | None => false end) cs).
    replace (flat_map (row_accesses fd19 255 5 6) (zrange 0 6)) with (flat_map (fun c => [Ld c; St c]) cs) by (vm_compute; reflexivity).
    generalize cs. clear cs. induction cs as [|c cs IH]; [reflexivity|]. cbn [flat_map app filter acell].
    destruct (dep_target fd19 255 5 6 c) as [t|]; [|exact IH]. destruct (ceqb t m); [|exact IH].
    cbn [flat_map app]. rewrite IH. reflexivity.
Qed.
Print Assumptions C19_accum_order_independent.
Print Assumptions C19_accum_no_overlap.
Print Assumptions C19_accum_race_refuted.
