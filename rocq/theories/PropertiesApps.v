(** C80, C81: the programs rd_d8_flowdirs, rd_flood_for_flowdirs and rd_loop_check. *)
From Coq Require Import ZArith List Lia Bool Permutation.
From Verif Require Import Base Res RasterSpec RasterFacts FlowSpec FlowModel FlowProofs FlatsSpec FlatsModel FlatsProofs FlatsProofs3
  PFModel PropertiesPF PropertiesFlow PropertiesFlats AppsModel AppsSpec AppsProofs.
Open Scope Z_scope.

(** C80. rd_d8_flowdirs on any DEM, for every tie-breaking of the queue and every thread schedule: the
    directions are over the minimax-filled surface [r]; a cell is NoData in the output iff it is in [r];
    every other cell has a direction, which never leads upwards in [r]; there are no loops; and from
    every data cell the directions lead off the raster or into NoData. *)
Theorem C80_every_cell_drains : forall tb top e nd w h o1 o2, 0 < w -> 0 < h ->
  Permutation o1 (cells w h) -> Permutation o2 (interior_cells w h) ->
  exists r fd, rd_d8_flowdirs tb top e nd w h o1 o2 = Some (Ok (r, fd)) /\
    (forall x y, in_raster w h x y -> drainage_level D8 w h e x y (r x y)) /\
    (forall p, inside w h p -> (elev_at r p = nd -> fd (fst p) (snd p) = 255) /\
                               (elev_at r p <> nd -> 1 <= fd (fst p) (snd p) <= 8)) /\
    (forall p q, data fd 255 w h p -> toward (fd (fst p) (snd p)) (fst p) (snd p) (fst q) (snd q) -> inside w h q ->
       elev_at r q <= elev_at r p) /\
    (forall p, ~ looping fd 255 w h p) /\
    (forall p, data fd 255 w h p -> exists q, passes fd 255 w h p q /\ exit_cell fd 255 w h q).
Proof. exact flowdirs_main. Qed.
Print Assumptions C80_every_cell_drains.

(** C80. Accumulating flow over these directions: every data cell gets the number of cells upstream of
    it, and the cells where water leaves account for every data cell exactly once. *)
Theorem C80_accumulation_complete : forall tb top e nd w h o1 o2 o3, 0 < w -> 0 < h ->
  Permutation o1 (cells w h) -> Permutation o2 (interior_cells w h) -> Permutation o3 (cells w h) ->
  exists r fd area, rd_d8_flowdirs tb top e nd w h o1 o2 = Some (Ok (r, fd)) /\
    d8_flow_accum fd 255 w h o3 = Some (Ok area) /\
    (forall p, data fd 255 w h p -> upstream_count fd 255 w h p (area p)) /\
    exists X L, NoDup X /\ (forall p, In p X <-> exit_cell fd 255 w h p) /\
      NoDup L /\ (forall p, In p L <-> has_data r nd w h p) /\
      fold_right (fun p s => area p + s) 0 X = Z.of_nat (length L).
Proof.
  intros tb top e nd w h o1 o2 o3 Hw Hh P1 P2 P3.
  destruct (flowdirs_main tb top e nd w h o1 o2 Hw Hh P1 P2) as [r [fd [E [_ [C [_ [NL EX]]]]]]].
  assert (CO : codes_ok fd 255 w h).
  { intros x y I N. destruct (C (x, y) I) as [C1 C2]. cbn [fst snd] in *. unfold elev_at in *. cbn [fst snd] in *.
    destruct (Z.eq_dec (r x y) nd) as [X|X]; [specialize (C1 X); contradiction|specialize (C2 X); lia]. }
  destruct (C18_d8_flow_accum fd 255 w h o3 CO P3) as [area [EA [A1 _]]].
  exists r, fd, area. split; [exact E|]. split; [exact EA|].
  assert (U : forall p, data fd 255 w h p -> upstream_count fd 255 w h p (area p)).
  { intros p D. apply A1; [exact D|]. intros [q [Lq _]]. exact (NL q Lq). }
  split; [exact U|]. destruct (accumulation_total fd 255 w h CO NL EX area U) as [X [L [X1 [X2 [L1 [L2 S]]]]]].
  exists X, L. split; [exact X1|]. split; [exact X2|]. split; [exact L1|]. split; [|exact S].
  intros p. rewrite L2. split; intros [I N]; (split; [exact I|]); destruct (C p I) as [C1 C2].
  - intros Q. apply N. apply C1. exact Q.
  - specialize (C2 N). lia.
Qed.
Print Assumptions C80_accumulation_complete.

(** a pit (1) behind a rim, a flat, and NoData (-9) *)
Definition dem80 : grid Z := of_rows [[9;9;9;9;9];[9;4;1;4;7];[9;5;4;9;9];[9;9;9;9;-9]].
Example C80_run : match rd_d8_flowdirs (fun n => n) 1000 dem80 (-9) 5 4 (cells 5 4) (interior_cells 5 4) with
  | Some (Ok (r, fd)) => (to_rows 5 4 r, to_rows 5 4 fd,
      match d8_flow_accum fd 255 5 4 (cells 5 4) with Some (Ok a) => to_rows 5 4 (fun x y => a (x, y)) | _ => [] end)
  | _ => ([], [], []) end =
  ([[9;9;9;9;9];[9;7;7;7;7];[9;7;7;9;9];[9;9;9;9;-9]],
   [[2;3;3;3;4];[1;5;5;5;5];[1;5;4;6;5];[8;7;7;7;255]],
   [[1;1;1;1;1];[1;1;2;5;6];[1;1;2;1;1];[1;1;1;1;-1]]).
Proof. vm_compute. reflexivity. Qed.

(** C80. rd_flood_for_flowdirs is rd_d8_flowdirs for rasters whose rows run north to south and columns
    west to east; for columns running east to west it is undefined behaviour. *)
Theorem C80_flood_for_flowdirs : forall tb top e nd w h o1 o2, 0 < w -> 0 < h ->
  Permutation o1 (cells w h) -> Permutation o2 (interior_cells w h) ->
  (exists r fd, rd_d8_flowdirs tb top e nd w h o1 o2 = Some (Ok (r, fd)) /\
     rd_flood_for_flowdirs tb top e nd w h false false o1 o2 = Some (Ok fd)) /\
  (forall southup, rd_flood_for_flowdirs tb top e nd w h true southup o1 o2 = Some Undef).
Proof.
  intros tb top e nd w h o1 o2 Hw Hh P1 P2. destruct (flowdirs_main tb top e nd w h o1 o2 Hw Hh P1 P2) as [r [fd [E _]]].
  split; [|reflexivity]. exists r, fd. split; [exact E|]. unfold rd_flood_for_flowdirs. rewrite E. reflexivity.
Qed.
Print Assumptions C80_flood_for_flowdirs.

(** C80. For rows running south to north the directions written are turned over as cells but not as
    codes. Refuted: that they never lead upwards in the filled raster. *)
Theorem C80_southup_refuted :
  ~ (forall tb top e nd w h o1 o2 fd r, 0 < w -> 0 < h -> Permutation o1 (cells w h) -> Permutation o2 (interior_cells w h) ->
       rd_flood_for_flowdirs tb top e nd w h false true o1 o2 = Some (Ok fd) ->
       (forall x y, in_raster w h x y -> drainage_level D8 w h e x y (r x y)) ->
       forall p q, data fd 255 w h p -> toward (fd (fst p) (snd p)) (fst p) (snd p) (fst q) (snd q) -> inside w h q ->
         elev_at r q <= elev_at r p).
Proof.
  intros H. set (e := of_rows [[9;9;9];[5;5;5];[1;1;1]]).
  destruct (C02_improved_minimax (fun n => n) D8 3 3 e ltac:(lia) ltac:(lia)) as [r [E HR]].
  assert (X : elev_at r (1, 0) <= elev_at r (1, 1)).
  { apply (H (fun n => n) 1000 e (-1) 3 3 (cells 3 3) (interior_cells 3 3)
      (match rd_flood_for_flowdirs (fun n => n) 1000 e (-1) 3 3 false true (cells 3 3) (interior_cells 3 3) with Some (Ok f) => f | _ => e end) r);
      try exact HR; try apply Permutation_refl; try lia; try (vm_compute; reflexivity).
    - split; [unfold in_raster; cbn [fst snd]; lia|]. vm_compute. discriminate.
    - assert (C : forall d, d = 3 -> toward d 1 1 1 0) by (intros d ->; apply (toward_N 1 1)).
      apply C. vm_compute. reflexivity.
    - split; cbn [fst snd]; lia. }
  assert (V1 : r 1 0 = 9 /\ r 1 1 = 5).
  { assert (Q : option_map (to_rows 3 3) (PriorityFlood_Barnes2014 (fun n => n) D8 3 3 e) = Some [[9;9;9];[5;5;5];[1;1;1]]) by (vm_compute; reflexivity).
    rewrite E in Q. injection Q as Q. auto. }
  unfold elev_at in X. cbn [fst snd] in X. lia.
Qed.
Print Assumptions C80_southup_refuted.

Lemma drains_flip t w h e L x y : drains t w h (flip_rows h e) L x y -> drains t w h e L x (h - 1 - y).
Proof.
  intros D. induction D as [x y E Le|x y x' y' I Le A D IH].
  - apply drains_edge; [|exact Le]. unfold on_edge, in_raster in *. lia.
  - eapply drains_step; [|exact Le| |exact IH].
    + unfold in_raster in *. lia.
    + destruct t; cbn [adjacent] in *; [|lia]. destruct A as [N [A B]]. split; [|lia].
      intros X. apply N. inversion X. f_equal; lia.
Qed.
Lemma drains_flip' t w h e L x y : drains t w h e L x (h - 1 - y) -> drains t w h (flip_rows h e) L x y.
Proof.
  intros D. replace y with (h - 1 - (h - 1 - y)) by lia. apply drains_flip. eapply drains_ext; [|exact D].
  intros a b _. unfold flip_rows. f_equal. lia.
Qed.

(** C80. What they mean: read with north and south exchanged, every code leads to a neighbour that is
    not higher in the filled raster, and codes are missing exactly at NoData. *)
Theorem C80_southup : forall tb top e nd w h o1 o2, 0 < w -> 0 < h ->
  Permutation o1 (cells w h) -> Permutation o2 (interior_cells w h) ->
  exists r fd, rd_flood_for_flowdirs tb top e nd w h false true o1 o2 = Some (Ok fd) /\
    (forall x y, in_raster w h x y -> drainage_level D8 w h e x y (r x y)) /\
    (forall x y, in_raster w h x y -> (r x y = nd -> fd x y = 255) /\ (r x y <> nd -> 1 <= fd x y <= 8)) /\
    forall x y x' y', in_raster w h x y -> fd x y <> 255 -> toward (fd x y) x y x' y' -> in_raster w h x' (2 * y - y') ->
      r x' (2 * y - y') <= r x y.
Proof.
  intros tb top e nd w h o1 o2 Hw Hh P1 P2.
  destruct (flowdirs_main tb top (flip_rows h e) nd w h o1 o2 Hw Hh P1 P2) as [r [fd [E [HR [C [S _]]]]]].
  exists (flip_rows h r), (flip_rows h fd). unfold rd_flood_for_flowdirs. rewrite E. split; [reflexivity|].
  assert (IF : forall x y, in_raster w h x y -> in_raster w h x (h - 1 - y)) by (unfold in_raster; intros; lia).
  split; [|split].
  - intros x y I. destruct (HR x (h - 1 - y) (IF x y I)) as [D1 D2]. split.
    + apply drains_flip in D1. replace (h - 1 - (h - 1 - y)) with y in D1 by lia. exact D1.
    + intros L' D. apply D2. apply drains_flip'. replace (h - 1 - (h - 1 - y)) with y by lia. exact D.
  - intros x y I. exact (C (x, h - 1 - y) (IF x y I)).
  - intros x y x' y' I N T I'. unfold flip_rows in *.
    apply toward_iff in T. destruct T as [T0 [T1 T2]].
    assert (Q : elev_at r (x', h - 1 - (2 * y - y')) <= elev_at r (x, h - 1 - y)).
    { apply S.
      - split; [exact (IF x y I)|exact N].
      - cbn [fst snd]. apply toward_iff. split; [exact T0|]. split; [exact T1|]. lia.
      - unfold inside. cbn [fst snd]. apply IF. exact I'. }
    exact Q.
Qed.
Print Assumptions C80_southup.
Example C80_southup_run : match rd_flood_for_flowdirs (fun n => n) 1000 (of_rows [[9;9;9];[5;5;5];[1;1;1]]) (-1) 3 3 false true (cells 3 3) (interior_cells 3 3) with
  | Some (Ok fd) => to_rows 3 3 fd | _ => [] end = [[8;7;6];[1;3;5];[2;3;4]].
Proof. vm_compute. reflexivity. Qed.

(** ** C81: rd_loop_check *)

(** The blank lines that mark a loop are printed iff the raster is at least ten columns wide and some
    cell has a flow path of at least as many moves as there are columns. *)
Theorem C81_loop_check : forall fd fnd w h, codes_ok fd fnd w h -> 0 < w < 2 ^ 31 ->
  exists out, rd_loop_check fd fnd w h = Ok out /\
    (In Blank out <-> 10 <= w /\ exists p, inside w h p /\ path_at_least fd fnd w h (Z.to_nat w) p).
Proof. intros fd fnd w h HC Hw. destruct (loop_check_ok fd fnd w h HC Hw) as [out [E [H _]]]. eauto. Qed.
Print Assumptions C81_loop_check.

(** Hence, from ten columns on, no mark means no loop. *)
Theorem C81_no_mark_no_loop : forall fd fnd w h out, codes_ok fd fnd w h -> 10 <= w < 2 ^ 31 ->
  rd_loop_check fd fnd w h = Ok out -> ~ In Blank out -> forall p, ~ looping fd fnd w h p.
Proof.
  intros fd fnd w h out HC Hw E N p Lp. destruct (loop_check_ok fd fnd w h HC ltac:(lia)) as [out' [E' [H _]]].
  rewrite E in E'. injection E' as <-. apply N. apply H. split; [lia|].
  assert (D : data fd fnd w h p) by (destruct Lp as [q [_ G]]; apply G).
  exists p. split; [exact (proj1 D)|]. apply (loops_endless fd fnd w h p p Lp); [apply passes_here|exact D].
Qed.
Print Assumptions C81_no_mark_no_loop.
Definition pair_loop (w : Z) : grid Z := fun x y => if (x =? 0) then 5 else if x =? 1 then 1 else 0.
Example C81_run : codes_ok (pair_loop 10) 255 10 1 /\
  rd_loop_check (pair_loop 10) 255 10 1 = Ok (
    [Line 0 0 5; Line 1 0 1; Line 0 0 5; Line 1 0 1; Line 0 0 5; Line 1 0 1; Line 0 0 5; Line 1 0 1; Line 0 0 5; Line 1 0 1; Blank;
     Line 1 0 1; Line 0 0 5; Line 1 0 1; Line 0 0 5; Line 1 0 1; Line 0 0 5; Line 1 0 1; Line 0 0 5; Line 1 0 1; Line 0 0 5; Blank;
     Line 2 0 0; Line 3 0 0; Line 4 0 0; Line 5 0 0; Line 6 0 0; Line 7 0 0; Line 8 0 0; Line 9 0 0]).
Proof.
  split; [|vm_compute; reflexivity]. intros x y _ _. unfold pair_loop. destruct (x =? 0); [lia|]. destruct (x =? 1); lia.
Qed.

(** Refuted: that loops are shown. Below ten columns nothing is ever printed, because
    max_path_length-10 wraps around. *)
Theorem C81_narrow_refuted :
  (forall fd fnd w h, codes_ok fd fnd w h -> 0 < w < 10 -> rd_loop_check fd fnd w h = Ok []) /\
  (codes_ok (pair_loop 9) 255 9 1 /\ looping (pair_loop 9) 255 9 1 (0, 0)).
Proof.
  split.
  - intros fd fnd w h HC Hw. destruct (loop_check_ok fd fnd w h HC) as [out [E [_ H]]]; [lia|]. rewrite E, H by lia. reflexivity.
  - split; [intros x y _ _; unfold pair_loop; destruct (x =? 0); [lia|destruct (x =? 1); lia]|].
    assert (D : forall x, x = 0 \/ x = 1 -> data (pair_loop 9) 255 9 1 (x, 0)).
    { intros x Hx. split; [unfold in_raster; cbn [fst snd]; lia|]. destruct Hx as [-> | ->]; vm_compute; discriminate. }
    exists (1, 0). split.
    + eapply passes_on; [apply passes_here|]. split; [apply D; auto|]. split; [apply D; auto|]. exact (toward_E 0 0).
    + split; [apply D; auto|]. split; [apply D; auto|]. exact (toward_W 1 0).
Qed.
Print Assumptions C81_narrow_refuted.

(** Refuted: that only loops are marked. The limit is the width, not the number of cells: a path that
    winds once is marked as well. *)
Definition serpent : grid Z := fun x y => if y =? 0 then (if x =? 9 then 7 else 5) else 1.
Theorem C81_false_alarm_refuted :
  ~ (forall fd fnd w h out, codes_ok fd fnd w h -> 10 <= w < 2 ^ 31 -> rd_loop_check fd fnd w h = Ok out -> In Blank out ->
       exists p, looping fd fnd w h p).
Proof.
  intros H. destruct (H serpent 255 10 2 (match rd_loop_check serpent 255 10 2 with Ok o => o | _ => [] end)) as [p [q [P G]]].
  - intros x y _ _. unfold serpent. destruct (y =? 0); [destruct (x =? 9)|]; lia.
  - lia.
  - vm_compute. reflexivity.
  - vm_compute. tauto.
  - (* the position along the path grows with every move *)
    set (pos := fun c : cell => if snd c =? 0 then fst c else 20 - fst c).
    assert (M : forall a b, gives serpent 255 10 2 a b -> pos a < pos b).
    { intros [x y] [x' y'] [[Ia _] [[Ib _] T]]. unfold in_raster in *. unfold pos. cbn [fst snd] in *. unfold serpent in T.
      destruct (Z.eqb_spec y 0) as [->|Y].
      - destruct (Z.eqb_spec x 9) as [->|X]; inversion T; subst; match goal with |- context [?a =? 0] => destruct (Z.eqb_spec a 0) end; lia.
      - inversion T; subst. destruct (Z.eqb_spec y' 0); lia. }
    assert (MP : forall a b, passes serpent 255 10 2 a b -> pos a <= pos b).
    { intros a b Q. induction Q as [a|a b c Q IH Gc]; [lia|]. apply M in Gc. lia. }
    apply MP in P. apply M in G. lia.
Qed.
Print Assumptions C81_false_alarm_refuted.
