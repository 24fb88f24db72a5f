(** Properties C01-C07, C34, C35: the Priority-Flood family. *)
From Coq Require Import ZArith List Lia.
From Verif Require Import Base RasterSpec PFModel PFSpec PFProofs PFProofs2 PFProofs3 PFProofs4 PFProofs5.
Open Scope Z_scope.

(** Test helpers: a raster from rows and back. *)
Definition of_rows (rows : list (list Z)) : grid Z :=
  fun x y => nth (Z.to_nat x) (nth (Z.to_nat y) rows []) (-777).
Definition to_rows (w h : Z) (g : grid Z) : list (list Z) :=
  map (fun y => map (fun x => g x y) (zrange 0 (Z.to_nat w))) (zrange 0 (Z.to_nat h)).

Definition dem5 : grid Z := of_rows [[9;9;9;9;9];[9;2;3;4;9];[9;5;1;8;7];[9;6;8;1;9];[9;9;9;9;9]].

(** C01. For every heap behaviour [tb], topology, non-empty raster and terrain, the call terminates and
    every cell ends at its minimax drainage level. *)
Theorem C01_original_minimax : forall tb t w h e, 0 < w -> 0 < h ->
  exists r, PriorityFlood_Original tb t w h e = Some r /\
    forall x y, in_raster w h x y -> drainage_level t w h e x y (r x y).
Proof. exact orig_correct. Qed.
Print Assumptions C01_original_minimax.
Example C01_run : option_map (to_rows 5 5) (PriorityFlood_Original (fun n => n) D8 5 5 dem5)
  = Some [[9;9;9;9;9];[9;7;7;7;9];[9;7;7;8;7];[9;7;8;7;9];[9;9;9;9;9]].
Proof. vm_compute. reflexivity. Qed.
Example C01_run_D4 : option_map (to_rows 5 5) (PriorityFlood_Original (fun n => n) D4 5 5 dem5)
  = Some [[9;9;9;9;9];[9;8;8;8;9];[9;8;8;8;7];[9;8;8;8;9];[9;9;9;9;9]].
Proof. vm_compute. reflexivity. Qed.

(** C02. The improved algorithm computes the same surface, whatever either heap does with ties. *)
Theorem C02_improved_minimax : forall tb t w h e, 0 < w -> 0 < h ->
  exists r, PriorityFlood_Barnes2014 tb t w h e = Some r /\
    forall x y, in_raster w h x y -> drainage_level t w h e x y (r x y).
Proof. exact imp_correct. Qed.
Print Assumptions C02_improved_minimax.

Theorem C02_improved_equals_original : forall tb tb' t w h e, 0 < w -> 0 < h ->
  exists r r', PriorityFlood_Original tb t w h e = Some r /\ PriorityFlood_Barnes2014 tb' t w h e = Some r' /\
    forall x y, in_raster w h x y -> r' x y = r x y.
Proof. exact imp_agrees. Qed.
Print Assumptions C02_improved_equals_original.
Example C02_run : option_map (to_rows 5 5) (PriorityFlood_Barnes2014 (fun n => 3 * n)%nat D8 5 5 dem5)
  = Some [[9;9;9;9;9];[9;7;7;7;9];[9;7;7;8;7];[9;7;8;7;9];[9;9;9;9;9]].
Proof. vm_compute. reflexivity. Qed.

(** C03. Never lowers, keeps the edge, idempotent, order preserving. *)
Theorem C03_original_laws : forall t w h e r, 0 < w -> 0 < h -> forall tb, PriorityFlood_Original tb t w h e = Some r ->
  (forall x y, in_raster w h x y -> e x y <= r x y) /\
  (forall x y, on_edge w h x y -> r x y = e x y) /\
  (forall tb' r', PriorityFlood_Original tb' t w h r = Some r' -> forall x y, in_raster w h x y -> r' x y = r x y) /\
  (forall tb' e' r', (forall x y, in_raster w h x y -> e x y <= e' x y) -> PriorityFlood_Original tb' t w h e' = Some r' ->
     forall x y, in_raster w h x y -> r x y <= r' x y).
Proof. exact (fill_laws PriorityFlood_Original orig_surface). Qed.
Print Assumptions C03_original_laws.

Theorem C03_improved_laws : forall t w h e r, 0 < w -> 0 < h -> forall tb, PriorityFlood_Barnes2014 tb t w h e = Some r ->
  (forall x y, in_raster w h x y -> e x y <= r x y) /\
  (forall x y, on_edge w h x y -> r x y = e x y) /\
  (forall tb' r', PriorityFlood_Barnes2014 tb' t w h r = Some r' -> forall x y, in_raster w h x y -> r' x y = r x y) /\
  (forall tb' e' r', (forall x y, in_raster w h x y -> e x y <= e' x y) -> PriorityFlood_Barnes2014 tb' t w h e' = Some r' ->
     forall x y, in_raster w h x y -> r x y <= r' x y).
Proof. exact (fill_laws PriorityFlood_Barnes2014 imp_surface). Qed.
Print Assumptions C03_improved_laws.
Example C03_inhabited : exists r, PriorityFlood_Original (fun n => n) D8 5 5 dem5 = Some r /\ r 2 2 = 7 /\ dem5 2 2 = 1.
Proof. eexists. split; [vm_compute; reflexivity|vm_compute; auto]. Qed.

(** C04. *)
Theorem C04_has_depressions : forall tb t w h e, 0 < w -> 0 < h ->
  exists b, HasDepressions tb t w h e = Some b /\
    (b = true <-> exists x y L, in_raster w h x y /\ drainage_level t w h e x y L /\ e x y < L).
Proof. exact has_correct. Qed.
Print Assumptions C04_has_depressions.

Theorem C04_has_depressions_vs_fill : forall tb tb' t w h e, 0 < w -> 0 < h ->
  exists b r, HasDepressions tb t w h e = Some b /\ PriorityFlood_Barnes2014 tb' t w h e = Some r /\
    (b = true <-> exists x y, in_raster w h x y /\ r x y <> e x y) /\
    HasDepressions tb t w h r = Some false.
Proof. exact has_vs_fill. Qed.
Print Assumptions C04_has_depressions_vs_fill.
Example C04_run : HasDepressions (fun n => n) D8 5 5 dem5 = Some true /\ HasDepressions (fun n => n) D4 3 3 (of_rows [[1;2;1];[2;2;2];[1;2;1]]) = Some false.
Proof. vm_compute. auto. Qed.

(** C05. *)
Theorem C05_pit_mask : forall tb t w h e noData, 0 < w -> 0 < h ->
  exists m, pit_mask tb t w h e noData = Some m /\
    forall x y L, in_raster w h x y -> drainage_level t w h e x y L ->
      (e x y = noData -> m x y = 3) /\
      (e x y <> noData -> e x y < L -> m x y = 1) /\
      (e x y <> noData -> L <= e x y -> m x y = 0).
Proof. exact mask_correct. Qed.
Print Assumptions C05_pit_mask.
Example C05_run : option_map (to_rows 5 5) (pit_mask (fun n => n) D8 5 5 dem5 8)
  = Some [[0;0;0;0;0];[0;1;1;1;0];[0;1;1;3;0];[0;1;3;1;0];[0;0;0;0;0]].
Proof. vm_compute. reflexivity. Qed.

(** C06. The hypothesis is the documented precondition, needed only when elevations are altered. *)
Theorem C06_watersheds : forall tb alter t w h e noData,
  (alter = true -> forall x y, in_raster w h x y -> e x y <> noData -> noData < e x y) -> 0 < w -> 0 < h ->
  exists el lab K (seed : Z -> Z * Z), PriorityFloodWatersheds_Barnes2014 tb alter t w h e noData = Some (el, lab) /\
    (alter = false -> forall x y, el x y = e x y) /\
    (alter = true -> forall x y, in_raster w h x y -> drainage_level t w h e x y (el x y)) /\
    (forall x y, in_raster w h x y -> e x y <> noData -> 1 <= lab x y <= K) /\
    (forall x y, in_raster w h x y -> lab x y = -1 \/ 1 <= lab x y <= K) /\
    (forall k, 1 <= k <= K -> let (sx, sy) := seed k in
       in_raster w h sx sy /\ lab sx sy = k /\ e sx sy <> noData /\
       (on_edge w h sx sy \/ exists x' y', adjacent t sx sy x' y' /\ in_raster w h x' y' /\ e x' y' = noData)) /\
    exists lv, (forall x y, in_raster w h x y -> drainage_level t w h e x y (lv x y)) /\
      forall x y, in_raster w h x y -> lab x y <> -1 ->
        label_path t w h lab lv (lab x y) (fst (seed (lab x y))) (snd (seed (lab x y))) x y.
Proof. exact ws_correct. Qed.
Print Assumptions C06_watersheds.
Example C06_run : option_map (fun r => to_rows 5 3 (snd r))
   (PriorityFloodWatersheds_Barnes2014 (fun n => 0%nat) true D4 5 3 (of_rows [[5;5;6;0;3];[4;2;7;0;2];[5;5;6;3;3]]) 0)
  = Some [[6;8;10;-1;3];[5;5;12;-1;1];[7;9;11;2;4]].
Proof. vm_compute. reflexivity. Qed.

(** C07. From every cell the directions lead, in finitely many steps and without ever standing above the
    cell's drainage level, off the raster or into a NoData cell; in particular they contain no cycle. *)
Theorem C07_flowdirs_exit : forall tb w h e noData, 0 < w -> 0 < h ->
  exists fd, PriorityFloodFlowdirs_Barnes2014 tb w h e noData = Some fd /\
    forall x y L, in_raster w h x y -> drainage_level D8 w h e x y L -> flow_exits w h e fd noData L x y.
Proof. exact fd_correct. Qed.
Print Assumptions C07_flowdirs_exit.
Example C07_run : option_map (to_rows 5 5) (PriorityFloodFlowdirs_Barnes2014 (fun n => n) 5 5 dem5 8)
  = Some [[2;3;3;3;4];[1;6;7;6;5];[1;5;6;0;5];[1;4;0;4;5];[8;7;7;7;6]].
Proof. vm_compute. reflexivity. Qed.

(** C34. Exact description: the sunk cells are partitioned into batches; a batch is a union of whole pools
    sharing one spill cell; a batch of at most N cells is filled completely, a larger one not at all, and
    every other cell is untouched. *)
Theorem C34_max_dep : forall tb N t w h e, 0 < w -> 0 < h ->
  exists r batches, PriorityFlood_max_dep tb N t w h e = Some r /\
    NoDup (concat batches) /\
    (forall x y, In (x, y) (concat batches) <-> sunk t w h e x y) /\
    (forall b x y x' y', In b batches -> In (x, y) b -> same_pool t w h e x y x' y' -> In (x', y') b) /\
    (forall b, In b batches -> shares_spill t w h e b) /\
    (forall b x y L, In b batches -> In (x, y) b -> drainage_level t w h e x y L ->
       r x y = if Z.of_nat (length b) <=? N then L else e x y) /\
    (forall x y, in_raster w h x y -> ~ sunk t w h e x y -> r x y = e x y).
Proof. exact md_correct. Qed.
Print Assumptions C34_max_dep.

Theorem C34_max_dep_pools : forall tb N t w h e r, 0 < w -> 0 < h -> PriorityFlood_max_dep tb N t w h e = Some r ->
  (forall x y L, in_raster w h x y -> drainage_level t w h e x y L -> r x y = e x y \/ r x y = L) /\
  (forall x y x' y', same_pool t w h e x y x' y' -> (r x y = e x y <-> r x' y' = e x' y')) /\
  (forall x y pool, sunk t w h e x y -> NoDup pool ->
     (forall x' y', In (x', y') pool -> same_pool t w h e x y x' y') -> N < Z.of_nat (length pool) -> r x y = e x y).
Proof. exact md_consequences. Qed.
Print Assumptions C34_max_dep_pools.

(** Two one-cell pools sharing a spill cell are counted together: with a limit of one cell neither is
    filled (first line), although either of them alone is (second line). *)
Theorem C34_small_pools_counted_jointly_refuted :
  option_map (to_rows 5 3) (PriorityFlood_max_dep (fun n => n) 1 D8 5 3 (of_rows [[5;5;1;5;5];[5;0;5;0;5];[5;5;5;5;5]]))
    = Some [[5;5;1;5;5];[5;0;5;0;5];[5;5;5;5;5]] /\
  option_map (to_rows 5 3) (PriorityFlood_max_dep (fun n => n) 1 D8 5 3 (of_rows [[5;5;1;5;5];[5;0;5;5;5];[5;5;5;5;5]]))
    = Some [[5;5;1;5;5];[5;1;5;5;5];[5;5;5;5;5]].
Proof. vm_compute. auto. Qed.
Print Assumptions C34_small_pools_counted_jointly_refuted.

(** C35. [B] bounds the terrain and leaves w*h steps of head-room below infinity. *)
Theorem C35_epsilon : forall tb INF noData t w h e B,
  (forall x y, in_raster w h x y -> e x y < B) -> B + w * h <= INF -> 0 < w -> 0 < h ->
  exists r, PriorityFloodEpsilon_Barnes2014 tb INF noData t w h e = Some r /\
    forall x y, in_raster w h x y ->
      strictly_drains t w h r noData x y /\ e x y <= r x y /\ (e x y = noData -> r x y = noData) /\
      (on_edge w h x y -> r x y = e x y).
Proof. exact eps_correct. Qed.
Print Assumptions C35_epsilon.
Example C35_run : option_map (to_rows 5 5) (PriorityFloodEpsilon_Barnes2014 (fun n => n) 1000000 (-9999) D8 5 5 dem5)
  = Some [[9;9;9;9;9];[9;10;9;8;9];[9;10;9;8;7];[9;10;9;8;9];[9;9;9;9;9]].
Proof. vm_compute. reflexivity. Qed.
