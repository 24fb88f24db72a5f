(** Model of include/richdem/depressions/Barnes2014.hpp (the Priority-Flood family). *)
From Coq Require Import ZArith List Lia Bool.
From Verif Require Import Base.
Open Scope Z_scope.

(** grid_cell.hpp:30-37  GridCellZ (integer elevation or NaN-free float: [isnan] is always false) *)
Record item := mkItem { ix : Z; iy : Z; iz : Z }.
(** grid_cell.hpp:36,97  operator> as used by GridCellZ_pq through std::greater *)
Definition item_gt (a b : item) : bool := iz a >? iz b.

(** Barnes2014.hpp:65-76 (= 160-171, 256-267, 358-369, 622-633, 745-756, 873-884): the order in which the perimeter
    cells are emplaced. Cells of one-row or one-column rasters occur twice, as in the code. *)
Definition seed_xy (w h : Z) : list (Z * Z) :=
  flat_map (fun x => [(x, 0); (x, h - 1)]) (zrange 0 (Z.to_nat w)) ++
  flat_map (fun y => [(0, y); (w - 1, y)]) (zrange 1 (Z.to_nat (h - 2))).

Definition seeds (w h : Z) (e : grid Z) : list item :=
  map (fun p => mkItem (fst p) (snd p) (e (fst p) (snd p))) (seed_xy w h).

(** Barnes2014.hpp:58,68-69,74-75  [Array2D<int8_t> closed(w,h,false)] and its perimeter assignments *)
Definition init_closed (w h : Z) : grid bool :=
  fold_left (fun cl p => gset cl (fst p) (snd p) true) (seed_xy w h) (fun _ _ => false).

(** The head of every neighbour loop (e.g. Barnes2014.hpp:85-90):
    compute (nx,ny), skip if off the grid, skip if closed, otherwise run the body [f]. *)
Definition visit {S : Type} (t : topology) (w h : Z) (cl : S -> grid bool)
    (f : S -> nat -> Z -> Z -> S) (cx cy : Z) (s : S) (n : nat) : S :=
  let nx := cx + dx t n in
  let ny := cy + dy t n in
  if inGrid w h nx ny then
    if cl s nx ny then s else f s n nx ny
  else s.

(** Fuel handed to the main loops: each cell is pushed once, plus the perimeter pushes. *)
Definition pf_fuel (w h : Z) : nat := (length (seed_xy w h) + Z.to_nat w * Z.to_nat h)%nat.

(** ** PriorityFlood_Original, Barnes2014.hpp:137-198 *)
Record ostate := mkO { o_closed : grid bool; o_elev : grid Z; o_open : list item }.

Definition orig_pop (tb : nat -> nat) (i : nat) (s : ostate) : option (item * ostate) :=
  match pq_pop item_gt (tb i) (o_open s) with
  | Some (c, q) => Some (c, mkO (o_closed s) (o_elev s) q)
  | None => None
  end.

(** Barnes2014.hpp:187-191 *)
Definition orig_visit (c : item) (s : ostate) (n : nat) (nx ny : Z) : ostate :=
  let z := Z.max (o_elev s nx ny) (o_elev s (ix c) (iy c)) in
  mkO (gset (o_closed s) nx ny true) (gset (o_elev s) nx ny z) (mkItem nx ny z :: o_open s).

Definition orig_body (t : topology) (w h : Z) (c : item) (s : ostate) : ostate :=
  fold_left (visit t w h o_closed (orig_visit c) (ix c) (iy c)) (dirs t) s.

Definition PriorityFlood_Original (tb : nat -> nat) (t : topology) (w h : Z) (e : grid Z) : option (grid Z) :=
  option_map o_elev
    (while_pop (orig_pop tb) (orig_body t w h) (pf_fuel w h) 0 (mkO (init_closed w h) e (seeds w h e))).

(** ** PriorityFlood_Barnes2014, Barnes2014.hpp:231-304 *)
Record bstate := mkB { b_closed : grid bool; b_elev : grid Z; b_open : list item; b_pit : list item }.

(** Barnes2014.hpp:271-279: the pit queue first, the priority queue when it is empty *)
Definition imp_pop (tb : nat -> nat) (i : nat) (s : bstate) : option (item * bstate) :=
  match b_pit s with
  | c :: pit => Some (c, mkB (b_closed s) (b_elev s) (b_open s) pit)
  | [] => match pq_pop item_gt (tb i) (b_open s) with
          | Some (c, q) => Some (c, mkB (b_closed s) (b_elev s) q [])
          | None => None
          end
  end.

(** Barnes2014.hpp:289-297 *)
Definition imp_visit (c : item) (s : bstate) (n : nat) (nx ny : Z) : bstate :=
  let cl := gset (b_closed s) nx ny true in
  if b_elev s nx ny <=? iz c then
    mkB cl (if b_elev s nx ny <? iz c then gset (b_elev s) nx ny (iz c) else b_elev s)
        (b_open s) (b_pit s ++ [mkItem nx ny (iz c)])
  else
    mkB cl (b_elev s) (mkItem nx ny (b_elev s nx ny) :: b_open s) (b_pit s).

Definition imp_body (t : topology) (w h : Z) (c : item) (s : bstate) : bstate :=
  fold_left (visit t w h b_closed (imp_visit c) (ix c) (iy c)) (dirs t) s.

Definition PriorityFlood_Barnes2014 (tb : nat -> nat) (t : topology) (w h : Z) (e : grid Z) : option (grid Z) :=
  option_map b_elev
    (while_pop (imp_pop tb) (imp_body t w h) (pf_fuel w h) 0 (mkB (init_closed w h) e (seeds w h e) [])).

(** ** HasDepressions, Barnes2014.hpp:44-104.
    [h_found] records the early [return true]: afterwards nothing changes and the loop stops. *)
Record hstate := mkH { h_closed : grid bool; h_open : list item; h_found : bool }.

Definition has_pop (tb : nat -> nat) (i : nat) (s : hstate) : option (item * hstate) :=
  if h_found s then None else
  match pq_pop item_gt (tb i) (h_open s) with
  | Some (c, q) => Some (c, mkH (h_closed s) q false)
  | None => None
  end.

(** Barnes2014.hpp:92-98 *)
Definition has_visit (e : grid Z) (c : item) (s : hstate) (n : nat) (nx ny : Z) : hstate :=
  if h_found s then s else
  let cl := gset (h_closed s) nx ny true in
  if e nx ny <? e (ix c) (iy c) then mkH cl (h_open s) true
  else mkH cl (mkItem nx ny (e nx ny) :: h_open s) false.

Definition has_body (t : topology) (w h : Z) (e : grid Z) (c : item) (s : hstate) : hstate :=
  fold_left (visit t w h h_closed (has_visit e c) (ix c) (iy c)) (dirs t) s.

Definition HasDepressions (tb : nat -> nat) (t : topology) (w h : Z) (e : grid Z) : option bool :=
  option_map h_found
    (while_pop (has_pop tb) (has_body t w h e) (pf_fuel w h) 0 (mkH (init_closed w h) (seeds w h e) false)).

(** ** pit_mask, Barnes2014.hpp:594-676. The elevations are const; [noData] is elevations.noData(). *)
Record mstate := mkM { m_closed : grid bool; m_mask : grid Z; m_open : list item; m_pit : list item }.

Definition mask_pop (tb : nat -> nat) (i : nat) (s : mstate) : option (item * mstate) :=
  match m_pit s with
  | c :: pit => Some (c, mkM (m_closed s) (m_mask s) (m_open s) pit)
  | [] => match pq_pop item_gt (tb i) (m_open s) with
          | Some (c, q) => Some (c, mkM (m_closed s) (m_mask s) q [])
          | None => None
          end
  end.

(** Barnes2014.hpp:655-665 *)
Definition mask_visit (e : grid Z) (c : item) (s : mstate) (n : nat) (nx ny : Z) : mstate :=
  let cl := gset (m_closed s) nx ny true in
  if e nx ny <=? iz c then
    mkM cl (if e nx ny <? iz c then gset (m_mask s) nx ny 1 else m_mask s)
        (m_open s) (m_pit s ++ [mkItem nx ny (iz c)])
  else
    mkM cl (gset (m_mask s) nx ny 0) (mkItem nx ny (e nx ny) :: m_open s) (m_pit s).

(** Barnes2014.hpp:648-669 *)
Definition mask_body (t : topology) (w h : Z) (e : grid Z) (noData : Z) (c : item) (s : mstate) : mstate :=
  let s1 := fold_left (visit t w h m_closed (mask_visit e c) (ix c) (iy c)) (dirs t) s in
  if e (ix c) (iy c) =? noData
  then mkM (m_closed s1) (gset (m_mask s1) (ix c) (iy c) 3) (m_open s1) (m_pit s1)
  else s1.

(** Barnes2014.hpp:614: resize(w,h) value-initialises, Array2D.hpp:823-836 fills with val0 = T() = 0 *)
Definition pit_mask (tb : nat -> nat) (t : topology) (w h : Z) (e : grid Z) (noData : Z) : option (grid Z) :=
  option_map m_mask
    (while_pop (mask_pop tb) (mask_body t w h e noData) (pf_fuel w h) 0
       (mkM (init_closed w h) (fun _ _ => 0) (seeds w h e) [])).

(** ** PriorityFloodWatersheds_Barnes2014, Barnes2014.hpp:714-807 *)
Record wstate := mkW { w_closed : grid bool; w_elev : grid Z; w_labels : grid Z; w_clabel : Z;
                       w_open : list item; w_pit : list item }.

Definition ws_pop (tb : nat -> nat) (i : nat) (s : wstate) : option (item * wstate) :=
  match w_pit s with
  | c :: pit => Some (c, mkW (w_closed s) (w_elev s) (w_labels s) (w_clabel s) (w_open s) pit)
  | [] => match pq_pop item_gt (tb i) (w_open s) with
          | Some (c, q) => Some (c, mkW (w_closed s) (w_elev s) (w_labels s) (w_clabel s) q [])
          | None => None
          end
  end.

(** Barnes2014.hpp:777-778 *)
Definition ws_label (noData : Z) (c : item) (s : wstate) : wstate :=
  if (w_labels s (ix c) (iy c) =? -1) && negb (w_elev s (ix c) (iy c) =? noData)
  then mkW (w_closed s) (w_elev s) (gset (w_labels s) (ix c) (iy c) (w_clabel s)) (w_clabel s + 1)
           (w_open s) (w_pit s)
  else s.

(** Barnes2014.hpp:789-797 *)
Definition ws_visit (alter : bool) (c : item) (s : wstate) (n : nat) (nx ny : Z) : wstate :=
  let lab := gset (w_labels s) nx ny (w_labels s (ix c) (iy c)) in
  let cl := gset (w_closed s) nx ny true in
  if w_elev s nx ny <=? iz c then
    mkW cl (if alter then gset (w_elev s) nx ny (iz c) else w_elev s) lab (w_clabel s)
        (w_open s) (w_pit s ++ [mkItem nx ny (iz c)])
  else
    mkW cl (w_elev s) lab (w_clabel s) (mkItem nx ny (w_elev s nx ny) :: w_open s) (w_pit s).

Definition ws_body (alter : bool) (t : topology) (w h : Z) (noData : Z) (c : item) (s : wstate) : wstate :=
  fold_left (visit t w h w_closed (ws_visit alter c) (ix c) (iy c)) (dirs t) (ws_label noData c s).

(** Result: (elevations, labels) *)
Definition PriorityFloodWatersheds_Barnes2014 (tb : nat -> nat) (alter : bool) (t : topology) (w h : Z)
    (e : grid Z) (noData : Z) : option (grid Z * grid Z) :=
  option_map (fun s => (w_elev s, w_labels s))
    (while_pop (ws_pop tb) (ws_body alter t w h noData) (pf_fuel w h) 0
       (mkW (init_closed w h) e (fun _ _ => -1) 1 (seeds w h e) [])).

(** ** PriorityFlood_Barnes2014_max_dep, Barnes2014.hpp:845-931 *)
Record dstate := mkD { d_closed : grid bool; d_elev : grid Z; d_open : list item; d_pit : list item;
                       d_dep_elev : Z; d_dep : list (Z * Z) }.

(** Barnes2014.hpp:893-907 *)
Definition raise_all (e : grid Z) (l : list (Z * Z)) (z : Z) : grid Z :=
  fold_left (fun g p => gset g (fst p) (snd p) z) l e.

Definition md_pop (tb : nat -> nat) (max_dep_size : Z) (i : nat) (s : dstate) : option (item * dstate) :=
  match d_pit s with
  | c :: pit => Some (c, mkD (d_closed s) (d_elev s) (d_open s) pit (d_dep_elev s) (d_dep s ++ [(ix c, iy c)]))
  | [] => match pq_pop item_gt (tb i) (d_open s) with
          | Some (c, q) =>
              let e' := if Z.of_nat (length (d_dep s)) <=? max_dep_size
                        then raise_all (d_elev s) (d_dep s) (d_dep_elev s) else d_elev s in
              Some (c, mkD (d_closed s) e' q [] (d_dep_elev s) [])
          | None => None
          end
  end.

(** Barnes2014.hpp:917-924 *)
Definition md_visit (c : item) (s : dstate) (n : nat) (nx ny : Z) : dstate :=
  let cl := gset (d_closed s) nx ny true in
  if d_elev s nx ny <? iz c then
    mkD cl (d_elev s) (d_open s) (d_pit s ++ [mkItem nx ny (iz c)]) (iz c) (d_dep s)
  else
    mkD cl (d_elev s) (mkItem nx ny (d_elev s nx ny) :: d_open s) (d_pit s) (d_dep_elev s) (d_dep s).

Definition md_body (t : topology) (w h : Z) (c : item) (s : dstate) : dstate :=
  fold_left (visit t w h d_closed (md_visit c) (ix c) (iy c)) (dirs t) s.

Definition PriorityFlood_max_dep (tb : nat -> nat) (max_dep_size : Z) (t : topology) (w h : Z) (e : grid Z)
  : option (grid Z) :=
  option_map d_elev
    (while_pop (md_pop tb max_dep_size) (md_body t w h) (pf_fuel w h) 0
       (mkD (init_closed w h) e (seeds w h e) [] 0 [])).

(** ** PriorityFloodFlowdirs_Barnes2014, Barnes2014.hpp:484-555 (always D8; queue GridCellZk_low_pq) *)
Record kitem := mkK { kx : Z; ky : Z; kz : Z; kk : Z }.
(** grid_cell.hpp:80 without NaN *)
Definition kitem_gt (a b : kitem) : bool := (kz a >? kz b) || ((kz a =? kz b) && (kk a >? kk b)).

Record fstate := mkF { f_closed : grid bool; f_dirs : grid Z; f_open : list kitem; f_count : Z }.

Definition fd_pop (tb : nat -> nat) (i : nat) (s : fstate) : option (kitem * fstate) :=
  match pq_pop kitem_gt (tb i) (f_open s) with
  | Some (c, q) => Some (c, mkF (f_closed s) (f_dirs s) q (f_count s))
  | None => None
  end.

(** grid_cell.hpp:119-121  emplace with ++count *)
Definition k_emplace (e : grid Z) (p : Z * Z) (st : list kitem * Z) : list kitem * Z :=
  (mkK (fst p) (snd p) (e (fst p) (snd p)) (snd st + 1) :: fst st, snd st + 1).

(** Barnes2014.hpp:503-523 *)
Definition init_flowdirs (w h : Z) : grid Z :=
  let g1 := fold_left (fun g x => gset (gset g x 0 3) x (h - 1) 7) (zrange 0 (Z.to_nat w)) (fun _ _ => 0) in
  let g2 := fold_left (fun g y => gset (gset g 0 y 1) (w - 1) y 5) (zrange 1 (Z.to_nat (h - 2))) g1 in
  gset (gset (gset (gset g2 0 0 2) (w - 1) 0 4) 0 (h - 1) 8) (w - 1) (h - 1) 6.

(** Barnes2014.hpp:525 *)
Definition d8_order : list nat := [1; 3; 5; 7; 2; 4; 6; 8]%nat.

(** Barnes2014.hpp:542-549; flowdirs.noData() = NO_FLOW = 0 (line 496) *)
Definition fd_visit (e : grid Z) (noData : Z) (s : fstate) (n : nat) (nx ny : Z) : fstate :=
  mkF (gset (f_closed s) nx ny true)
      (gset (f_dirs s) nx ny (if e nx ny =? noData then 0 else Z.of_nat (nth n d8_inverse 0%nat)))
      (mkK nx ny (e nx ny) (f_count s + 1) :: f_open s) (f_count s + 1).

Definition fd_body (w h : Z) (e : grid Z) (noData : Z) (c : kitem) (s : fstate) : fstate :=
  fold_left (visit D8 w h f_closed (fd_visit e noData) (kx c) (ky c)) d8_order s.

Definition fd_init (w h : Z) (e : grid Z) : fstate :=
  let (q, k) := fold_left (fun st p => k_emplace e p st) (seed_xy w h) ([], 0) in
  mkF (init_closed w h) (init_flowdirs w h) q k.

Definition PriorityFloodFlowdirs_Barnes2014 (tb : nat -> nat) (w h : Z) (e : grid Z) (noData : Z) : option (grid Z) :=
  option_map f_dirs (while_pop (fd_pop tb) (fd_body w h e noData) (pf_fuel w h) 0 (fd_init w h e)).

(** ** PriorityFloodEpsilon_Barnes2014, Barnes2014.hpp:336-420. The overloads for five integer
    types (423-451) throw; they are not modelled.
    A floating-point type without NaN is order-isomorphic to an interval of integers (its values listed
    in increasing order, -0 and +0 identified), so elevations are ordinals, [nextafter(z,inf)] is the
    successor and [INF], the ordinal of +infinity, is its fixed point. PitTop only feeds a statistic
    (lines 378-387, 405-406) and is left out. *)
Definition nextafter (INF z : Z) : Z := if INF <=? z then INF else z + 1.

(** Barnes2014.hpp:375-388. [open.top()] is inspected and, if taken, is the same element that is popped:
    both use the oracle value of this step. *)
Definition eps_pop (tb : nat -> nat) (i : nat) (s : bstate) : option (item * bstate) :=
  match b_pit s with
  | p :: pit =>
      match pq_pop item_gt (tb i) (b_open s) with
      | Some (c, q) => if iz c =? iz p
                       then Some (c, mkB (b_closed s) (b_elev s) q (p :: pit))
                       else Some (p, mkB (b_closed s) (b_elev s) (b_open s) pit)
      | None => Some (p, mkB (b_closed s) (b_elev s) (b_open s) pit)
      end
  | [] => match pq_pop item_gt (tb i) (b_open s) with
          | Some (c, q) => Some (c, mkB (b_closed s) (b_elev s) q [])
          | None => None
          end
  end.

(** Barnes2014.hpp:399-411 *)
Definition eps_visit (INF noData : Z) (c : item) (s : bstate) (n : nat) (nx ny : Z) : bstate :=
  let cl := gset (b_closed s) nx ny true in
  if b_elev s nx ny =? noData then
    mkB cl (b_elev s) (b_open s) (b_pit s ++ [mkItem nx ny noData])
  else if b_elev s nx ny <=? nextafter INF (iz c) then
    mkB cl (gset (b_elev s) nx ny (nextafter INF (iz c))) (b_open s)
        (b_pit s ++ [mkItem nx ny (nextafter INF (iz c))])
  else
    mkB cl (b_elev s) (mkItem nx ny (b_elev s nx ny) :: b_open s) (b_pit s).

Definition eps_body (INF noData : Z) (t : topology) (w h : Z) (c : item) (s : bstate) : bstate :=
  fold_left (visit t w h b_closed (eps_visit INF noData c) (ix c) (iy c)) (dirs t) s.

Definition PriorityFloodEpsilon_Barnes2014 (tb : nat -> nat) (INF noData : Z) (t : topology) (w h : Z) (e : grid Z)
  : option (grid Z) :=
  option_map b_elev
    (while_pop (eps_pop tb) (eps_body INF noData t w h) (pf_fuel w h) 0 (mkB (init_closed w h) e (seeds w h e) [])).
