(** Model of include/richdem/depressions/Zhou2016.hpp and depressions.hpp:13-21.
    Cells are pairs (x,y); the code uses the flat index i = y*width+x, and C11_neighbour_lookup shows that
    nToI(i,dx,dy) is the index of (x+dx,y+dy), or -1 outside the raster. Elevations are integers (or any NaN-free totally
    ordered type). The order among equal elevations in the priority queue (there: by index) is left open: [tb]. *)
From Coq Require Import ZArith List Lia Bool.
From Verif Require Import Base FlowModel PFModel.
Open Scope Z_scope.

Record zst := mkZ { z_dem : cellt -> Z; z_lab : cellt -> Z; z_pq : list (Z * cellt); z_tr : list cellt; z_dep : list cellt }.

(** (x + d8x[n], y + d8y[n]) *)
Definition off (c : cellt) (n : nat) : cellt := (fst c + dx D8 n, snd c + dy D8 n).
Definition inR (w h : Z) (c : cellt) : bool := inGrid w h (fst c) (snd c).

(** Zhou2016.hpp:34-67, the body of the neighbour loop of ProcessTraceQue_onepass; the flag is bInPQ. The loop over nn uses
    d8x[n], d8y[n], so that all its iterations look at the same cell. *)
Definition zt_visit (w h : Z) (c : cellt) (sb : zst * bool) (n : nat) : zst * bool :=
  let '(s, b) := sb in
  let ni := off c n in
  if negb (inR w h ni) then sb
  else if negb (z_lab s ni =? 0) then sb
  else if z_dem s c <? z_dem s ni then
    (mkZ (z_dem s) (cset (z_lab s) ni (z_lab s c)) (z_pq s) (z_tr s ++ [ni]) (z_dep s), b)
  else if b then sb
  else
    let notBoundary := existsb (fun nn : nat => let nni := off ni n in
                                 inR w h nni && negb (z_lab s nni =? 0) && (z_dem s nni <? z_dem s ni)) (dirs D8) in
    if notBoundary then sb
    else (mkZ (z_dem s) (z_lab s) ((z_dem s c, c) :: z_pq s) (z_tr s) (z_dep s), true).

(** Zhou2016.hpp:31-33 *)
Definition zt_pop (i : nat) (s : zst) : option (cellt * zst) :=
  match z_tr s with [] => None | c :: q => Some (c, mkZ (z_dem s) (z_lab s) (z_pq s) q (z_dep s)) end.

(** Zhou2016.hpp:24-70 *)
Definition ProcessTraceQue_onepass (w h : Z) (s : zst) : option zst :=
  while_pop zt_pop (fun c s => fst (fold_left (zt_visit w h c) (dirs D8) (s, false)))
    (S (Z.to_nat w * Z.to_nat h)) 0 s.

(** Zhou2016.hpp:84-100, the body of the neighbour loop of ProcessPit_onepass *)
Definition zp_visit (w h c_elev : Z) (c : cellt) (s : zst) (n : nat) : zst :=
  let ni := off c n in
  if negb (inR w h ni) then s
  else if negb (z_lab s ni =? 0) then s
  else
    let lab := cset (z_lab s) ni (z_lab s c) in
    if z_dem s ni >? c_elev then mkZ (z_dem s) lab (z_pq s) (z_tr s ++ [ni]) (z_dep s)
    else mkZ (cset (z_dem s) ni c_elev) lab (z_pq s) (z_tr s) (z_dep s ++ [ni]).

(** Zhou2016.hpp:81-82 *)
Definition zp_pop (i : nat) (s : zst) : option (cellt * zst) :=
  match z_dep s with [] => None | c :: q => Some (c, mkZ (z_dem s) (z_lab s) (z_pq s) (z_tr s) q) end.

(** Zhou2016.hpp:73-102 *)
Definition ProcessPit_onepass (w h c_elev : Z) (s : zst) : option zst :=
  while_pop zp_pop (fun c s => fold_left (zp_visit w h c_elev c) (dirs D8) s) (S (Z.to_nat w * Z.to_nat h)) 0 s.

(** Zhou2016.hpp:165-186, the body of the neighbour loop of the main loop; [c] is the pair popped *)
Definition zm_visit (w h : Z) (c : Z * cellt) (os : option zst) (n : nat) : option zst :=
  match os with
  | None => None
  | Some s =>
      let ni := off (snd c) n in
      if negb (inR w h ni) then os
      else if negb (z_lab s ni =? 0) then os
      else
        let lab := cset (z_lab s) ni (z_lab s (snd c)) in
        let r := if z_dem s ni <=? fst c
                 then ProcessPit_onepass w h (fst c) (mkZ (cset (z_dem s) ni (fst c)) lab (z_pq s) (z_tr s) (z_dep s ++ [ni]))
                 else Some (mkZ (z_dem s) lab (z_pq s) (z_tr s ++ [ni]) (z_dep s)) in
        match r with Some s' => ProcessTraceQue_onepass w h s' | None => None end
  end.

(** Zhou2016.hpp:159-188; [None]: the fuel of some loop is exhausted *)
Fixpoint zm_loop (tb : nat -> nat) (w h : Z) (fuel i : nat) (s : zst) : option zst :=
  match pq_pop (fun a b : Z * cellt => fst a >? fst b) (tb i) (z_pq s) with
  | None => Some s
  | Some (c, q) =>
      match fuel with
      | O => None
      | S f => match fold_left (zm_visit w h c) (dirs D8) (Some (mkZ (z_dem s) (cset (z_lab s) (snd c) 10) q (z_tr s) (z_dep s))) with
               | Some s' => zm_loop tb w h f (S i) s'
               | None => None
               end
      end
  end.

(** Zhou2016.hpp:143-158: top row, bottom row, left column, right column; cells can be placed twice and are not labelled *)
Definition z_seeds (w h : Z) : list cellt :=
  map (fun x => (x, 0)) (zrange 0 (Z.to_nat w)) ++ map (fun x => (x, h - 1)) (zrange 0 (Z.to_nat w)) ++
  map (fun y => (0, y)) (zrange 1 (Z.to_nat (h - 2))) ++ map (fun y => (w - 1, y)) (zrange 1 (Z.to_nat (h - 2))).

(** Zhou2016.hpp:122-193 *)
Definition PriorityFlood_Zhou2016 (tb : nat -> nat) (w h : Z) (dem : grid Z) : option (grid Z) :=
  let e := fun c : cellt => dem (fst c) (snd c) in
  option_map (fun s => fun x y => z_dem s (x, y))
    (zm_loop tb w h (length (z_seeds w h) + Z.to_nat w * Z.to_nat h) 0
      (mkZ e (fun _ => 0) (rev (map (fun c => (e c, c)) (z_seeds w h))) [] [])).

(** depressions.hpp:13-21 FillDepressions *)
Definition FillDepressions (tb : nat -> nat) (t : topology) (w h : Z) (dem : grid Z) : option (grid Z) :=
  match t with D8 => PriorityFlood_Zhou2016 tb w h dem | D4 => PriorityFlood_Barnes2014 tb D4 w h dem end.
