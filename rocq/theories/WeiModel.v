(** Model of include/richdem/depressions/Wei2018.hpp. Cells are pairs (x,y); an access outside the raster is undefined.
    Elevations are integers (or any NaN-free totally ordered type); the order among equal elevations in the priority
    queue is left open: [tb]. A GridCellZ is the pair of its elevation and its cell. *)
From Coq Require Import ZArith List Lia Bool.
From Verif Require Import Base Res FlowModel FlatsModel ZhouModel.
Open Scope Z_scope.

Record wst := mkW { w_dem : cellt -> Z; w_flag : cellt -> bool; w_pq : list (Z * cellt); w_tr : list (Z * cellt);
                    w_dep : list (Z * cellt); w_pot : list (Z * cellt) }.

(** Array2D.hpp:898-915 operator()(x,y) *)
Definition cat {A} (w h : Z) (f : cellt -> A) (c : cellt) : res A := if inR w h c then Ok (f c) else Undef.
Definition put {A} (w h : Z) (f : cellt -> A) (c : cellt) (a : A) : res (cellt -> A) := if inR w h c then Ok (cset f c a) else Undef.

(** ** InitPriorityQue, Wei2018.hpp:14-49 *)
(** 30-43: a neighbour of a NoData cell *)
Definition wi_near (w h : Z) (nd : Z) (c : cellt) (n : nat) (s : wst) : res wst :=
  let ni := off c n in
  if negb (inR w h ni) then Ok s
  else do f <- cat w h (w_flag s) ni;
    if f then Ok s
    else do z <- cat w h (w_dem s) ni;
      if z =? nd then Ok s
      else do fl <- put w h (w_flag s) ni true; Ok (mkW (w_dem s) fl ((z, ni) :: w_pq s) (w_tr s) (w_dep s) (w_pot s)).
(** 25-48 *)
Definition wi_cell (w h : Z) (nd : Z) (c : cellt) (s : wst) : res wst :=
  do f <- cat w h (w_flag s) c;
  if f then Ok s
  else do z <- cat w h (w_dem s) c;
    if z =? nd then do fl <- put w h (w_flag s) c true; forM (dirs D8) (wi_near w h nd c) (mkW (w_dem s) fl (w_pq s) (w_tr s) (w_dep s) (w_pot s))
    else if isEdgeCell w h (fst c) (snd c)
    then do fl <- put w h (w_flag s) c true; Ok (mkW (w_dem s) fl ((z, c) :: w_pq s) (w_tr s) (w_dep s) (w_pot s))
    else Ok s.
Definition InitPriorityQue (w h : Z) (nd : Z) (s : wst) : res wst := forM (scan w h) (wi_cell w h nd) s.

(** ** ProcessTraceQue, Wei2018.hpp:54-117 *)
(** What a neighbour loop hands on: the queues, Mask (for cells instead of offsets from the node; every index in use lies
    within the 5x5 array), and whether the loop was left by [break]. *)
Definition wt_state : Type := wst * (cellt -> bool) * bool.
(** 67-100 *)
Definition wt_visit (w h : Z) (node : Z * cellt) (n : nat) (t : wt_state) : res wt_state :=
  let '(s, mask, stop) := t in
  if stop then Ok t
  else
    let ni := off (snd node) n in
    do f <- cat w h (w_flag s) ni;
    if f then Ok t
    else do z <- cat w h (w_dem s) ni;
      if z >? fst node
      then do fl <- put w h (w_flag s) ni true; Ok (mkW (w_dem s) fl (w_pq s) (w_tr s ++ [(z, ni)]) (w_dep s) (w_pot s), mask, false)
      else
        do have <- anyM (dirs D8) (fun k =>
          let nni := off ni k in
          if mask nni then Ok true
          else do g <- cat w h (w_flag s) nni; if g then do zz <- cat w h (w_dem s) nni; Ok (zz <? fst node) else Ok false);
        if have then Ok (s, cset mask ni true, false)
        else if (n <? 2)%nat then Ok (mkW (w_dem s) (w_flag s) (w_pq s) (w_tr s) (w_dep s) (w_pot s ++ [node]), mask, true)
        else Ok (mkW (w_dem s) (w_flag s) (node :: w_pq s) (w_tr s) (w_dep s) (w_pot s), mask, true).
(** 62-66 *)
Definition wt_pop (i : nat) (s : wst) : option ((Z * cellt) * wst) :=
  match w_tr s with [] => None | c :: q => Some (c, mkW (w_dem s) (w_flag s) (w_pq s) q (w_dep s) (w_pot s)) end.
Definition wt_body (w h : Z) (node : Z * cellt) (s : wst) : res wst :=
  do t <- forM (dirs D8) (wt_visit w h node) (s, fun _ => false, false); Ok (fst (fst t)).
(** 102-117: the potential queue *)
Definition wq_pop (i : nat) (s : wst) : option ((Z * cellt) * wst) :=
  match w_pot s with [] => None | c :: q => Some (c, mkW (w_dem s) (w_flag s) (w_pq s) (w_tr s) (w_dep s) q) end.
Definition wq_body (w h : Z) (node : Z * cellt) (s : wst) : res wst :=
  do free <- anyM (dirs D8) (fun n => do f <- cat w h (w_flag s) (off (snd node) n); Ok (negb f));
  if free then Ok (mkW (w_dem s) (w_flag s) (node :: w_pq s) (w_tr s) (w_dep s) (w_pot s)) else Ok s.
Definition wei_fuel (w h : Z) : nat := S (Z.to_nat w * Z.to_nat h).
Definition then_w (m : option (res wst)) (f : wst -> option (res wst)) : option (res wst) :=
  match m with Some (Ok s) => f s | Some Thrown => Some Thrown | Some Undef => Some Undef | None => None end.
Definition ProcessTraceQue (w h : Z) (s : wst) : option (res wst) :=
  then_w (whileR wt_pop (wt_body w h) (wei_fuel w h) 0 s) (fun s1 => whileR wq_pop (wq_body w h) (wei_fuel w h) 0 s1).

(** ** ProcessPit, Wei2018.hpp:122-152 *)
Definition wp_visit (w h : Z) (node : Z * cellt) (n : nat) (s : wst) : res wst :=
  let ni := off (snd node) n in
  do f <- cat w h (w_flag s) ni;
  if f then Ok s
  else do z <- cat w h (w_dem s) ni;
    do fl <- put w h (w_flag s) ni true;
    if z >? fst node then Ok (mkW (w_dem s) fl (w_pq s) (w_tr s ++ [(z, ni)]) (w_dep s) (w_pot s))
    else do dm <- put w h (w_dem s) ni (fst node); Ok (mkW dm fl (w_pq s) (w_tr s) (w_dep s ++ [(fst node, ni)]) (w_pot s)).
Definition wp_pop (i : nat) (s : wst) : option ((Z * cellt) * wst) :=
  match w_dep s with [] => None | c :: q => Some (c, mkW (w_dem s) (w_flag s) (w_pq s) (w_tr s) q (w_pot s)) end.
Definition ProcessPit (w h : Z) (s : wst) : option (res wst) :=
  whileR wp_pop (fun c s => forM (dirs D8) (wp_visit w h c) s) (wei_fuel w h) 0 s.

(** ** PriorityFlood_Wei2018, Wei2018.hpp:157-203 *)
(** 178-198 *)
Definition wm_visit (w h : Z) (c : Z * cellt) (os : option (res wst)) (n : nat) : option (res wst) :=
  then_w os (fun s =>
    let ni := off (snd c) n in
    if negb (inR w h ni) then Some (Ok s)
    else match (do f <- cat w h (w_flag s) ni; do z <- cat w h (w_dem s) ni; do fl <- put w h (w_flag s) ni true; Ok (f, z, fl)) with
    | Ok (f, z, fl) =>
        if f then Some (Ok s)
        else then_w (if z <=? fst c
                     then ProcessPit w h (mkW (cset (w_dem s) ni (fst c)) fl (w_pq s) (w_tr s) (w_dep s ++ [(fst c, ni)]) (w_pot s))
                     else Some (Ok (mkW (w_dem s) fl (w_pq s) (w_tr s ++ [(z, ni)]) (w_dep s) (w_pot s))))
               (ProcessTraceQue w h)
    | Thrown => Some Thrown
    | Undef => Some Undef
    end).
(** 173-199; [None]: the fuel of some loop is exhausted *)
Fixpoint wm_loop (tb : nat -> nat) (w h : Z) (fuel i : nat) (s : wst) : option (res wst) :=
  match pq_pop (fun a b : Z * cellt => fst a >? fst b) (tb i) (w_pq s) with
  | None => Some (Ok s)
  | Some (c, q) =>
      match fuel with
      | O => None
      | S f => then_w (fold_left (wm_visit w h c) (dirs D8) (Some (Ok (mkW (w_dem s) (w_flag s) q (w_tr s) (w_dep s) (w_pot s)))))
                 (fun s' => wm_loop tb w h f (S i) s')
      end
  end.
Definition PriorityFlood_Wei2018 (tb : nat -> nat) (w h : Z) (nd : Z) (dem : grid Z) : option (res (grid Z)) :=
  match then_w (Some (InitPriorityQue w h nd (mkW (fun c => dem (fst c) (snd c)) (fun _ => false) [] [] [] [])))
          (wm_loop tb w h (Z.to_nat w * Z.to_nat h) 0) with
  | Some (Ok s) => Some (Ok (fun x y => w_dem s (x, y)))
  | Some Thrown => Some Thrown
  | Some Undef => Some Undef
  | None => None
  end.
