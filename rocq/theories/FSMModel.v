(** Fill-Spill-Merge: include/richdem/depressions/fill_spill_merge.hpp.
    Water amounts (double, wtd_t) are exact rationals; elevations are integers as in DHModel.v. The
    water_vol fields of the depressions are kept in a list parallel to the list of depressions.
    Logging, timers and progress bars are omitted. *)
From Coq Require Import ZArith List Lia Bool QArith Qcanon.
From Verif Require Import Base Res QcTac Kahn FlowModel FlatsModel DHModel.
Open Scope Z_scope.

(** ** MoveWaterIntoPits (lines 226-322) *)

(** lines 244-253: the number of neighbours flowing into the cell [c]. (Array2D<char>: at most 8.) *)
Definition donors_of (fd : grid Z) (w h : Z) (c : cellt) : res Z :=
  forM (dirs D8) (fun n k =>
    let nx := fst c + dx D8 n in
    let ny := snd c + dy D8 n in
    if negb (inGrid w h nx ny) then Ok k
    else do f <- gat w h fd nx ny;
         Ok (if f =? Z.of_nat (dinverse D8 n) then k + 1 else k)) 0.

(** lines 241-253. Parallel loop: an iteration reads the flow directions and writes only the counter of
    its own cell, so an execution is given by the order [order] in which the cells are written. *)
Definition mwp_deps (fd : grid Z) (w h : Z) (order : list cellt) : res (cellt -> Z) :=
  forM order (fun c d => do k <- donors_of fd w h c; Ok (cset d c k)) (fun _ => 0).

(** dependencies, wtd and queue; water_vol of the depressions *)
Record mstate := mkM { m_k : @kst cellt Qc; m_wv : list Qc }.

(** Array2D.hpp:592-595 xyToI: the arguments must lie in the raster (assert) *)
Definition flat (w h x y : Z) : res Z := if inGrid w h x y then Ok (y * w + x) else Undef.

(** lines 271-317: the body of the loop for the cell [c] *)
Definition mwp_step (lab fd : grid Z) (w h : Z) (c : cellt) (s : mstate) : res mstate :=
  let k := m_k s in
  do ndir <- gat w h fd (fst c) (snd c);
  do ni <- (if negb (ndir =? NO_FLOW) then
              do o <- off8 ndir;
              do i <- flat w h (fst c + fst o) (snd c + snd o);
              Ok (i, (fst c + fst o, snd c + snd o))
            else Ok (NO_FLOW, c));
  let '(i, n) := ni in
  if i =? NO_FLOW then
    if qlt 0 (k_val k c) then
      do l <- gat w h lab (fst c) (snd c);
      do a <- rd (m_wv s) l;
      do wv' <- wr (m_wv s) l (a + k_val k c)%Qc;
      Ok (mkM (mkK (k_dep k) (cset (k_val k) c 0%Qc) (k_q k)) wv')
    else Ok s
  else
    let val' := if qlt 0 (k_val k c) then cset (cset (k_val k) n (k_val k n + k_val k c)%Qc) c 0%Qc else k_val k in
    let dep' := cset (k_dep k) n (k_dep k n - 1) in
    Ok (mkM (mkK dep' val' (if dep' n =? 0 then k_q k ++ [n] else k_q k)) (m_wv s)).

Definition mpop (i : nat) (s : mstate) : option (cellt * mstate) :=
  match kpop i (m_k s) with Some (c, k) => Some (c, mkM k (m_wv s)) | None => None end.

(** lines 260-318; the result is the water table and the depressions' water *)
Definition MoveWaterIntoPits (lab fd : grid Z) (w h : Z) (order : list cellt) (wv : list Qc) (wtd : cellt -> Qc) :
    option (res ((cellt -> Qc) * list Qc)) :=
  match mwp_deps fd w h order with
  | Ok d =>
      let src := filter (fun c => d c =? 0) (scan w h) in
      match whileR mpop (mwp_step lab fd w h) (Z.to_nat w * Z.to_nat h) 0 (mkM (mkK d wtd src) wv) with
      | Some (Ok s) => Some (Ok (k_val (m_k s), m_wv s))
      | Some Thrown => Some Thrown
      | Some Undef => Some Undef
      | None => None
      end
  | Thrown => Some Thrown
  | Undef => Some Undef
  end.

(** ** MoveWaterInDepHier and OverflowInto (lines 366-456, 503-598) *)

(** common/math.hpp:15, 32-34: fp_eq *)
Definition fp_error : Qc := Q2Qc (1 # 1000000).
Definition fp_eq (a b : Qc) : bool := qlt (a - b) fp_error && qlt (b - a) fp_error.

(** comparisons with dep_vol; comparing with the ocean's NaN yields false *)
Definition over (v : option Z) (q : Qc) : bool := match v with Some z => qlt (zq z) q | None => false end.
Definition under (v : option Z) (q : Qc) : bool := match v with Some z => qlt q (zq z) | None => false end.
Definition at_brim (v : option Z) (q : Qc) : bool := match v with Some z => qeq q (zq z) | None => false end.

(** lines 515-524 and 572-577: pick up what exceeds the volume [v] of depression [i] *)
Definition ov_take (v : option Z) (i : Z) (wv : list Qc) (extra : Qc) : res (list Qc * Qc) :=
  do q <- at_ wv i;
  match v with
  | Some z => if qlt (zq z) q then do wv' <- wr wv i (zq z); Ok (wv', (extra + (q - zq z))%Qc) else Ok (wv, extra)
  | None => Ok (wv, extra)
  end.

(** lines 541-550: stash water in depression [i] *)
Definition ov_stash (v : option Z) (i : Z) (wv : list Qc) (extra : Qc) : res (list Qc * Qc) :=
  do q <- at_ wv i;
  match v with
  | Some z =>
      if qlt q (zq z) then
        let capacity := (zq z - q)%Qc in
        if qlt extra capacity then do wv' <- wr wv i (qmin (q + extra) (zq z)); Ok (wv', 0%Qc)
        else do wv' <- wr wv i (zq z); Ok (wv', (extra - capacity)%Qc)
      else Ok (wv, extra)
  | None => Ok (wv, extra)
  end.

(** return, or recursive call *)
Inductive ov_next := Done (r : Z) (wv : list Qc) | Go (next : Z) (wv : list Qc) (extra : Qc).

(** lines 511-596: OverflowInto up to its recursive call *)
Definition ov_step (deps : list dep) (stop : Z) (jump : Z -> option Z) (root : Z) (wv : list Qc) (extra : Qc) : res ov_next :=
  do d <- at_ deps root;
  do t1 <- ov_take (d_vol d) root wv extra;
  let '(wv1, ex1) := t1 in
  if (root =? stop) || (root =? OCEAN) then
    do q <- at_ wv1 root;
    do wv2 <- wr wv1 root (q + ex1)%Qc;
    Ok (Done root wv2)
  else
    do t2 <- ov_stash (d_vol d) root wv1 ex1;
    let '(wv2, ex2) := t2 in
    if fp_eq ex2 0 then Ok (Done root wv2)
    else match jump root with
         | Some j => Ok (Go j wv2 ex2)
         | None =>
             do g <- (if negb (d_odep d =? NO_VALUE) then
                        do o <- at_ deps (d_odep d);
                        do q <- at_ wv2 (d_odep d);
                        if under (d_vol o) q then Ok (true, (wv2, ex2))
                        else do t3 <- ov_take (d_vol o) (d_odep d) wv2 ex2; Ok (false, t3)
                      else Ok (false, (wv2, ex2)));
             let '(hop, (wv3, ex3)) := g in
             if hop then Ok (Go (d_geolink d) wv3 ex3)
             else
               do _ <- at_ deps (d_parent d);
               do qp <- at_ wv3 (d_parent d);
               do wv4 <- (if qeq qp 0 && negb (d_ocean_parent d) then
                            do a <- at_ wv3 root;
                            do wv' <- wr wv3 (d_parent d) (qp + a)%Qc;
                            if negb (d_odep d =? NO_VALUE) then
                              do b <- at_ wv' (d_odep d);
                              do qp' <- at_ wv' (d_parent d);
                              wr wv' (d_parent d) (qp' + b)%Qc
                            else Ok wv'
                          else Ok wv3);
               Ok (Go (d_parent d) wv4 ex3)
         end.

(** lines 503-598. "return jump_table[root] = OverflowInto(...)": the table is written after the call
    returns (C++17). The result: where the water ended up, water_vol, jump table. *)
Definition jset (jump : Z -> option Z) (i v : Z) : Z -> option Z := fun j => if j =? i then Some v else jump j.
Fixpoint OverflowInto (fuel : nat) (deps : list dep) (stop : Z) (jump : Z -> option Z) (root : Z) (wv : list Qc) (extra : Qc) :
    option (res (Z * list Qc * (Z -> option Z))) :=
  match fuel with
  | O => None
  | S f =>
      match ov_step deps stop jump root wv extra with
      | Ok (Done r wv') => Some (Ok (r, wv', jump))
      | Ok (Go next wv' extra') =>
          match OverflowInto f deps stop jump next wv' extra' with
          | Some (Ok (r, wv'', jump')) => Some (Ok (r, wv'', jset jump' root r))
          | o => o
          end
      | Thrown => Some Thrown
      | Undef => Some Undef
      end
  end.

Record wstate := mkW { s_wv : list Qc; s_jump : Z -> option Z }.

(** lines 399-413: both children at the brim and nothing in the metadepression yet *)
Definition mw_merge (deps : list dep) (d : dep) (i : Z) (wv : list Qc) : res (list Qc) :=
  if negb (d_lchild d =? NO_VALUE) then
    do l <- at_ deps (d_lchild d);
    do ql <- at_ wv (d_lchild d);
    if at_brim (d_vol l) ql then
      do r <- at_ deps (d_rchild d);
      do qr <- at_ wv (d_rchild d);
      do q <- at_ wv i;
      if at_brim (d_vol r) qr && qeq q 0 then wr wv i (q + (ql + qr))%Qc else Ok wv
    else Ok wv
  else Ok wv.

(** lines 430-431 *)
Definition brim_or_none (deps : list dep) (c : Z) (wv : list Qc) : res unit :=
  if c =? NO_VALUE then Ok tt
  else do r <- at_ deps c; do q <- at_ wv c; assert_ (at_brim (d_vol r) q).

(** lines 440-449 *)
Definition not_over (deps : list dep) (d : dep) (i : Z) (wv : list Qc) : res unit :=
  do q <- at_ wv i;
  if qeq q 0 || match d_vol d with Some z => qle q (zq z) | None => false end
     || ((d_lchild d =? NO_VALUE) && (d_rchild d =? NO_VALUE)) then Ok tt
  else do _ <- assert_ (negb (d_lchild d =? NO_VALUE) && negb (d_rchild d =? NO_VALUE));
       do ql <- at_ wv (d_lchild d);
       do _ <- assert_ (qlt ql q);
       do qr <- at_ wv (d_rchild d);
       assert_ (qlt qr q).

(** lines 399-450: what MoveWaterInDepHier does with a depression after all its subcalls *)
Definition mw_own (deps : list dep) (i : Z) (s : wstate) : option (res wstate) :=
  match (do d <- at_ deps i;
         do wv1 <- mw_merge deps d i (s_wv s);
         do q <- at_ wv1 i;
         if over (d_vol d) q then
           do _ <- brim_or_none deps (d_lchild d) wv1;
           do _ <- brim_or_none deps (d_rchild d) wv1;
           Ok (Some d, wv1)
         else Ok (None, wv1)) with
  | Ok (None, wv1) => Some (Ok (mkW wv1 (s_jump s)))
  | Ok (Some d, wv1) =>
      match OverflowInto (S (length deps)) deps (d_parent d) (s_jump s) i wv1 0%Qc with
      | Some (Ok (_, wv2, jump2)) =>
          match not_over deps d i wv2 with
          | Ok _ => Some (Ok (mkW wv2 jump2))
          | Thrown => Some Thrown | Undef => Some Undef
          end
      | Some Thrown => Some Thrown | Some Undef => Some Undef | None => None
      end
  | Thrown => Some Thrown
  | Undef => Some Undef
  end.

(** lines 366-456 MoveWaterInDepHier; [fuel] bounds the depth of the recursion *)
Definition andthen {A} (o : option (res A)) (f : A -> option (res A)) : option (res A) :=
  match o with Some (Ok a) => f a | _ => o end.
Fixpoint MoveWaterInDepHier (fuel : nat) (deps : list dep) (i : Z) (s : wstate) : option (res wstate) :=
  if i =? NO_VALUE then Some (Ok s)
  else match fuel with
       | O => None
       | S f =>
           match at_ deps i with
           | Ok d =>
               andthen (forO (d_ocean_linked d) (MoveWaterInDepHier f deps) s) (fun s1 =>
               andthen (MoveWaterInDepHier f deps (d_lchild d) s1) (fun s2 =>
               andthen (MoveWaterInDepHier f deps (d_rchild d) s2) (fun s3 =>
               if i =? OCEAN then Some (Ok s3) else mw_own deps i s3)))
           | Thrown => Some Thrown
           | Undef => Some Undef
           end
       end.

(** lines 162-174: the call in FillSpillMerge *)
Definition route_water (deps : list dep) (wv : list Qc) : option (res (list Qc)) :=
  match MoveWaterInDepHier (length deps) deps OCEAN (mkW wv (fun _ => None)) with
  | Some (Ok s) => Some (Ok (s_wv s))
  | Some Thrown => Some Thrown | Some Undef => Some Undef | None => None
  end.


(** ** Spreading the water of a depression over its cells (lines 600-1070) *)

(** common/math.hpp:22-29 *)
Definition fp_le (a b : Qc) : bool := qlt a b || fp_eq a b.
Definition fp_ge (a b : Qc) : bool := qlt b a || fp_eq a b.

(** lines 956-963 DepressionVolume: the water under the level of the sill in [n] cells of total elevation
    [total] *)
Definition DepressionVolume (sill : Z) (n : nat) (total : Z) : Z := Z.of_nat n * sill - total.

(** lines 1012-1058 DetermineWaterLevel: the water table of the sill cell afterwards (a reference
    parameter), and the level of the water. A failing assertion is Undef. *)
Definition DetermineWaterLevel (sill_wtd vol : Qc) (sill : Z) (n : nat) (total : Z) : res (Qc * Qc) :=
  let cur := zq (DepressionVolume sill n total) in
  if qlt cur vol then
    let vol' := if fp_eq vol cur then cur else vol in
    do _ <- assert_ (fp_le vol' (cur - sill_wtd)%Qc);
    let fill := (vol' - cur)%Qc in
    do _ <- assert_ (qle 0 fill);
    do _ <- assert_ (qle fill (- sill_wtd)%Qc);
    Ok ((sill_wtd + fill)%Qc, zq sill)
  else if fp_eq vol cur then Ok (sill_wtd, zq sill)
  else if Nat.eqb n 0 then Undef (* division by zero *)
  else let nominal := ((vol + zq total) / zq (Z.of_nat n))%Qc in
       Ok (sill_wtd, if fp_eq nominal (zq sill) then zq sill else nominal).

(** lines 972-999 BackfillDepression *)
Definition BackfillDepression (w h : Z) (dem : grid Z) (level : Qc) (cells_affected : list cellt) (wtd : cellt -> Qc) :
    res (cellt -> Qc) :=
  forM cells_affected (fun c wt =>
    do _ <- assert_ (qeq (wt c) 0);
    do e <- gat w h dem (fst c) (snd c);
    do _ <- (if qlt level (zq e) then assert_ (fp_ge level (zq e)) else Ok tt);
    Ok (cset wt c (qmax 0 (level - zq e)))) wtd.

(** the variables of FillDepressions: flood_q, visited, cells_affected, total_elevation, water_vol, wtd *)
Record lstate := mkL {
  l_q : list (Z * cellt); l_seen : cellt -> bool; l_aff : list cellt; l_total : Z; l_vol : Qc; l_wtd : cellt -> Qc }.

Definition l_push (k : Z) (c : cellt) (s : lstate) : lstate :=
  mkL ((k, c) :: l_q s) (cset (l_seen s) c true) (l_aff s) (l_total s) (l_vol s) (l_wtd s).

Section Fill.
  Variables (w h : Z) (dem lab : grid Z).
  (** dep_labels, pit_cell, out_cell *)
  Variables (labels : list Z) (pit out : cellt).
  Definition mine (l : Z) : bool := existsb (Z.eqb l) labels.

  (** lines 900-924: neighbour [n] of the cell [c] *)
  Definition fill_visit (c : cellt) (n : nat) (s : lstate) : res lstate :=
    let q := (fst c + dx D8 n, snd c + dy D8 n) in
    if negb (inGrid w h (fst q) (snd q)) then Ok s
    else do l <- gat w h lab (fst q) (snd q);
      if negb (mine l) && negb (ceqb q out) then Ok s
      else do e <- gat w h dem (fst q) (snd q);
        do oe <- gat w h dem (fst out) (snd out);
        if e >? oe then Ok s
        else if l_seen s q then Ok s
        else Ok (l_push e q s).

  (** lines 883-897: the cell's water table is filled up *)
  Definition fill_absorb (c : cellt) (e : Z) (s : lstate) : res lstate :=
    if ceqb c out then Ok s
    else do _ <- assert_ (qle (l_wtd s c) 0);
      Ok (mkL (l_q s) (l_seen s) (l_aff s ++ [c]) (l_total s + e) (l_vol s + l_wtd s c)%Qc (cset (l_wtd s) c 0%Qc)).

  (** lines 861-879: there is room for all the water *)
  Definition fill_finish (c : cellt) (e : Z) (s : lstate) : res (cellt -> Qc) :=
    do r <- DetermineWaterLevel (l_wtd s c) (l_vol s) e (length (l_aff s)) (l_total s);
    let '(sw, lev) := r in
    do oe <- gat w h dem (fst out) (snd out);
    let level := if fp_eq lev (zq oe) then zq oe else lev in
    do _ <- (match rev (l_aff s) with
             | [] => Ok tt
             | b :: _ => do eb <- gat w h dem (fst b) (snd b); assert_ (fp_le (zq eb) level)
             end);
    do _ <- assert_ (qlt level (zq e) || fp_eq (zq e) level);
    BackfillDepression w h dem level (l_aff s) (cset (l_wtd s) c sw).

  (** lines 822-938: one round of the loop with the cell [c]; [inl]: the function returns *)
  Definition fill_body (c : cellt) (s : lstate) : res ((cellt -> Qc) + lstate) :=
    do e <- gat w h dem (fst c) (snd c);
    let cur := zq (DepressionVolume e (length (l_aff s)) (l_total s)) in
    do _ <- assert_ (qle 0 (l_vol s));
    do l <- gat w h lab (fst c) (snd c);
    if mine l && qlt 0 (l_wtd s c) then Thrown
    else if fp_le (l_vol s) (cur - l_wtd s c)%Qc then
      do wt <- fill_finish c e s; Ok (inl wt)
    else
      do s1 <- fill_absorb c e s;
      do s2 <- forM (dirs D8) (fill_visit c) s1;
      match l_q s2 with
      | [] => do oe <- gat w h dem (fst out) (snd out); Ok (inr (l_push oe out s2))
      | _ => Ok (inr s2)
      end.

  (** flood_q.top(), pop(): GridCellZk_high_pq returns the most recently added among the lowest cells
      (grid_cell.hpp:102-110); here any of the lowest may be chosen ([tb]). *)
  Definition fill_pop (tb : nat -> nat) (i : nat) (s : lstate) : option ((Z * cellt) * lstate) :=
    match pq_pop key_gt (tb i) (l_q s) with
    | Some (c, q) => Some (c, mkL q (l_seen s) (l_aff s) (l_total s) (l_vol s) (l_wtd s))
    | None => None
    end.
  Fixpoint fill_loop (tb : nat -> nat) (fuel : nat) (i : nat) (s : lstate) : option (res (cellt -> Qc)) :=
    match fill_pop tb i s with
    | None => Some Thrown
    | Some (kc, s1) =>
        match fuel with
        | O => None
        | S f => match fill_body (snd kc) s1 with
                 | Ok (inl wt) => Some (Ok wt)
                 | Ok (inr s2) => fill_loop tb f (S i) s2
                 | Thrown => Some Thrown
                 | Undef => Some Undef
                 end
        end
    end.

  (** lines 769-946 FillDepressions. If the code loops forever, this is [None] for every [fuel] *)
  Definition FillDepressions (tb : nat -> nat) (fuel : nat) (vol : Qc) (wtd : cellt -> Qc) : option (res (cellt -> Qc)) :=
    if qeq vol 0 then Some (Ok wtd)
    else match gat w h dem (fst pit) (snd pit) with
         | Ok e => fill_loop tb fuel 0 (mkL [(e, pit)] (cset (fun _ => false) pit true) [] 0 vol wtd)
         | Thrown => Some Thrown
         | Undef => Some Undef
         end.
End Fill.

(** ** Finding the depressions to fill (lines 600-735) *)
(** lines 608-622 SubtreeDepressionInfo; my_labels (a set) is a list, of which only membership is used *)
Record subinfo := mkSub { si_leaf : Z; si_top : Z; si_labels : list Z }.
Definition no_info : subinfo := mkSub NO_VALUE NO_VALUE [].

(** lines 688-699 *)
Definition combine_info (cur : Z) (l r : subinfo) : subinfo :=
  mkSub (if si_leaf l =? NO_VALUE then cur else si_leaf l) cur (cur :: si_labels l ++ si_labels r).

(** line 713 *)
Definition fill_now (deps : list dep) (wv : list Qc) (d : dep) (q : Qc) : res bool :=
  if under (d_vol d) q then Ok true
  else if d_ocean_parent d then Ok true
  else if at_brim (d_vol d) q then
    do _ <- at_ deps (d_parent d);
    do qp <- at_ wv (d_parent d);
    Ok (qeq qp 0)
  else Ok false.

(** the water does not exceed the volume (lines 705, 714) *)
Definition fits (v : option Z) (q : Qc) : bool := match v with Some z => qle q (zq z) | None => false end.

Section Find.
  Variables (w h : Z) (dem lab : grid Z) (deps : list dep) (wv : list Qc).
  (** the ties of the priority queue in the call of FillDepressions for each depression *)
  Variable tbs : Z -> nat -> nat.

  (** lines 701-734: what is done with a depression after its subdepressions. (Every depression but the
      ocean has a pit cell and an outlet cell.) *)
  Definition fd_own (cur : Z) (d : dep) (l r : subinfo) (wtd : cellt -> Qc) : option (res (subinfo * (cellt -> Qc))) :=
    let c := combine_info cur l r in
    match (do q <- at_ wv cur;
           do _ <- assert_ (fits (d_vol d) q);
           do now <- fill_now deps wv d q;
           if negb now then Ok None
           else do _ <- assert_ (fits (d_vol d) q);
             do lf <- at_ deps (si_leaf c);
             do tp <- at_ deps (si_top c);
             match d_pit lf, d_out tp with
             | Some p, Some o => Ok (Some (p, o, q))
             | _, _ => Undef
             end) with
    | Ok None => Some (Ok (c, wtd))
    | Ok (Some (p, o, q)) =>
        match FillDepressions w h dem lab (si_labels c) p o (tbs cur) (2 * Z.to_nat (w * h)) q wtd with
        | Some (Ok wtd') => Some (Ok (no_info, wtd'))
        | Some Thrown => Some Thrown | Some Undef => Some Undef | None => None
        end
    | Thrown => Some Thrown
    | Undef => Some Undef
    end.

  (** lines 650-735 FindDepressionsToFill; [fuel] bounds the depth of the recursion *)
  Definition then_ {A B} (o : option (res A)) (f : A -> option (res B)) : option (res B) :=
    match o with Some (Ok a) => f a | Some Thrown => Some Thrown | Some Undef => Some Undef | None => None end.
  Fixpoint FindDepressionsToFill (fuel : nat) (cur : Z) (wtd : cellt -> Qc) : option (res (subinfo * (cellt -> Qc))) :=
    if cur =? NO_VALUE then Some (Ok (no_info, wtd))
    else match fuel with
         | O => None
         | S f =>
             match at_ deps cur with
             | Ok d =>
                 then_ (forO (d_ocean_linked d) (fun c wt => then_ (FindDepressionsToFill f c wt) (fun iw => Some (Ok (snd iw)))) wtd) (fun wt1 =>
                 if cur =? OCEAN then Some (Ok (no_info, wt1))
                 else then_ (FindDepressionsToFill f (d_lchild d) wt1) (fun lw =>
                      then_ (FindDepressionsToFill f (d_rchild d) (snd lw)) (fun rw =>
                      fd_own cur d (fst lw) (fst rw) (snd rw))))
             | Thrown => Some Thrown
             | Undef => Some Undef
             end
         end.
End Find.

(** ** FillSpillMerge (lines 141-195) *)
(** lines 1066-1070 ResetDH *)
Definition ResetDH (wv : list Qc) : list Qc := map (fun _ => 0%Qc) wv.

(** lines 177-182: the sanity checks for depression [i] *)
Definition sane_child (d : dep) (c : Z) (q : Qc) (wv : list Qc) : res unit :=
  if qeq q 0 || ((d_lchild d =? NO_VALUE) && (d_rchild d =? NO_VALUE)) then Ok tt
  else do _ <- assert_ (negb (c =? NO_VALUE));
       do qc <- at_ wv c;
       assert_ (qlt qc q).
Definition sane (deps : list dep) (wv : list Qc) (i : Z) : res unit :=
  do d <- at_ deps i;
  do q <- at_ wv i;
  do _ <- assert_ (qeq q 0 || fits (d_vol d) q);
  do _ <- sane_child d (d_lchild d) q wv;
  sane_child d (d_rchild d) q wv.

(** lines 141-195. [wv] is the water left in the hierarchy by earlier uses; the result is the water table
    and the depressions' water. *)
Definition FillSpillMerge (w h : Z) (dem lab fd : grid Z) (deps : list dep) (order : list cellt) (tbs : Z -> nat -> nat)
    (wv : list Qc) (wtd : cellt -> Qc) : option (res ((cellt -> Qc) * list Qc)) :=
  then_ (MoveWaterIntoPits lab fd w h order (ResetDH wv) wtd) (fun r1 =>
  let '(wtd1, wv1) := r1 in
  then_ (route_water deps wv1) (fun wv2 =>
  match forM (zrange 1 (length deps - 1)) (fun i _ => sane deps wv2 i) tt with
  | Ok _ => then_ (FindDepressionsToFill w h dem lab deps wv2 tbs (length deps) OCEAN wtd1) (fun r2 => Some (Ok (snd r2, wv2)))
  | Thrown => Some Thrown
  | Undef => Some Undef
  end)).
