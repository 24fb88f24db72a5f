(** Model of programs/parallel_d8_accum: perimeters.hpp and main.cpp.
    Accumulations are mathematical integers (the code uses double, exact below 2^53); NoData is one value [fnd] for all tiles.
    The grid of tiles (TileInfo, Preparer) is the same code as in parallel_priority_flood and is taken from PPFModel:
    gridwidth, gridheight, tw, th: main.cpp:1319-1322, 1367-1368 here; tile_edges: main.cpp:1278-1290 and 1382-1389 here;
    tiles: main.cpp:1040-1048 and 1084-1094 here. [files] are the rasters of flow directions. [ties] is not used.
    Reading and writing rasters with GDAL, serialisation, timing and logging are not modelled: a job reaches the consumer it
    is sent to and the reply comes back unchanged, at any time. *)
From Coq Require Import ZArith List Lia Bool.
From Verif Require Import Base Res Kahn FlowModel PPFModel.
Open Scope Z_scope.

(** main.cpp:81, 92: conversion to link_t and p_dependency_t, both uint16_t *)
Definition w16 (z : Z) : Z := z mod 65536.
(** main.cpp:96, 101, 105 *)
Definition FLOW_NO_DOWNSTREAM : Z := w16 (-1).
Definition FLOW_TERMINATES : Z := w16 (-2).
Definition FLOW_EXTERNAL : Z := w16 (-3).

(** std::vector::at *)
Definition vat {A} (l : list A) (i : Z) : res A := match ix l i with Some a => Ok a | None => Thrown end.
Definition vset {A} (l : list A) (i : Z) (v : A) : res (list A) :=
  if (0 <=? i) && (i <? Z.of_nat (length l)) then Ok (upd_nth (Z.to_nat i) v l) else Thrown.

(** ** perimeters.hpp *)
(** the asserted condition of lines 10 and 42 *)
Definition on_perim (w h : Z) (c : cellt) : bool :=
  ((fst c =? 0) || (fst c =? w - 1) || (snd c =? 0) || (snd c =? h - 1)) &&
  (0 <=? fst c) && (0 <=? snd c) && (fst c <? w) && (snd c <? h).
(** lines 8-23 *)
Definition xyToSerial (w h : Z) (c : cellt) : res Z :=
  let '(x, y) := c in
  if negb (on_perim w h c) then Undef (* assert *)
  else Ok (if y =? 0 then x
           else if x =? w - 1 then (w - 1) + y
           else if y =? h - 1 then (w - 1) + h + x
           else 2 * (w - 1) + (h - 1) + y).
(** lines 26-43 *)
Definition serialToXY (w h s : Z) : res cellt :=
  let c := if s <? w then (s, 0)
           else if s <? (w - 1) + h then (w - 1, s - (w - 1))
           else if s <? 2 * (w - 1) + h then (s - (w - 1) - (h - 1) - 1, h - 1)
           else (0, s - 2 * (w - 1) - (h - 1)) in
  if negb (on_perim w h c) then Undef (* assert *) else Ok c.
(** lines 46-62. If the raster has one row, the range begin()+1 .. end()-1 of the last insert is not a range. *)
Definition GridPerimToArray (w h : Z) (g : cellt -> Z) : res (list Z) :=
  if h <=? 1 then Undef
  else Ok (map (fun x => g (x, 0)) (zrange 0 (Z.to_nat w)) ++ map (fun y => g (w - 1, y)) (zrange 1 (Z.to_nat (h - 1))) ++
           map (fun x => g (x, h - 1)) (zrange 0 (Z.to_nat (w - 1))) ++ map (fun y => g (0, y)) (zrange 1 (Z.to_nat (h - 2)))).

(** ** main.cpp: what a consumer does with a tile of [w] x [h] cells *)
Section Tile.
  Variables (w h : Z) (fd : grid Z) (fnd : Z).

  (** main.cpp:287-328, the loop of FollowPath that began at [c0]: the value of the link. [fuel]: max_path_length *)
  Fixpoint walk (c0 : cellt) (fuel : nat) (c : cellt) : res Z :=
    match fuel with
    | O => Thrown (* main.cpp:332-333 *)
    | S f =>
        do n <- gat w h fd (fst c) (snd c);
        if (n =? fnd) || (n =? NO_FLOW) then Ok FLOW_TERMINATES
        else do o <- off8 n;
          let nc := (fst c + fst o, snd c + snd o) in
          if negb (inGrid w h (fst nc) (snd nc)) then
            if ceqb c c0 then Ok FLOW_EXTERNAL else do s <- xyToSerial w h c; Ok (w16 s)
          else walk c0 f nc
    end.
  (** main.cpp:270-334 FollowPath *)
  Definition FollowPath (c0 : cellt) (links : list Z) : res (list Z) :=
    do s0 <- xyToSerial w h c0;
    do l <- walk c0 (Z.to_nat (w * h)) c0;
    vset links s0 l.

  (** main.cpp:344-370 FollowPathAdd; out of [fuel]: the loop does not end *)
  Fixpoint FollowPathAdd (fuel : nat) (c : cellt) (accum : cellt -> Z) (additional : Z) : res (cellt -> Z) :=
    match fuel with
    | O => Undef
    | S f =>
        if negb (inGrid w h (fst c) (snd c)) then Ok accum
        else if fd (fst c) (snd c) =? fnd then Ok accum
        else
          let accum := cset accum c (accum c + additional) in
          let n := fd (fst c) (snd c) in
          if n =? NO_FLOW then Ok accum
          else do o <- off8 n; FollowPathAdd f (fst c + fst o, snd c + snd o) accum additional
    end.

  (** main.cpp:430-463, the body of the loop for the cell [c] taken off the stack. The dependencies are at most 8. *)
  Definition acc_step (c : cellt) (s : astate) : res astate :=
    let '(x, y) := c in
    do n <- gat w h fd x y;
    if n =? fnd then Ok s
    else
      let s1 := mkK (k_dep s) (cset (k_val s) c (k_val s c + 1)) (k_q s) in
      if n =? NO_FLOW then Ok s1
      else do o <- off8 n;
        let nx := x + fst o in
        let ny := y + snd o in
        if negb (inGrid w h nx ny) then Ok s1
        else do m <- gat w h fd nx ny;
          if m =? fnd then Ok s1
          else let val := cset (k_val s1) (nx, ny) (k_val s1 (nx, ny) + k_val s1 c) in
               let dep := cset (k_dep s1) (nx, ny) (k_dep s1 (nx, ny) - 1) in
               Ok (mkK dep val (if dep (nx, ny) =? 0 then (nx, ny) :: k_q s1 else k_q s1)).
  (** main.cpp:373-464 FlowAccumulation. The loop of 395-414 is [dep_step] of FlowModel: the same statements with flat indices;
      lines 420-423 push the sources in index order. *)
  Definition FlowAccumulation : res (cellt -> Z) :=
    do s <- forM (scan w h) (dep_step fd fnd w h) (mkK (fun _ => 0) (fun _ => 0) []);
    let src := rev (filter (fun c => (k_dep s c =? 0) && negb (fd (fst c) (snd c) =? fnd)) (scan w h)) in
    match whileR kpop acc_step (Z.to_nat w * Z.to_nat h) 0 (mkK (k_dep s) (k_val s) src) with
    | Some r => do s' <- r; Ok (k_val s')
    | None => Undef (* fuel; never happens *)
    end.

  (** main.cpp:502-510 VerifyInputSanity *)
  Definition VerifyInputSanity : res unit :=
    forM (scan w h) (fun c _ =>
      let n := fd (fst c) (snd c) in
      if negb (n =? fnd) && negb ((1 <=? n) && (n <=? 8)) && negb (n =? NO_FLOW) then Thrown else Ok tt) tt.

  (** main.cpp:189-210 Job1 *)
  Record pjob := mkP { p_links : list Z; p_accum : list Z; p_fd : list Z }.
  (** main.cpp:512-553 FirstRound *)
  Definition FirstRound (e : edges) (accum : cellt -> Z) : res pjob :=
    let links := repeat FLOW_TERMINATES (Z.to_nat (2 * w + 2 * (h - 2))) in
    do links <- (if negb (e_top e) then forM (zrange 0 (Z.to_nat w)) (fun x => FollowPath (x, 0)) links else Ok links);
    do links <- (if negb (e_bot e) then forM (zrange 0 (Z.to_nat w)) (fun x => FollowPath (x, h - 1)) links else Ok links);
    do links <- (if negb (e_left e) then forM (zrange 0 (Z.to_nat h)) (fun y => FollowPath (0, y)) links else Ok links);
    do links <- (if negb (e_right e) then forM (zrange 0 (Z.to_nat h)) (fun y => FollowPath (w - 1, y)) links else Ok links);
    do pf <- GridPerimToArray w h (fun c => fd (fst c) (snd c));
    do pa <- GridPerimToArray w h accum;
    Ok (mkP links pa pf).

  (** main.cpp:555-571 SecondRound without the flips; [n] is the size of job2. A walk visits at most w*h cells and leaves. *)
  Definition SecondRound (accum : cellt -> Z) (n : Z) (job2 : Z -> Z) : res (cellt -> Z) :=
    forM (zrange 0 (Z.to_nat n)) (fun s accum =>
      if job2 s =? 0 then Ok accum
      else do c <- serialToXY w h s; FollowPathAdd (S (Z.to_nat (w * h))) c accum (job2 s)) accum.
End Tile.

Section Program.
  Variables (L : layout) (fnd : Z).
  Notation tile := (Z * Z)%type.

  (** main.cpp:467-500 LoadFromEvict: flowdirs and accum. Array2D::flipHorz accesses memory outside the raster (ArrModel,
      C12_flipHorz_out_of_bounds_refuted); flipVert mirrors (C12_flipVert). *)
  Definition LoadFromEvict (t : tile) : res (grid Z * (cellt -> Z)) :=
    let w := tw L (fst t) in let h := th L (snd t) in
    if flipH L then Undef
    else
      let f := files L (fst t) (snd t) in
      let fd := if flipV L then fun x y => f x (h - 1 - y) else f in
      do a <- FlowAccumulation w h fd fnd; Ok (fd, a).

  (** a cell of the perimeter of a tile: main.cpp:783-789 atype *)
  Definition node : Type := tile * Z.
  Definition neqb (a b : node) : bool := teqb (fst a) (fst b) && (snd a =? snd b).
  Definition job_of (jobs : Z -> Z -> pjob) (t : tile) : pjob := jobs (fst t) (snd t).
  (** an element of jobs1 that was never received: main.cpp:1053 *)
  Definition nojob : pjob := mkP [] [] [].

  (** main.cpp:647-735 DownstreamCell; [None]: ns is FLOW_NO_DOWNSTREAM *)
  Definition DownstreamCell (jobs : Z -> Z -> pjob) (c : node) : res (option node) :=
    let '((gx, gy), s) := c in
    let j := jobs gx gy in
    if negb (Nat.eqb (length (p_links j)) (length (p_fd j))) then Undef (* assert *)
    else
      do l <- vat (p_links j) s;
      if l =? FLOW_TERMINATES then Ok None
      else do nfd <- vat (p_fd j) s;
        if nfd =? NO_FLOW then Ok None
        else if l =? FLOW_EXTERNAL then
          let w := tw L gx in let h := th L gy in
          do xy <- serialToXY w h s;
          do o <- off8 nfd;
          let nx := fst xy + fst o in let ny := snd xy + snd o in
          if negb ((nx =? -1) || (ny =? -1) || (nx =? w) || (ny =? h)) then Undef (* assert *)
          else
            let gnx := if nx =? w then gx + 1 else if nx =? -1 then gx - 1 else gx in
            let gny := if ny =? h then gy + 1 else if ny =? -1 then gy - 1 else gy in
            if (gnx <? 0) || (gny <? 0) || (gnx =? gridwidth L) || (gny =? gridheight L) then Ok None
            else if nul L gnx gny then Ok None
            else
              let nx' := if nx =? w then 0 else if nx =? -1 then tw L gnx - 1 else nx in
              let ny' := if ny =? h then 0 else if ny =? -1 then th L gny - 1 else ny in
              do sr <- xyToSerial (tw L gnx) (th L gny) (nx', ny');
              let ns := w16 sr in
              if negb (ns <? Z.of_nat (length (p_fd (jobs gnx gny)))) then Undef (* assert *)
              else if ns =? FLOW_NO_DOWNSTREAM then Ok None else Ok (Some ((gnx, gny), ns))
        else if l =? FLOW_NO_DOWNSTREAM then Ok None else Ok (Some ((gx, gy), l)).

  (** the number of elements of links, dependencies and accum_in of a tile's job: main.cpp:746-750 *)
  Definition psize (jobs : Z -> Z -> pjob) (t : tile) : Z := Z.of_nat (length (p_links (job_of jobs t))).
  Definition there (jobs : Z -> Z -> pjob) (m : node) : bool := (0 <=? snd m) && (snd m <? psize jobs (fst m)).
  (** accum and accum_in of each node; dependencies; the stack *)
  Notation mstate := (@kst node (Z * Z)).

  (** main.cpp:762-779. With 65536 elements or more the loop over the uint16_t s does not end. The test for a missing tile in
      line 774 is already in DownstreamCell. *)
  Definition p_deps (jobs : Z -> Z -> pjob) : res (node -> Z) :=
    forM (tiles L) (fun t d =>
      let n := Z.of_nat (length (p_fd (job_of jobs t))) in
      if 65536 <=? n then Undef
      else forM (zrange 0 (Z.to_nat n)) (fun s d =>
        do o <- DownstreamCell jobs (t, s);
        match o with
        | None => Ok d
        | Some m => if there jobs m then Ok (kupd neqb d m (w16 (d m + 1))) else Thrown
        end) d) (fun _ => 0).

  (** main.cpp:796-813 *)
  Definition p_sources (jobs : Z -> Z -> pjob) (s : mstate) : res mstate :=
    forM (tiles L) (fun t s =>
      if 65536 <=? psize jobs t then Undef
      else forM (zrange 0 (Z.to_nat (psize jobs t))) (fun i s =>
        let q := if k_dep s (t, i) =? 0 then (t, i) :: k_q s else k_q s in
        do l <- vat (p_links (job_of jobs t)) i;
        if negb (l =? FLOW_EXTERNAL)
        then do a <- vat (p_accum (job_of jobs t)) i; Ok (mkK (k_dep s) (kupd neqb (k_val s) (t, i) (0, snd (k_val s (t, i)))) q)
        else Ok (mkK (k_dep s) (k_val s) q)) s) s.

  (** main.cpp:831-856, the body of the loop for the node [c] taken off the stack *)
  Definition p_step (jobs : Z -> Z -> pjob) (c : node) (s : mstate) : res mstate :=
    do o <- DownstreamCell jobs c;
    match o with
    | None => Ok s
    | Some m =>
        if negb (there jobs m) then Thrown
        else
          let a := fst (k_val s c) in
          let v := (fst (k_val s m) + a, snd (k_val s m) + (if teqb (fst m) (fst c) then 0 else a)) in
          let dep := kupd neqb (k_dep s) m (w16 (k_dep s m - 1)) in
          if dep m =? w16 (-1) then Undef (* assert *)
          else Ok (mkK dep (kupd neqb (k_val s) m v) (if dep m =? 0 then m :: k_q s else k_q s))
    end.

  (** main.cpp:737-862 Calculations and 864-876 DistributeJob2: accum_in of each tile *)
  Definition Calculations (jobs : Z -> Z -> pjob) : res (node -> Z) :=
    do dep <- p_deps jobs;
    do s <- p_sources jobs (mkK dep (fun n => (nth (Z.to_nat (snd n)) (p_accum (job_of jobs (fst n))) 0, 0)) []);
    match whileR kpop (p_step jobs) (length (flat_map (fun t => zrange 0 (Z.to_nat (psize jobs t))) (tiles L))) 0 s with
    | Some r => do s' <- r; Ok (fun n => snd (k_val s' n))
    | None => Undef (* fuel; never happens *)
    end.

  (** The files retention+"-flowdirs.dat" and retention+"-accum.dat" of each tile (the path has the tile's name in it) *)
  Inductive pname := Flowdirsdat (t : tile) | Accumdat (t : tile).
  Definition peqb (a b : pname) : bool :=
    match a, b with Flowdirsdat t, Flowdirsdat u => teqb t u | Accumdat t, Accumdat u => teqb t u | _, _ => false end.
  Definition pwrite {A} (fs : pname -> option A) (n : pname) (a : A) : pname -> option A := fun m => if peqb m n then Some a else fs m.
  Definition pheld : Type := grid Z * (cellt -> Z).
  (** what is left behind after the first round: the consumers' storage (by consumer and tile), the files *)
  Record pworld := mkPW { pw_store : Z -> tile -> option pheld; pw_fs : pname -> option (cellt -> Z) }.
  (** main.cpp:591-598 SaveToCache *)
  Definition SaveToCache (t : tile) (r : pheld) (fs : pname -> option (cellt -> Z)) : pname -> option (cellt -> Z) :=
    pwrite (pwrite fs (Flowdirsdat t) (fun c => fst r (fst c) (snd c))) (Accumdat t) (snd r).
  (** main.cpp:607-613 SaveToRetain by consumer [k] *)
  Definition SaveToRetain (k : Z) (t : tile) (r : pheld) (st : Z -> tile -> option pheld) : Z -> tile -> option pheld :=
    fun k' t' => if (k' =? k) && teqb t' t then Some r else st k' t'.

  (** main.cpp:944-976: the first job of tile [t], the [i]-th to be sent, done by consumer i mod limit + 1 *)
  Definition first_job (m : retention) (limit : Z) (it : Z * tile) (s : pworld * list (tile * pjob)) : res (pworld * list (tile * pjob)) :=
    let '(i, t) := it in let '(wd, js) := s in
    let w := tw L (fst t) in let h := th L (snd t) in
    do r <- LoadFromEvict t;
    do _ <- VerifyInputSanity w h (fst r) fnd;
    do j <- FirstRound w h (fst r) fnd (tile_edges L (fst t) (snd t)) (snd r);
    let wd' := match m with
               | Evict => wd
               | Retain => mkPW (SaveToRetain (i mod limit + 1) t r (pw_store wd)) (pw_fs wd)
               | Cache => mkPW (pw_store wd) (SaveToCache t r (pw_fs wd))
               end in
    Ok (wd', js ++ [(t, j)]).

  (** main.cpp:986-992 with 600-605 LoadFromCache, 615-621 LoadFromRetain *)
  Definition reload (m : retention) (limit : Z) (it : Z * tile) (wd : pworld) : res pheld :=
    let '(i, t) := it in
    match m with
    | Evict => LoadFromEvict t
    | Retain => match pw_store wd (i mod limit + 1) t with Some d => Ok d | None => Thrown (* storage.at *) end
    | Cache => match pw_fs wd (Flowdirsdat t), pw_fs wd (Accumdat t) with Some f, Some a => Ok (fun x y => f (x, y), a) | _, _ => Thrown end
    end.

  (** main.cpp:578-581: the flips before writing *)
  Definition reorient (t : tile) (o : cellt -> Z) : res (cellt -> Z) :=
    if flipH L then Undef else Ok (if flipV L then fun c => o (fst c, th L (snd t) - 1 - snd c) else o).

  (** main.cpp:1053-1059: the replies are received in the order [arrive] *)
  Definition receive (arrive : list (tile * pjob)) : Z -> Z -> pjob :=
    fold_left (fun jobs a => jset jobs (fst a) (snd a)) arrive (fun _ _ => nojob).

  (** The program, main.cpp:1019-1105 with the consumers, 926-1003: [arrive] permutes the replies of the first round, [fs0] are
      the files that exist at the start. The result is the output file of each tile. *)
  Definition run (m : retention) (limit : Z) (arrive : list (tile * pjob) -> list (tile * pjob))
      (fs0 : pname -> option (cellt -> Z)) : res (Z -> Z -> option (cellt -> Z)) :=
    do s <- forM (numbered (tiles L)) (first_job m limit) (mkPW (fun _ _ => None) fs0, []);
    let '(wd, js) := s in
    let jobs := receive (arrive js) in
    do ain <- Calculations jobs;
    forM (numbered (tiles L)) (fun it outp =>
      let t := snd it in
      do d <- reload m limit it wd;
      do o <- SecondRound (tw L (fst t)) (th L (snd t)) (fst d) fnd (snd d) (psize jobs t) (fun s => ain (t, s));
      do o <- reorient t o;
      Ok (jset outp t (Some o))) (fun _ _ => None).
End Program.
