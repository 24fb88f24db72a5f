(** Model of include/richdem/common/Array2D.hpp: flat storage, 32-bit addressing, bulk operations. *)
From Coq Require Import ZArith List Lia Bool.
From Verif Require Import Base Res.
Open Scope Z_scope.

(** Array2D.hpp:98-130. [a_data] is the ManagedVector's contents (ManagedVector.hpp:15-17). Strings,
    metadata and geotransform are in CacheModel.v. *)
Record arr (A : Type) := mkA {
  a_w : Z; a_h : Z;                 (* view_width, view_height : int32_t *)
  a_nodata : A;
  a_ndc : Z;                        (* num_data_cells : uint32_t *)
  a_nshift : list Z;
  a_owned : bool;
  a_data : list A }.
Arguments mkA {A}. Arguments a_w {A}. Arguments a_h {A}. Arguments a_nodata {A}. Arguments a_ndc {A}.
Arguments a_nshift {A}. Arguments a_owned {A}. Arguments a_data {A}.

(** Array2D.hpp:103 *)
Definition NO_I : Z := 2 ^ 32 - 1.

(** Array2D.hpp:858 (and 351) *)
Definition nshift_table (w : Z) : list Z := [0; -1; -w - 1; -w; -w + 1; 1; w + 1; w; w - 1].

Definition with_data {A} (a : arr A) (l : list A) : arr A :=
  mkA (a_w a) (a_h a) (a_nodata a) (a_ndc a) (a_nshift a) (a_owned a) l.

(** Array2D.hpp:493. [view_width*view_height] is an int multiplication; the result becomes uint32_t. *)
Definition size {A} (a : arr A) : res Z :=
  let p := a_w a * a_h a in
  if (- 2 ^ 31 <=? p) && (p <? 2 ^ 31) then Ok (w32 p) else Undef.

(** Array2D.hpp:579-582: the int32_t width is converted to uint32_t; division by zero is undefined. *)
Definition iToxy {A} (a : arr A) (i : Z) : res (Z * Z) :=
  if w32 (a_w a) =? 0 then Undef else Ok (s32 (w32 i mod w32 (a_w a)), s32 (w32 i / w32 (a_w a))).

(** Array2D.hpp:592-595 (the assert is compiled out with NDEBUG) *)
Definition xyToI {A} (a : arr A) (x y : Z) : Z := w32 (w32 y * w32 (a_w a) + w32 x).

(** Array2D.hpp:607-613 *)
Definition nToI {A} (a : arr A) (i dx dy : Z) : res Z :=
  if w32 (a_w a) =? 0 then Undef else
  let x := s32 (w32 i mod w32 (a_w a) + w32 dx) in
  let y := s32 (w32 i / w32 (a_w a) + w32 dy) in
  if (x <? 0) || (y <? 0) || (a_w a <=? x) || (a_h a <=? y) then Ok NO_I else Ok (xyToI a x y).

(** Array2D.hpp:624-631 *)
Definition getN {A} (a : arr A) (i : Z) (n : nat) : res Z :=
  nToI a i (nth n d8x 0) (nth n d8y 0).

(** Array2D.hpp:640-643 *)
Definition nshift {A} (a : arr A) (n : nat) : Z := nth n (a_nshift a) 0.

(** Array2D.hpp:819-823 *)
Definition isEdgeCell_i {A} (a : arr A) (i : Z) : res bool :=
  do p <- iToxy a i; Ok (isEdgeCell (a_w a) (a_h a) (fst p) (snd p)).

(** Array2D.hpp:944-991  operator()(i), operator()(x,y) *)
Definition get_i {A} (a : arr A) (i : Z) : res A := rd (a_data a) i.
Definition get {A} (a : arr A) (x y : Z) : res A := rd (a_data a) (xyToI a x y).
Definition set {A} (a : arr A) (x y : Z) (v : A) : res (arr A) :=
  do l <- wr (a_data a) (xyToI a x y) v; Ok (with_data a l).

(** Array2D.hpp:839-842 *)
Definition setAll {A} (a : arr A) (v : A) : res (arr A) :=
  do n <- size a;
  do l <- forM (zrange 0 (Z.to_nat n)) (fun i l => wr l i v) (a_data a);
  Ok (with_data a l).

(** ManagedVector.hpp:158-172: no-op for equal size, throws for wrapped memory, else fresh
    (indeterminate) contents; [junk] supplies them. *)
Definition mv_resize {A} (junk : nat -> list A) (owned : bool) (l : list A) (n : Z) : res (list A) :=
  if Z.of_nat (length l) =? n then Ok l
  else if owned then Ok (junk (Z.to_nat n)) else Thrown.

(** Array2D.hpp:852-864  resize(width,height,val) *)
Definition resize {A} (junk : nat -> list A) (a : arr A) (w h : Z) (v : A) : res (arr A) :=
  do l <- mv_resize junk (a_owned a) (a_data a) (w * h);
  setAll (mkA w h (a_nodata a) (a_ndc a) (nshift_table w) (a_owned a) l) v.

(** Array2D.hpp:284-288 and 298-300: Array2D(width,height,val) *)
Definition new_arr {A} (junk : nat -> list A) (minus1 : A) (w h : Z) (v : A) : res (arr A) :=
  resize junk (mkA 0 0 minus1 NO_I [] true []) w h v.

(** Array2D.hpp:344-352: wrapping caller memory *)
Definition wrap_arr {A} (minus1 : A) (l : list A) (w h : Z) : arr A :=
  mkA w h minus1 NO_I (nshift_table w) false l.

(** Array2D.hpp:516-524 and 527-535. [ltb] is operator<; std::min(a,b) is b<a?b:a, std::max(a,b) is a<b?b:a. *)
Definition min_val {A} (eqb ltb : A -> A -> bool) (tmax : A) (a : arr A) : res A :=
  do n <- size a;
  forM (zrange 0 (Z.to_nat n)) (fun i m => do d <- rd (a_data a) i;
    Ok (if eqb d (a_nodata a) then m else if ltb d m then d else m)) tmax.
Definition max_val {A} (eqb ltb : A -> A -> bool) (tlow : A) (a : arr A) : res A :=
  do n <- size a;
  forM (zrange 0 (Z.to_nat n)) (fun i m => do d <- rd (a_data a) i;
    Ok (if eqb d (a_nodata a) then m else if ltb m d then d else m)) tlow.

(** Array2D.hpp:544-548 *)
Definition replace {A} (eqb : A -> A -> bool) (a : arr A) (oldv newv : A) : res (arr A) :=
  do n <- size a;
  do l <- forM (zrange 0 (Z.to_nat n)) (fun i l => do d <- rd l i; if eqb d oldv then wr l i newv else Ok l) (a_data a);
  Ok (with_data a l).

(** Array2D.hpp:559-565 *)
Definition countval {A} (eqb : A -> A -> bool) (a : arr A) (v : A) : res Z :=
  do n <- size a;
  forM (zrange 0 (Z.to_nat n)) (fun i c => do d <- rd (a_data a) i; Ok (if eqb d v then w32 (c + 1) else c)) 0.

(** Array2D.hpp:919-924 and 931-935 (the members are mutable) *)
Definition countDataCells {A} (eqb : A -> A -> bool) (a : arr A) : res Z :=
  do n <- size a;
  forM (zrange 0 (Z.to_nat n)) (fun i c => do d <- rd (a_data a) i;
    Ok (if negb (eqb d (a_nodata a)) then w32 (c + 1) else c)) 0.
Definition numDataCells {A} (eqb : A -> A -> bool) (a : arr A) : res (Z * arr A) :=
  if a_ndc a =? NO_I
  then do c <- countDataCells eqb a;
       Ok (c, mkA (a_w a) (a_h a) (a_nodata a) c (a_nshift a) (a_owned a) (a_data a))
  else Ok (a_ndc a, a).

(** Array2D.hpp:649-658  operator== *)
Definition arr_eq {A} (eqb : A -> A -> bool) (a b : arr A) : res bool :=
  if negb (a_w a =? a_w b) || negb (a_h a =? a_h b) then Ok false
  else if negb (eqb (a_nodata a) (a_nodata b)) then Ok false
  else do n <- size b;
    forM (zrange 0 (Z.to_nat n)) (fun i r => if negb r then Ok false else
      do x <- rd (a_data a) i; do y <- rd (b.(a_data)) i; Ok (eqb x y)) true.

(** Row-major enumeration of [for(y..)for(x..)] *)
Definition rowmajor (w h : Z) : list (Z * Z) := list_prod (zrange 0 (Z.to_nat h)) (zrange 0 (Z.to_nat w)).

(** Array2D.hpp:715-719 *)
Definition flipVert {A} (a : arr A) : res (arr A) :=
  do l <- forM (rowmajor (a_w a) (Z.quot (a_h a) 2))
            (fun p l => swp l (xyToI a (snd p) (fst p)) (xyToI a (snd p) (a_h a - 1 - fst p))) (a_data a);
  Ok (with_data a l).

(** Array2D.hpp:726-733: the pointer loop of one row; [fuel] >= number of swaps *)
Fixpoint flip_row {A} (fuel : nat) (s e : Z) (l : list A) : res (list A) :=
  match fuel with
  | O => Ok l
  | S f => if s <? e then do l' <- swp l s e; flip_row f (s + 1) (e - 1) l' else Ok l
  end.
(** Array2D.hpp:724-734 *)
Definition flipHorz {A} (a : arr A) : res (arr A) :=
  do l <- forM (zrange 0 (Z.to_nat (a_h a)))
            (fun y l => flip_row (Z.to_nat (a_w a) + 1) (xyToI a 0 y) (xyToI a (a_w a) y) l) (a_data a);
  Ok (with_data a l).

(** Array2D.hpp:739-747: new_data is allocated and never used *)
Definition transpose {A} (a : arr A) : res (arr A) :=
  do l <- forM (rowmajor (a_w a) (a_h a))
            (fun p l => swp l (w32 (w32 (snd p) * w32 (a_h a) + w32 (fst p))) (xyToI a (snd p) (fst p))) (a_data a);
  Ok (mkA (a_h a) (a_w a) (a_nodata a) (a_ndc a) (a_nshift a) (a_owned a) l).

(** Array2D.hpp:891-914. The arguments are uint64_t, the stored dimensions are sign-extended to
    uint64_t for the comparisons; resize() gets the arguments truncated to int32_t. *)
Definition expand {A} (junk : nat -> list A) (a : arr A) (nw nh : Z) (v : A) : res (arr A) :=
  let cw := a_w a mod 2 ^ 64 in let ch := a_h a mod 2 ^ 64 in
  if (nw =? cw) && (nh =? ch) then Ok a
  else if negb (a_owned a) then Thrown
  else if nw <? cw then Thrown
  else if nh <? ch then Thrown
  else
    let old := a_data a in
    do b <- resize junk (with_data a []) (s32 nw) (s32 nh) v;
    do l <- forM (rowmajor (a_w a) (a_h a))
              (fun p l => do d <- rd old (fst p * a_w a + snd p); wr l (fst p * nw + snd p) d) (a_data b);
    Ok (with_data b l).

(** Array2D.hpp:1039-1042, 1050-1053, 1060-1065 *)
Definition setRow {A} (a : arr A) (y : Z) (v : A) : res (arr A) :=
  do l <- forM (zrange 0 (Z.to_nat (a_w a))) (fun x l => wr l (xyToI a x y) v) (a_data a); Ok (with_data a l).
Definition setCol {A} (a : arr A) (x : Z) (v : A) : res (arr A) :=
  do l <- forM (zrange 0 (Z.to_nat (a_h a))) (fun y l => wr l (xyToI a x y) v) (a_data a); Ok (with_data a l).
Definition setEdges {A} (a : arr A) (v : A) : res (arr A) :=
  do a1 <- setRow a 0 v; do a2 <- setRow a1 (a_h a1 - 1) v; do a3 <- setCol a2 0 v; setCol a3 (a_w a3 - 1) v.

(** Array2D.hpp:1074-1076: copy of a pointer range *)
Definition read_range {A} (l : list A) (s n : Z) : res (list A) :=
  forM (zrange s (Z.to_nat n)) (fun i acc => do d <- rd l i; Ok (acc ++ [d])) [].
Definition getRowData {A} (a : arr A) (y : Z) : res (list A) := read_range (a_data a) (xyToI a 0 y) (a_w a).
(** Array2D.hpp:1085-1090 *)
Definition getColData {A} (a : arr A) (x : Z) : res (list A) :=
  forM (zrange 0 (Z.to_nat (a_h a))) (fun y acc => do d <- rd (a_data a) (xyToI a x y); Ok (acc ++ [d])) [].
(** Array2D.hpp:998-1031 *)
Definition topRow {A} (a : arr A) := getRowData a 0.
Definition bottomRow {A} (a : arr A) := getRowData a (a_h a - 1).
Definition leftColumn {A} (a : arr A) := getColData a 0.
Definition rightColumn {A} (a : arr A) := getColData a (a_w a - 1).
