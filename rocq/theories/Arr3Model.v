(** Model of include/richdem/common/Array3D.hpp: a raster with nine values per cell. *)
From Coq Require Import ZArith List Lia Bool.
From Verif Require Import Base Res ArrModel.
Open Scope Z_scope.

(** Array3D.hpp:57-91. [b_nodata] is [None] while the member is uninitialised: [Array3D() = default]
    (Array3D.hpp:94) gives it no value. Strings, metadata, offsets and geotransform are left out. *)
Record arr3 (A : Type) := mk3 {
  b_w : Z; b_h : Z;                 (* view_width, view_height : int32_t *)
  b_nodata : option A;
  b_ndc : Z;                        (* num_data_cells : size_t *)
  b_owned : bool;
  b_data : list A }.
Arguments mk3 {A}. Arguments b_w {A}. Arguments b_h {A}. Arguments b_nodata {A}. Arguments b_ndc {A}.
Arguments b_owned {A}. Arguments b_data {A}.

(** Array3D.hpp:70 *)
Definition NO_I3 : Z := 2 ^ 64 - 1.
(** conversion to size_t *)
Definition w64 (z : Z) : Z := z mod 2 ^ 64.

Definition with_data3 {A} (a : arr3 A) (l : list A) : arr3 A :=
  mk3 (b_w a) (b_h a) (b_nodata a) (b_ndc a) (b_owned a) l.

(** Array3D.hpp:165: an int multiplication, converted to size_t *)
Definition size3 {A} (a : arr3 A) : res Z :=
  let p := b_w a * b_h a in if (- 2 ^ 31 <=? p) && (p <? 2 ^ 31) then Ok (w64 p) else Undef.

(** Array3D.hpp:202-205 (the assert is compiled out with NDEBUG) *)
Definition xyToI3 {A} (a : arr3 A) (x y n : Z) : Z := w64 (w64 y * 9 * w64 (b_w a) + 9 * w64 x + n).

(** Array3D.hpp:345-373  operator()(x,y,n) *)
Definition get3 {A} (a : arr3 A) (x y n : Z) : res A := rd (b_data a) (xyToI3 a x y n).
Definition set3 {A} (a : arr3 A) (x y n : Z) (v : A) : res (arr3 A) :=
  do l <- wr (b_data a) (xyToI3 a x y n) v; Ok (with_data3 a l).

(** Array3D.hpp:375-389  getIN *)
Definition getIN {A} (a : arr3 A) (i n : Z) : res A := rd (b_data a) (w64 (9 * i + n)).
Definition setIN {A} (a : arr3 A) (i n : Z) (v : A) : res (arr3 A) :=
  do l <- wr (b_data a) (w64 (9 * i + n)) v; Ok (with_data3 a l).

(** reading [no_data] *)
Definition nodata3 {A} (a : arr3 A) : res A := match b_nodata a with Some v => Ok v | None => Undef end.

(** Array3D.hpp:228-232 and 241-244  isNoData *)
Definition isNoData3 {A} (eqb : A -> A -> bool) (a : arr3 A) (x y : Z) : res bool :=
  do d <- get3 a x y 0; do nd <- nodata3 a; Ok (eqb d nd).
Definition isNoData3_i {A} (eqb : A -> A -> bool) (a : arr3 A) (i : Z) : res bool :=
  do d <- getIN a i 0; do nd <- nodata3 a; Ok (eqb d nd).

(** Array3D.hpp:276-278 *)
Definition setNoData3 {A} (a : arr3 A) (v : A) : arr3 A :=
  mk3 (b_w a) (b_h a) (Some v) (b_ndc a) (b_owned a) (b_data a).

(** Array3D.hpp:285-288: over the whole buffer *)
Definition setAll3 {A} (a : arr3 A) (v : A) : res (arr3 A) :=
  do l <- forM (zrange 0 (length (b_data a))) (fun i l => wr l i v) (b_data a); Ok (with_data3 a l).

(** Array3D.hpp:298-305 *)
Definition resize3 {A} (junk : nat -> list A) (a : arr3 A) (w h : Z) (v : A) : res (arr3 A) :=
  do l <- mv_resize junk (b_owned a) (b_data a) (w64 (9 * w64 w * w64 h));
  setAll3 (mk3 w h (b_nodata a) (b_ndc a) (b_owned a) l) v.

(** Array3D.hpp:94, 104-106 *)
Definition empty3 {A} : arr3 A := mk3 0 0 None NO_I3 true [].
Definition new3 {A} (junk : nat -> list A) (w h : Z) (v : A) : res (arr3 A) := resize3 junk empty3 w h v.

(** Array3D.hpp:118-122: the length is computed in int. [l] is the caller's memory. *)
Definition wrap3 {A} (l : list A) (w h : Z) : res (arr3 A) :=
  let inti z := (- 2 ^ 31 <=? z) && (z <? 2 ^ 31) in
  if inti (9 * w) && inti (9 * w * h)
  then Ok (mk3 w h None NO_I3 false l) else Undef.

(** Array3D.hpp:132-144 and 154-166: dimensions of another raster *)
Definition like3 {A B} (junk : nat -> list A) (b : arr3 B) (v : A) : res (arr3 A) :=
  resize3 junk (mk3 (b_w b) (b_h b) None NO_I3 true []) (b_w b) (b_h b) v.
Definition like2 {A B} (junk : nat -> list A) (b : arr B) (v : A) : res (arr3 A) :=
  resize3 junk (mk3 (a_w b) (a_h b) None NO_I3 true []) (a_w b) (a_h b) v.

(** Array3D.hpp:323-328: i is an unsigned int, compared with a size below 2^31 *)
Definition countDataCells3 {A} (eqb : A -> A -> bool) (a : arr3 A) : res Z :=
  do n <- size3 a;
  forM (zrange 0 (Z.to_nat n)) (fun i c => do d <- rd (b_data a) i; do nd <- nodata3 a;
    Ok (if negb (eqb d nd) then w64 (c + 1) else c)) 0.
(** Array3D.hpp:335-339 *)
Definition numDataCells3 {A} (eqb : A -> A -> bool) (a : arr3 A) : res (Z * arr3 A) :=
  if b_ndc a =? NO_I3
  then do c <- countDataCells3 eqb a; Ok (c, mk3 (b_w a) (b_h a) (b_nodata a) c (b_owned a) (b_data a))
  else Ok (b_ndc a, a).

(** Array3D.hpp:214-217: the loop of operator==, from index [i : unsigned int]; [None] when it has not
    ended after [fuel] iterations *)
Fixpoint eq_loop {A} (eqb : A -> A -> bool) (l o : list A) (fuel : nat) (i : Z) : option (res bool) :=
  match fuel with
  | O => None
  | S f =>
      if i <? Z.of_nat (length o) then
        match rd l i, rd o i with
        | Ok x, Ok y => if negb (eqb x y) then Some (Ok false) else eq_loop eqb l o f (w32 (i + 1))
        | _, _ => Some Undef
        end
      else Some (Ok true)
  end.
(** Array3D.hpp:211-219 *)
Definition eq3 {A} (eqb : A -> A -> bool) (a b : arr3 A) (fuel : nat) : option (res bool) :=
  if negb (b_w a =? b_w b) || negb (b_h a =? b_h b) then Some (Ok false)
  else eq_loop eqb (b_data a) (b_data b) fuel 0.

(** Array3D.hpp:392-394. For wrapped memory the assignment deletes the caller's memory (C32). *)
Definition clear3 {A} (a : arr3 A) : res (arr3 A) :=
  if b_owned a then Ok (mk3 (b_w a) (b_h a) (b_nodata a) (b_ndc a) true []) else Undef.

(** A program using one array: calls in any order. *)
Inductive call3 (A : Type) :=
  | Get (x y n : Z) | GetI (i n : Z) | Put (x y n : Z) (v : A) | PutI (i n : Z) (v : A)
  | IsND (x y : Z) | IsNDI (i : Z) | PutND (v : A) | PutAll (v : A) | Resize (w h : Z) (v : A) | Size.
Arguments Get {A}. Arguments GetI {A}. Arguments Put {A}. Arguments PutI {A}. Arguments IsND {A}.
Arguments IsNDI {A}. Arguments PutND {A}. Arguments PutAll {A}. Arguments Resize {A}. Arguments Size {A}.
Inductive out3 (A : Type) := Val (v : A) | Flag (b : bool) | Num (z : Z) | Done.
Arguments Val {A}. Arguments Flag {A}. Arguments Num {A}. Arguments Done {A}.

Definition call {A} (eqb : A -> A -> bool) (junk : nat -> list A) (c : call3 A) (a : arr3 A) : res (out3 A * arr3 A) :=
  match c with
  | Get x y n => do v <- get3 a x y n; Ok (Val v, a)
  | GetI i n => do v <- getIN a i n; Ok (Val v, a)
  | Put x y n v => do b <- set3 a x y n v; Ok (Done, b)
  | PutI i n v => do b <- setIN a i n v; Ok (Done, b)
  | IsND x y => do f <- isNoData3 eqb a x y; Ok (Flag f, a)
  | IsNDI i => do f <- isNoData3_i eqb a i; Ok (Flag f, a)
  | PutND v => Ok (Done, setNoData3 a v)
  | PutAll v => do b <- setAll3 a v; Ok (Done, b)
  | Resize w h v => do b <- resize3 junk a w h v; Ok (Done, b)
  | Size => do s <- size3 a; Ok (Num s, a)
  end.
Fixpoint calls {A} (eqb : A -> A -> bool) (junk : nat -> list A) (cs : list (call3 A)) (a : arr3 A) : res (list (out3 A) * arr3 A) :=
  match cs with
  | [] => Ok ([], a)
  | c :: cs' => do r <- call eqb junk c a; do r' <- calls eqb junk cs' (snd r); Ok (fst r :: fst r', snd r')
  end.
