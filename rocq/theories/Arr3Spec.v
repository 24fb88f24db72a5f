(** A raster with nine values per cell, as the documentation of Array3D describes it: dimensions, a
    function from (column, row, neighbour) to values, and a NoData value. *)
From Coq Require Import ZArith List Lia Bool.
From Verif Require Import Base Arr3Model.
Open Scope Z_scope.

Record raster3 (A : Type) := mkR3 { r_w : Z; r_h : Z; r_nd : option A; r_val : Z -> Z -> Z -> A }.
Arguments mkR3 {A}. Arguments r_w {A}. Arguments r_h {A}. Arguments r_nd {A}. Arguments r_val {A}.

Definition has {A} (r : raster3 A) (x y n : Z) : Prop := 0 <= x < r_w r /\ 0 <= y < r_h r /\ 0 <= n < 9.
(** dimensions for which size() does not overflow *)
Definition fits (w h : Z) : Prop := 0 <= w < 2 ^ 31 /\ 0 <= h < 2 ^ 31 /\ w * h < 2 ^ 31.

Definition put_at {A} (f : Z -> Z -> Z -> A) (x y n : Z) (v : A) : Z -> Z -> Z -> A :=
  fun x' y' n' => if (x' =? x) && (y' =? y) && (n' =? n) then v else f x' y' n'.

(** The cell with i-address [i] is in column [i mod w] of row [i / w]. *)
Definition step {A} (eqb : A -> A -> bool) (c : call3 A) (r : raster3 A) : out3 A * raster3 A :=
  let at_i i := (i mod r_w r, i / r_w r) in
  let nd d := match r_nd r with Some v => eqb d v | None => false end in
  match c with
  | Get x y n => (Val (r_val r x y n), r)
  | GetI i n => (Val (r_val r (fst (at_i i)) (snd (at_i i)) n), r)
  | Put x y n v => (Done, mkR3 (r_w r) (r_h r) (r_nd r) (put_at (r_val r) x y n v))
  | PutI i n v => (Done, mkR3 (r_w r) (r_h r) (r_nd r) (put_at (r_val r) (fst (at_i i)) (snd (at_i i)) n v))
  | IsND x y => (Flag (nd (r_val r x y 0)), r)
  | IsNDI i => (Flag (nd (r_val r (fst (at_i i)) (snd (at_i i)) 0)), r)
  | PutND v => (Done, mkR3 (r_w r) (r_h r) (Some v) (r_val r))
  | PutAll v => (Done, mkR3 (r_w r) (r_h r) (r_nd r) (fun _ _ _ => v))
  | Resize w h v => (Done, mkR3 w h (r_nd r) (fun _ _ _ => v))
  | Size => (Num (r_w r * r_h r), r)
  end.
Fixpoint steps {A} (eqb : A -> A -> bool) (cs : list (call3 A)) (r : raster3 A) : list (out3 A) * raster3 A :=
  match cs with
  | [] => ([], r)
  | c :: cs' => let (o, r1) := step eqb c r in let (os, r2) := steps eqb cs' r1 in (o :: os, r2)
  end.

(** Calls within the documented ranges; NoData is asked for only after it was set. *)
Definition legal {A} (owned : bool) (c : call3 A) (r : raster3 A) : Prop :=
  match c with
  | Get x y n | Put x y n _ => has r x y n
  | GetI i n | PutI i n _ => 0 <= i < r_w r * r_h r /\ 0 <= n < 9
  | IsND x y => has r x y 0 /\ r_nd r <> None
  | IsNDI i => 0 <= i < r_w r * r_h r /\ r_nd r <> None
  | Resize w h _ => fits w h /\ (owned = true \/ w * h = r_w r * r_h r)
  | _ => True
  end.
Fixpoint all_legal {A} (eqb : A -> A -> bool) (owned : bool) (cs : list (call3 A)) (r : raster3 A) : Prop :=
  match cs with
  | [] => True
  | c :: cs' => legal owned c r /\ all_legal eqb owned cs' (snd (step eqb c r))
  end.

(** The memory of [a] holds [r]: nine consecutive values per cell, cells row by row (what getData()
    exposes, and what the Python wrapper reads as an array of shape (height, width, 9)). *)
Record holds {A} (a : arr3 A) (r : raster3 A) : Prop := {
  h_w : b_w a = r_w r; h_h : b_h a = r_h r; h_nd : b_nodata a = r_nd r;
  h_fits : fits (r_w r) (r_h r);
  h_len : Z.of_nat (length (b_data a)) = 9 * (r_w r * r_h r);
  h_val : forall x y n, has r x y n -> nth_error (b_data a) (Z.to_nat (9 * (y * r_w r + x) + n)) = Some (r_val r x y n) }.
