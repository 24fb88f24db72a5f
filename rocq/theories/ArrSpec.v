(** What a raster is, independent of how its operations are computed. *)
From Coq Require Import ZArith List Lia Bool.
From Verif Require Import Base Res ArrModel.
Open Scope Z_scope.

(** The value at column x, row y (row-major storage), if that cell exists. *)
Definition cell {A} (a : arr A) (x y : Z) : option A :=
  if inGrid (a_w a) (a_h a) x y then nth_error (a_data a) (Z.to_nat (y * a_w a + x)) else None.

(** A raster with memory for all its cells, a cell count that fits an int, and neighbour offsets that
    belong to its width. Every constructor establishes this. *)
Record well_formed {A} (a : arr A) : Prop := {
  wf_w : 0 <= a_w a <= 2 ^ 31 - 3;
  wf_h : 0 <= a_h a < 2 ^ 31;
  wf_small : a_w a * a_h a < 2 ^ 31;
  wf_len : Z.of_nat (length (a_data a)) = a_w a * a_h a;
  wf_shift : a_nshift a = nshift_table (a_w a) }.

(** [b] has the same dimensions and attributes as [a]. *)
Definition same_shape {A} (a b : arr A) : Prop :=
  a_w b = a_w a /\ a_h b = a_h a /\ a_nodata b = a_nodata a /\ a_ndc b = a_ndc a /\ a_nshift b = a_nshift a /\
  a_owned b = a_owned a.
