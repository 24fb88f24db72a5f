(** Flow accumulation in floating point: what is exact, and how large rounding errors can be.
    [B2R x] is the real number a float or double stands for; [bpow radix2 e] is 2^e. *)
From Coq Require Import ZArith List Reals Relations.
From Flocq Require Import Core BinarySingleNaN.
From Verif Require Import Base RasterSpec FlowSpec.
Open Scope Z_scope.

Section FAF.
  (** [p (y*w+x) n] is the float proportion cell (x,y) sends in direction n (1..8); -2 in slot 0 marks NoData *)
  Variables (w h : Z) (p : Z -> nat -> binary_float 24 128).
  Definition ix_of (c : Z * Z) : Z := snd c * w + fst c.
  Definition share (c : Z * Z) (n : nat) : R := B2R (p (ix_of c) n).
  Definition fdata (c : Z * Z) : Prop := in_raster w h (fst c) (snd c) /\ share c 0 <> (-2)%R.
  Definition fsends (c : Z * Z) (n : nat) (d : Z * Z) : Prop :=
    fdata c /\ fdata d /\ (1 <= n <= 8)%nat /\ toward (Z.of_nat n) (fst c) (snd c) (fst d) (snd d) /\ (0 < share c n)%R.
  Definition ffeeds (c d : Z * Z) : Prop := exists n, fsends c n d.
  Definition f_on_loop (c : Z * Z) : Prop := clos_trans _ ffeeds c c.
  (** a data cell no loop drains into *)
  Definition settled (c : Z * Z) : Prop := fdata c /\ ~ exists l, f_on_loop l /\ clos_refl_trans _ ffeeds l c.

  Definition finite_props : Prop := forall i n, 0 <= i < w * h -> (n <= 8)%nat -> is_finite (p i n) = true.
  (** border cells send nothing *)
  Definition fquiet_border : Prop := forall c n, on_edge w h (fst c) (snd c) -> share c 0 <> (-2)%R -> (1 <= n <= 8)%nat -> (share c n <= 0)%R.

  (** the donors of [d], each link once *)
  Definition donors (d : Z * Z) (l : list ((Z * Z) * nat)) : Prop := NoDup l /\ forall c n, In (c, n) l <-> fsends c n d.

  (** Exact water balance over the reals: own weight plus what the donors send. *)
  Definition fbalanced (gen X : Z * Z -> R) (d : Z * Z) : Prop :=
    exists l, donors d l /\ X d = (gen d + fold_right Rplus 0 (map (fun e => share (fst e) (snd e) * X (fst e)) l))%R.

  (** The machine's version: the contributions are added one at a time, in some order, each product and each sum
      rounded to double. [widen] is the conversion float -> double. *)
  Definition rounded_in_turn (widen : binary_float 24 128 -> binary_float 53 1024)
      (mul add : binary_float 53 1024 -> binary_float 53 1024 -> binary_float 53 1024)
      (gen A : Z * Z -> binary_float 53 1024) (d : Z * Z) : Prop :=
    exists l, donors d l /\
      A d = fold_left (fun a e => add a (mul (widen (p (ix_of (fst e)) (snd e))) (A (fst e)))) l (gen d).

  (** every cell sends all its water to a single neighbour, or keeps it *)
  Definition single_receiver : Prop := forall c n, fdata c -> (1 <= n <= 8)%nat -> (0 < share c n)%R ->
    share c n = 1%R /\ forall n', (1 <= n' <= 8)%nat -> (0 < share c n')%R -> n' = n.
  (** [U] lists the cells whose water reaches [c], [c] included, each once *)
  Definition upstream (c : Z * Z) (U : list (Z * Z)) : Prop :=
    NoDup U /\ forall v, In v U <-> fdata v /\ clos_refl_trans _ ffeeds v c.
End FAF.
