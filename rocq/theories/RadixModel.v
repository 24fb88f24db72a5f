(** Model of common/radix_heap.hpp: pair_radix_heap (lines 235-367), radix_heap (148-233), the encoders (42-110). *)
From Coq Require Import ZArith List Lia Bool.
From Verif Require Import Base Res.
Open Scope Z_scope.

(** lines 19-38: 0 if equal, else the number of significant bits of the exclusive or
    ([32 - clz] resp. [64 - clzll]; 8 and 16 bit keys are widened to 32 bits) *)
Definition find_bucket (x last : Z) : nat := if x =? last then 0%nat else Z.to_nat (Z.log2 (Z.lxor x last) + 1).

(** lines 112-145: one bit for every bucket 1 .. digits. [unsigned_key_type(1) << (bucket - 1)] is formally
    undefined for bucket 0 (shift by UINT_MAX); its result is multiplied by 0, and modelled as 0. *)
Definition flag_bit (bucket : nat) : Z := match bucket with O => 0 | S b => Z.shiftl 1 (Z.of_nat b) end.
Definition set_non_empty (flags : Z) (bucket : nat) : Z := Z.lor flags (flag_bit bucket).
Definition set_empty (flags : Z) (bucket : nat) : Z := Z.ldiff flags (flag_bit bucket).
(** __builtin_ffs: one plus the index of the lowest set bit, 0 if there is none *)
Fixpoint ffs_from (fuel : nat) (i : nat) (flags : Z) : nat :=
  match fuel with
  | O => 0%nat
  | S f => if Z.testbit flags (Z.of_nat i) then S i else ffs_from f (S i) flags
  end.

Section Heap.
  Context {V : Type}.
  (** number of bits of unsigned_key_type *)
  Variable digits : nat.
  Definition key_max : Z := 2 ^ Z.of_nat digits - 1.

  (** lines 338-346; arrays are functions of the bucket number *)
  Record heap := mkH { h_size : Z; h_last : Z; h_buckets : nat -> list (Z * V); h_min : nat -> Z; h_flags : Z }.
  (** lines 245-247, 323-329 *)
  Definition heap_empty : heap := mkH 0 0 (fun _ => []) (fun _ => key_max) 0.

  Definition fset {A} (f : nat -> A) (i : nat) (a : A) : nat -> A := fun j => if Nat.eqb j i then a else f j.

  (** lines 254-257 = 264-267 = 274-277 = 356-359: append to the bucket of the key. Bucket numbers
      beyond [digits] do not exist. *)
  Definition put (x : Z) (v : V) (h : heap) : res heap :=
    let k := find_bucket x (h_last h) in
    if Nat.ltb digits k then Undef
    else Ok (mkH (h_size h) (h_last h) (fset (h_buckets h) k (h_buckets h k ++ [(x, v)]))
                 (fset (h_min h) k (Z.min (h_min h k) x)) (set_non_empty (h_flags h) k)).

  (** lines 249-277: push and emplace; [x] is the encoded key. A failing assertion counts as Undef. *)
  Definition push (x : Z) (v : V) (h : heap) : res heap :=
    if x <? h_last h then Undef
    else put x v (mkH (h_size h + 1) (h_last h) (h_buckets h) (h_min h) (h_flags h)).

  (** lines 139-144: find_first_non_empty *)
  Definition ffs (flags : Z) : nat := ffs_from digits 0 flags.

  (** lines 348-366. [bucket 0] cannot be redistributed into itself: if no flag is set the loop would append to the
      vector it runs over; it does not end unless the vector is empty. That case does not occur when size() > 0, and is
      modelled as Undef. *)
  Definition pull (h : heap) : res heap :=
    if h_size h <=? 0 then Undef
    else match h_buckets h 0%nat with
    | _ :: _ => Ok h
    | [] =>
        let m0 := fset (h_min h) 0 key_max in
        let i := ffs (h_flags h) in
        if Nat.eqb i 0 then Undef
        else
        let h0 := mkH (h_size h) (m0 i) (h_buckets h) m0 (h_flags h) in
        do h1 <- forM (h_buckets h i) (fun xv h => put (fst xv) (snd xv) h) h0;
        Ok (mkH (h_size h1) (h_last h1) (fset (h_buckets h1) i []) (fset (h_min h1) i key_max) (set_empty (h_flags h1) i))
    end.

  (** lines 279-284 *)
  Definition min_key (h : heap) : res Z :=
    if h_size h <=? 0 then Undef
    else let i := match h_buckets h 0%nat with [] => ffs (h_flags h) | _ => 0%nat end in
    if h_min h i <? h_last h then Undef else Ok (h_min h i).
  (** lines 286-289 *)
  Definition top_key (h : heap) : res (Z * heap) := do h1 <- pull h; Ok (h_last h1, h1).
  (** lines 291-294 *)
  Definition top_value (h : heap) : res (V * heap) :=
    do h1 <- pull h; match rev (h_buckets h1 0%nat) with [] => Undef | xv :: _ => Ok (snd xv, h1) end.
  (** lines 301-305 *)
  Definition pop (h : heap) : res heap :=
    do h1 <- pull h;
    match rev (h_buckets h1 0%nat) with
    | [] => Undef
    | _ :: r => Ok (mkH (h_size h1 - 1) (h_last h1) (fset (h_buckets h1) 0 (rev r)) (h_min h1) (h_flags h1))
    end.
  (** lines 296-299, 307-311, 314-320: all values with the lowest key, oldest first; the heap without them *)
  Definition top_values (h : heap) : res (list (Z * V) * heap) := do h1 <- pull h; Ok (h_buckets h1 0%nat, h1).
  Definition extract_top_values (h : heap) : res (list (Z * V) * heap) :=
    do h1 <- pull h;
    Ok (h_buckets h1 0%nat, mkH (h_size h1 - Z.of_nat (length (h_buckets h1 0%nat))) (h_last h1) (fset (h_buckets h1) 0 []) (h_min h1) (h_flags h1)).
  Definition pop_top_values (h : heap) : res heap := do r <- extract_top_values h; Ok (snd r).

  (** ** radix_heap (without values, lines 148-233): pull does not reset the minimum of bucket 0 *)
  Definition pull1 (h : heap) : res heap :=
    if h_size h <=? 0 then Undef
    else match h_buckets h 0%nat with
    | _ :: _ => Ok h
    | [] =>
        let i := ffs (h_flags h) in
        if Nat.eqb i 0 then Undef
        else
        let h0 := mkH (h_size h) (h_min h i) (h_buckets h) (h_min h) (h_flags h) in
        do h1 <- forM (h_buckets h i) (fun xv h => put (fst xv) (snd xv) h) h0;
        Ok (mkH (h_size h1) (h_last h1) (fset (h_buckets h1) i []) (fset (h_min h1) i key_max) (set_empty (h_flags h1) i))
    end.
  (** lines 176-181 *)
  Definition min1 (h : heap) : res Z :=
    if h_size h <=? 0 then Undef
    else Ok (h_min h (match h_buckets h 0%nat with [] => ffs (h_flags h) | _ => 0%nat end)).
  Definition top1 (h : heap) : res (Z * heap) := do h1 <- pull1 h; Ok (h_last h1, h1).
  (** lines 183-187 *)
  Definition pop1 (h : heap) : res heap :=
    do h1 <- pull1 h;
    match rev (h_buckets h1 0%nat) with
    | [] => Undef
    | _ :: r => Ok (mkH (h_size h1 - 1) (h_last h1) (fset (h_buckets h1) 0 (rev r)) (h_min h1) (h_flags h1))
    end.
End Heap.
Arguments heap : clear implicits.

(** ** Encoders; [x] is the bit pattern of the key (two's complement resp. IEEE 754), [d] its number of bits *)
(** lines 42-58 *)
Definition encode_unsigned (d : Z) (x : Z) : Z := x.
Definition decode_unsigned (d : Z) (x : Z) : Z := x.
(** lines 60-75: invert the sign bit *)
Definition encode_signed (d : Z) (x : Z) : Z := Z.lxor (x mod 2 ^ d) (2 ^ (d - 1)).
(** conversion to the signed type *)
Definition to_signed (d : Z) (x : Z) : Z := if x <? 2 ^ (d - 1) then x else x - 2 ^ d.
Definition decode_signed (d : Z) (x : Z) : Z := to_signed d (Z.lxor x (2 ^ (d - 1))).
(** lines 77-110: [-(raw >> (d-1))] is 0 or all ones, in unsigned arithmetic modulo 2^d *)
Definition encode_float (d : Z) (raw : Z) : Z :=
  Z.lxor raw (Z.lor ((- (Z.shiftr raw (d - 1))) mod 2 ^ d) (Z.shiftl 1 (d - 1))).
Definition decode_float (d : Z) (x : Z) : Z :=
  Z.lxor x (Z.lor ((Z.shiftr x (d - 1) - 1) mod 2 ^ d) (Z.shiftl 1 (d - 1))).
