(** What a monotone priority queue does; independent of the radix heap. *)
From Coq Require Import ZArith List.
Import ListNotations.
Open Scope Z_scope.

Section Spec.
  Context {V : Type}.
  (** the queue: pairs of key and value, most recently pushed first *)
  Notation item := (Z * V)%type.
  (** [x] is the most recently pushed of the items with the lowest key; [q'] are the others *)
  Definition newest_lowest (q : list item) (x : item) (q' : list item) : Prop :=
    exists a b, q = a ++ x :: b /\ q' = a ++ b /\ (forall y, In y q -> fst x <= fst y) /\ (forall y, In y a -> fst x < fst y).
  (** [z] is the lowest key; [l] are the items with that key, oldest first; [q'] are the others *)
  Definition lowest_group (q : list item) (l q' : list item) : Prop :=
    exists z, l = rev (filter (fun y => fst y =? z) q) /\ q' = filter (fun y => negb (fst y =? z)) q /\ l <> [] /\ forall y, In y q -> z <= fst y.

  Inductive op := Push (k : Z) (v : V) | Top | Pop | Min | TopValues | Extract | Clear.
  Inductive out := Nothing | Item (k : Z) (v : V) | Key (k : Z) | Items (l : list item).

  (** one operation on the queue [q]; [last] is the largest key looked at so far: no smaller key may be pushed *)
  Inductive serve : list item * Z -> op -> out -> list item * Z -> Prop :=
  | serve_push q last k v : last <= k -> serve (q, last) (Push k v) Nothing ((k, v) :: q, last)
  | serve_top q last x q' : newest_lowest q x q' -> serve (q, last) Top (Item (fst x) (snd x)) (q, fst x)
  | serve_pop q last x q' : newest_lowest q x q' -> serve (q, last) Pop Nothing (q', fst x)
  | serve_min q last x q' : newest_lowest q x q' -> serve (q, last) Min (Key (fst x)) (q, last)
  | serve_values q last x l q' q'' : newest_lowest q x q'' -> lowest_group q l q' -> serve (q, last) TopValues (Items l) (q, fst x)
  | serve_extract q last x l q' q'' : newest_lowest q x q'' -> lowest_group q l q' -> serve (q, last) Extract (Items l) (q', fst x)
  | serve_clear q last : serve (q, last) Clear Nothing ([], 0).

  Inductive served : list item * Z -> list op -> list out -> list item * Z -> Prop :=
  | served_nil s : served s [] [] s
  | served_cons s o u s1 os us s2 : serve s o u s1 -> served s1 os us s2 -> served s (o :: os) (u :: us) s2.

  (** pushing below a key already looked at, or looking into an empty queue *)
  Definition misuse (s : list item * Z) (o : op) : Prop :=
    match o with Push k _ => k < snd s | Clear => False | _ => fst s = [] end.
End Spec.
Arguments op : clear implicits.
Arguments out : clear implicits.
