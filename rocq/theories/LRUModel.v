(** Model of include/richdem/tiled/lru.hpp (class LRU<T>), T with decidable equality, here Z. *)
From Coq Require Import ZArith List Lia Bool.
From Verif Require Import Base.
Open Scope Z_scope.

(** lru.hpp:19-27. [cache] front first. [visited] holds the keys of the hash map; the stored iterator of a key
    denotes the list node with that value (list splicing never invalidates it). [last] is not
    initialised by the constructor: its initial value is the parameter [junk]. *)
Record lru := mkL { l_len : Z; l_maxlen : Z; l_last : Z; l_visited : list Z; l_cache : list Z }.

(** lru.hpp:29-32 *)
Definition lru_new (junk : Z) : lru := mkL 0 (-1) junk [] [].

Fixpoint remove_first (e : Z) (l : list Z) : list Z :=
  match l with [] => [] | a :: l' => if a =? e then l' else a :: remove_first e l' end.

(** lru.hpp:41-57 *)
Definition lru_insert (e : Z) (s : lru) : lru :=
  if e =? l_last s then s
  else if existsb (Z.eqb e) (l_visited s)
  then mkL (l_len s) (l_maxlen s) e (l_visited s) (e :: remove_first e (l_cache s))
  else mkL (l_len s + 1) (l_maxlen s) e (e :: l_visited s) (e :: l_cache s).

(** lru.hpp:61-63, 67-69, 72-74, 78-80 *)
Definition lru_size (s : lru) : Z := l_len s.
Definition lru_full (s : lru) : bool := l_len s =? l_maxlen s.
Definition lru_setCapacity (n : Z) (s : lru) : lru := mkL (l_len s) n (l_last s) (l_visited s) (l_cache s).
Definition lru_getCapacity (s : lru) : Z := l_maxlen s.

(** lru.hpp:84-86; None = undefined behaviour (back() of an empty list) *)
Definition lru_back (s : lru) : option Z :=
  match rev (l_cache s) with [] => None | b :: _ => Some b end.

(** lru.hpp:89-93; None = undefined behaviour *)
Definition lru_pop_back (s : lru) : option lru :=
  match rev (l_cache s) with
  | [] => None
  | b :: r => Some (mkL (l_len s - 1) (l_maxlen s) (l_last s) (remove_first b (l_visited s)) (rev r))
  end.

(** lru.hpp:96-101 *)
Fixpoint lru_prune_loop (fuel : nat) (s : lru) : option lru :=
  if lru_size s >? l_maxlen s
  then match fuel with
       | O => None
       | S f => match lru_pop_back s with Some s' => lru_prune_loop f s' | None => None end
       end
  else Some s.
Definition lru_prune (s : lru) : option lru :=
  if l_maxlen s =? -1 then Some s else lru_prune_loop (S (length (l_cache s))) s.

Inductive lop := LInsert (e : Z) | LPopBack | LPrune | LSetCap (n : Z).
Definition lstep (o : lop) (s : lru) : option lru :=
  match o with
  | LInsert e => Some (lru_insert e s)
  | LPopBack => lru_pop_back s
  | LPrune => lru_prune s
  | LSetCap n => Some (lru_setCapacity n s)
  end.
Fixpoint lrun (l : list lop) (s : lru) : option lru :=
  match l with [] => Some s | o :: l' => match lstep o s with Some s' => lrun l' s' | None => None end end.
