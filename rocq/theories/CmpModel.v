(** Model of include/richdem/common/grid_cell.hpp: comparison operators and stable priority queues,
    including NaN. A floating-point elevation is [None] (NaN) or [Some z]. *)
From Coq Require Import ZArith List Lia Bool.
From Verif Require Import Base.
Open Scope Z_scope.

Definition elev := option Z.
Definition isnan (a : elev) : bool := match a with None => true | Some _ => false end.
(** IEEE comparisons: every comparison with NaN is false, except != which is true. *)
Definition flift (r : Z -> Z -> bool) (a b : elev) : bool := match a, b with Some x, Some y => r x y | _, _ => false end.
Definition flt := flift Z.ltb.   Definition fgt := flift Z.gtb.
Definition fle := flift Z.leb.   Definition fge := flift Z.geb.
Definition feq := flift Z.eqb.   Definition fne (a b : elev) : bool := negb (feq a b).

(** grid_cell.hpp:47-52 (double) = 64-69 (float); the generic version (36) is the same without NaN *)
Definition cell_lt (z a : elev) : bool := (isnan z && negb (isnan a)) || flt z a.
Definition cell_gt (z a : elev) : bool := (negb (isnan z) && isnan a) || fgt z a.
Definition cell_ge (z a : elev) : bool := (isnan z && isnan a) || (negb (isnan z) && isnan a) || fge z a.
Definition cell_le (z a : elev) : bool := (isnan z && isnan a) || (isnan z && negb (isnan a)) || fle z a.
Definition cell_eq (z a : elev) : bool := (isnan z && isnan a) || feq z a.
Definition cell_ne (z a : elev) : bool := negb (isnan z && isnan a) && fne z a.

Record zk := mkZk { zk_x : Z; zk_y : Z; zk_z : elev; zk_k : Z }.
(** grid_cell.hpp:80 *)
Definition low_gt (a b : zk) : bool :=
  fgt (zk_z a) (zk_z b) || (negb (isnan (zk_z a)) && isnan (zk_z b)) || (feq (zk_z a) (zk_z b) && (zk_k a >? zk_k b))
  || (isnan (zk_z a) && isnan (zk_z b) && (zk_k a >? zk_k b)).
(** grid_cell.hpp:90 *)
Definition high_gt (a b : zk) : bool :=
  fgt (zk_z a) (zk_z b) || (negb (isnan (zk_z a)) && isnan (zk_z b)) || (feq (zk_z a) (zk_z b) && (zk_k a <? zk_k b))
  || (isnan (zk_z a) && isnan (zk_z b) && (zk_k a <? zk_k b)).

(** Conversion of the uint64_t counter to the int parameter k0 (grid_cell.hpp:78,88,109,121) *)
Definition to_int (c : Z) : Z := let m := c mod 2 ^ 32 in if m <? 2 ^ 31 then m else m - 2 ^ 32.

(** grid_cell.hpp:102-111 and 114-123: queue contents and counter *)
Record kq := mkQ { q_bag : list zk; q_count : Z }.
Definition kq_empty : kq := mkQ [] 0.
Definition kq_emplace (x y : Z) (z : elev) (q : kq) : kq :=
  let c := (q_count q + 1) mod 2 ^ 64 in mkQ (mkZk x y z (to_int c) :: q_bag q) c.
(** top() followed by pop(); on an empty queue we report None *)
Definition kq_pop (gt : zk -> zk -> bool) (t : nat) (q : kq) : option (zk * kq) :=
  match pq_pop gt t (q_bag q) with Some (a, b) => Some (a, mkQ b (q_count q)) | None => None end.

Inductive qop := QPush (x y : Z) (z : elev) | QPop.
(** Results of the pops of a history. *)
Fixpoint qrun (gt : zk -> zk -> bool) (tb : nat -> nat) (l : list qop) (i : nat) (q : kq) : list (option (Z * Z * elev)) :=
  match l with
  | [] => []
  | QPush x y z :: l' => qrun gt tb l' (S i) (kq_emplace x y z q)
  | QPop :: l' => match kq_pop gt (tb i) q with
                  | Some (a, q') => Some (zk_x a, zk_y a, zk_z a) :: qrun gt tb l' (S i) q'
                  | None => None :: qrun gt tb l' (S i) q
                  end
  end.
