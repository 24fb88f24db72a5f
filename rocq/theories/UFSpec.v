(** Specification for the union-find structure: what a history of calls means, without trees. *)
From Coq Require Import ZArith List Relations.
From Verif Require Import Base UFModel.
Open Scope Z_scope.

(** Ids allocated, and pairs joined, by a history starting with [n] sets and pairs [ps]. A union counts
    if both ids are allocated at that time; MakeSet and Merge allocate. *)
Fixpoint spec_run (l : list op) (n : Z) (ps : list (Z * Z)) : Z * list (Z * Z) :=
  match l with
  | [] => (n, ps)
  | MakeSet a :: l' => spec_run l' (Z.max n (a + 1)) ps
  | UnionSet a b :: l' => spec_run l' n (if (a <? n) && (b <? n) then (a, b) :: ps else ps)
  | Merge a b :: l' => spec_run l' (Z.max n (Z.max (a + 1) (b + 1))) ((a, b) :: ps)
  | FindSet _ :: l' | SameSet _ _ :: l' => spec_run l' n ps
  end.

(** Equivalence closure of the joined pairs. *)
Definition joined (ps : list (Z * Z)) : Z -> Z -> Prop :=
  clos_refl_sym_trans Z (fun a b => In (a, b) ps).

(** Ids that do not wrap around in [newN+1]. *)
Definition valid_id (n : Z) : Prop := 0 <= n /\ n + 1 < 2 ^ 32.
Definition valid_op (o : op) : Prop :=
  match o with
  | MakeSet n | FindSet n => valid_id n
  | UnionSet a b | SameSet a b | Merge a b => valid_id a /\ valid_id b
  end.

Definition no_merge (o : op) : Prop := match o with Merge _ _ => False | _ => True end.

(** [a] is its own representative, or not allocated yet. *)
Definition representative (s : uf) (a : Z) : Prop := u_size s <= a \/ findSet 1 a s = Ret a s.

(** Every mergeAintoB of the history is applied to two different representatives. *)
Fixpoint merges_ok (fuel : nat) (l : list op) (s : uf) : Prop :=
  match l with
  | [] => True
  | o :: l' =>
      match o with Merge a b => a <> b /\ representative s a /\ representative s b | _ => True end /\
      match step fuel o s with Some s' => merges_ok fuel l' s' | None => True end
  end.
