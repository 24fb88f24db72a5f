(** Model of include/richdem/common/disjoint_dense_int_set.hpp (class DisjointDenseIntSet). *)
From Coq Require Import ZArith List Lia Bool.
From Verif Require Import Base.
Open Scope Z_scope.

(** Outcome of a call: normal return, std::runtime_error, undefined behaviour (index past the vector),
    or recursion deeper than the fuel. *)
Inductive outcome (A S : Type) := Ret (a : A) (s : S) | Throw (s : S) | UB | Deep.
Arguments Ret {A S}. Arguments Throw {A S}. Arguments UB {A S}. Arguments Deep {A S}.

(** disjoint_dense_int_set.hpp:19-22. The two vectors always have equal length [u_size]; entries
    at indices >= [u_size] have no meaning. *)
Record uf := mkU { u_size : Z; u_rank : Z -> Z; u_parent : Z -> Z }.

Definition upd (f : Z -> Z) (i v : Z) : Z -> Z := fun j => if j =? i then v else f j.

(** [unsigned int] arithmetic *)
Definition u32 (z : Z) : Z := z mod 2 ^ 32.

(** disjoint_dense_int_set.hpp:49 and 53-58 *)
Definition uf_new (N : Z) : uf := mkU N (fun _ => 0) (fun i => i).

(** disjoint_dense_int_set.hpp:27-44: [newN+1] is computed in 32 bits. *)
Definition checkSize (newN : Z) (s : uf) : uf :=
  if newN <? u_size s then s else
  let n' := u32 (newN + 1) in
  mkU n' (fun i => if i <? u_size s then u_rank s i else 0)
         (fun i => if (u_size s <=? i) && (i <? n') then i else u_parent s i).

(** disjoint_dense_int_set.hpp:62-64 *)
Definition makeSet (n : Z) (s : uf) : outcome unit uf := Ret tt (checkSize n s).

(** disjoint_dense_int_set.hpp:67-69: [rank.size()-1] converted to unsigned int *)
Definition maxElement (s : uf) : Z := u32 (u_size s - 1).

(** disjoint_dense_int_set.hpp:80-90; [fuel] bounds the recursion depth *)
Fixpoint findSet (fuel : nat) (n : Z) (s : uf) : outcome Z uf :=
  match fuel with
  | O => Deep
  | S f =>
      if u_size s <=? n then Throw s
      else if u_parent s n =? n then Ret n s
      else match findSet f (u_parent s n) s with
           | Ret r s' => Ret r (mkU (u_size s') (u_rank s') (upd (u_parent s') n r))
           | o => o
           end
  end.

(** disjoint_dense_int_set.hpp:94-124 *)
Definition unionSet (fuel : nat) (a b : Z) (s : uf) : outcome unit uf :=
  match findSet fuel a s with
  | Ret ra s1 =>
      match findSet fuel b s1 with
      | Ret rb s2 =>
          Ret tt
            (if ra =? rb then s2
             else if u_rank s2 ra <? u_rank s2 rb then mkU (u_size s2) (u_rank s2) (upd (u_parent s2) ra rb)
             else if u_rank s2 ra >? u_rank s2 rb then mkU (u_size s2) (u_rank s2) (upd (u_parent s2) rb ra)
             else mkU (u_size s2) (upd (u_rank s2) ra (u32 (u_rank s2 ra + 1))) (upd (u_parent s2) rb ra))
      | Throw s2 => Throw s2 | UB => UB | Deep => Deep
      end
  | Throw s1 => Throw s1 | UB => UB | Deep => Deep
  end.

(** disjoint_dense_int_set.hpp:130-142 *)
Definition mergeAintoB (a b : Z) (s : uf) : outcome unit uf :=
  let s := checkSize b (checkSize a s) in
  if (u_size s <=? a) || (u_size s <=? b) then UB else
  let p := upd (u_parent s) a b in
  Ret tt
    (if u_rank s a =? u_rank s b then mkU (u_size s) (upd (u_rank s) b (u32 (u_rank s b + 1))) p
     else if u_rank s a >? u_rank s b then mkU (u_size s) (upd (u_rank s) b (u32 (u_rank s a + 1))) p
     else mkU (u_size s) (u_rank s) p).

(** disjoint_dense_int_set.hpp:145-147. The order of the two calls is unspecified in C++; we take left to right. *)
Definition sameSet (fuel : nat) (a b : Z) (s : uf) : outcome bool uf :=
  match findSet fuel a s with
  | Ret ra s1 => match findSet fuel b s1 with
                 | Ret rb s2 => Ret (ra =? rb) s2
                 | Throw s2 => Throw s2 | UB => UB | Deep => Deep
                 end
  | Throw s1 => Throw s1 | UB => UB | Deep => Deep
  end.

(** A history of calls; the caller catches exceptions and goes on. *)
Inductive op := MakeSet (n : Z) | FindSet (n : Z) | UnionSet (a b : Z) | SameSet (a b : Z) | Merge (a b : Z).

Definition state_of {A} (o : outcome A uf) : option uf :=
  match o with Ret _ s => Some s | Throw s => Some s | _ => None end.

Definition step (fuel : nat) (o : op) (s : uf) : option uf :=
  match o with
  | MakeSet n => state_of (makeSet n s)
  | FindSet n => state_of (findSet fuel n s)
  | UnionSet a b => state_of (unionSet fuel a b s)
  | SameSet a b => state_of (sameSet fuel a b s)
  | Merge a b => state_of (mergeAintoB a b s)
  end.

Fixpoint run (fuel : nat) (l : list op) (s : uf) : option uf :=
  match l with
  | [] => Some s
  | o :: l' => match step fuel o s with Some s' => run fuel l' s' | None => None end
  end.
