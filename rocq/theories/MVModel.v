(** Model of include/richdem/common/ManagedVector.hpp with an explicit heap. *)
From Coq Require Import ZArith List Lia Bool Arith.
From Verif Require Import Base.

(** Memory blocks: allocated by ManagedVector with [new T[]], or supplied by the caller. *)
Inductive block := Own (n : nat) | Ext (n : nat).
Definition block_eq_dec (a b : block) : {a = b} + {a <> b}.
Proof. decide equality; apply Nat.eq_dec. Defined.

(** ManagedVector.hpp:15-17 *)
Record mvec := mkV { v_data : option block; v_owned : bool; v_size : nat }.
(** [freed]: every block ever passed to delete[] (newest first); [mem]: block contents *)
Record st := mkS { objs : nat -> option mvec; next : nat; freed : list block; mem : block -> list Z }.

Definition oset (f : nat -> option mvec) (i : nat) (o : option mvec) : nat -> option mvec :=
  fun j => if Nat.eqb j i then o else f j.
Definition mset (m : block -> list Z) (b : block) (l : list Z) : block -> list Z :=
  fun c => if block_eq_dec c b then l else m c.

(** delete[] of what a unique_ptr holds *)
Definition del (d : option block) (l : list block) : list block := match d with Some b => b :: l | None => l end.

Definition contents (s : st) (o : mvec) : list Z :=
  match v_data o with Some b => firstn (v_size o) (mem s b) | None => [] end.

Inductive mop :=
| VNew (i : nat)                                 (* line 21 *)
| VSized (i n : nat) (v : Z)                     (* lines 27-33 *)
| VWrap (i k n : nat)                            (* lines 39-44; k names the caller's memory *)
| VCopyCtor (i j : nat)                          (* lines 58-64 (and 47-54) *)
| VMoveCtor (i j : nat)                          (* lines 68-76 *)
| VCopyAssign (i j : nat)                        (* lines 102-107 (and 91-97) *)
| VMoveAssign (i j : nat)                        (* lines 111-120 *)
| VResize (i n : nat) (junk : list Z)            (* lines 158-172; junk = indeterminate contents *)
| VWrite (i k : nat) (v : Z)                     (* lines 174-176 *)
| VDestroy (i : nat).                            (* lines 78-88 *)

Definition set_nth (k : nat) (v : Z) (l : list Z) : list Z := firstn k l ++ v :: skipn (S k) l.

(** Allocation of a new block with contents [l], stored in object [i]. *)
Definition alloc (i : nat) (l : list Z) (n : nat) (fr : list block) (s : st) : st :=
  mkS (oset (objs s) i (Some (mkV (Some (Own (next s))) true n))) (S (next s)) fr (mset (mem s) (Own (next s)) l).

(** ManagedVector.hpp:111-120 for distinct objects: the unique_ptr move-assignment deletes the old block. *)
Definition move_assign (i : nat) (oi : mvec) (j : nat) (oj : mvec) (s : st) : st :=
  mkS (oset (oset (objs s) i (Some (mkV (v_data oj) (v_owned oj) (v_size oj)))) j (Some (mkV None true 0)))
      (next s) (del (v_data oi) (freed s)) (mem s).

(** One operation; None = ill-formed program (unknown or already existing object, index out of range). *)
Definition mstep (o : mop) (s : st) : option st :=
  match o with
  | VNew i => match objs s i with
              | None => Some (mkS (oset (objs s) i (Some (mkV None true 0))) (next s) (freed s) (mem s))
              | Some _ => None end
  | VSized i n v => match objs s i with None => Some (alloc i (repeat v n) n (freed s) s) | Some _ => None end
  | VWrap i k n => match objs s i with
                   | None => Some (mkS (oset (objs s) i (Some (mkV (Some (Ext k)) false n))) (next s) (freed s) (mem s))
                   | Some _ => None end
  | VCopyCtor i j => match objs s i, objs s j with
                     | None, Some oj => Some (alloc i (contents s oj) (v_size oj) (freed s) s)
                     | _, _ => None end
  | VMoveCtor i j => match objs s i, objs s j with
                     | None, Some oj => Some (mkS (oset (oset (objs s) i (Some oj)) j (Some (mkV None true 0))) (next s) (freed s) (mem s))
                     | _, _ => None end
  | VCopyAssign i j =>  (* tmp(other); *this = move(tmp); ~tmp : the temporary's fresh block ends up in *this *)
      match objs s i, objs s j with
      | Some oi, Some oj => Some (alloc i (contents s oj) (v_size oj) (del (v_data oi) (freed s)) s)
      | _, _ => None end
  | VMoveAssign i j =>
      match objs s i, objs s j with
      | Some oi, Some oj =>
          if Nat.eqb i j  (* self-move: unique_ptr keeps its pointer, then lines 116-118 *)
          then Some (mkS (oset (objs s) i (Some (mkV (v_data oi) true 0))) (next s) (freed s) (mem s))
          else Some (move_assign i oi j oj s)
      | _, _ => None end
  | VResize i n junk =>
      match objs s i with
      | Some oi => if Nat.eqb (v_size oi) n then Some s
                   else if v_owned oi then Some (alloc i (firstn n (junk ++ repeat 0%Z n)) n (del (v_data oi) (freed s)) s)
                   else Some s  (* throws *)
      | None => None end
  | VWrite i k v =>
      match objs s i with
      | Some oi => match v_data oi with
                   | Some b => if Nat.ltb k (v_size oi) then Some (mkS (objs s) (next s) (freed s) (mset (mem s) b (set_nth k v (mem s b)))) else None
                   | None => None end
      | None => None end
  | VDestroy i =>
      match objs s i with
      | Some oi => Some (mkS (oset (objs s) i None) (next s) (if v_owned oi then del (v_data oi) (freed s) else freed s) (mem s))
      | None => None end
  end.

Fixpoint mrun (l : list mop) (s : st) : option st :=
  match l with [] => Some s | o :: l' => match mstep o s with Some s' => mrun l' s' | None => None end end.

Definition st0 (m : block -> list Z) : st := mkS (fun _ => None) 0 [] m.
