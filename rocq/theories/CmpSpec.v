(** Specification: NaN is smaller than every number; a stable queue is a list in insertion order. *)
From Coq Require Import ZArith List.
From Verif Require Import Base CmpModel.
Open Scope Z_scope.

Definition ecompare (a b : elev) : comparison :=
  match a, b with
  | None, None => Eq | None, Some _ => Lt | Some _, None => Gt
  | Some x, Some y => x ?= y
  end.
Definition lower (a b : elev) : bool := match ecompare a b with Lt => true | _ => false end.

(** Remove the first (resp. last) inserted element of minimal elevation. *)
Fixpoint take_first {A} (z : A -> elev) (l : list A) : option (A * list A) :=
  match l with
  | [] => None
  | a :: l' => match take_first z l' with
               | None => Some (a, [])
               | Some (m, r) => if lower (z m) (z a) then Some (m, a :: r) else Some (a, l')
               end
  end.
Fixpoint take_last {A} (z : A -> elev) (l : list A) : option (A * list A) :=
  match l with
  | [] => None
  | a :: l' => match take_last z l' with
               | None => Some (a, [])
               | Some (m, r) => if lower (z a) (z m) then Some (a, l') else Some (m, a :: r)
               end
  end.

Definition entry := (Z * Z * elev)%type.
Fixpoint srun (take : list entry -> option (entry * list entry)) (l : list qop) (q : list entry) : list (option entry) :=
  match l with
  | [] => []
  | QPush x y z :: l' => srun take l' (q ++ [(x, y, z)])
  | QPop :: l' => match take q with
                  | Some (a, q') => Some a :: srun take l' q'
                  | None => None :: srun take l' q
                  end
  end.
