(** Steepest descent over those of the eight triangles around a cell whose other two corners belong to a given set. *)
From Coq Require Import ZArith Reals List Bool.
From Verif Require Import Base RasterSpec DinfSpec.
Open Scope R_scope.

Definition plus (c o : Z * Z) : Z * Z := (fst c + fst o, snd c + snd o)%Z.
Definition within (P : Z * Z -> Prop) (c p q : Z * Z) : Prop := triangle p q /\ P (plus c p) /\ P (plus c q).
Definition steepest_within (P : Z * Z -> Prop) (e : grid R) (c : Z * Z) (th s : R) : Prop :=
  (exists p q u v, within P c p q /\ 0 <= u /\ 0 <= v /\ 0 < dist p q u v /\ heading th p q u v /\
     drop e (fst c) (snd c) p q u v = s * dist p q u v) /\
  (forall p q u v, within P c p q -> 0 <= u -> 0 <= v -> drop e (fst c) (snd c) p q u v <= s * dist p q u v).
Definition no_descent_within (P : Z * Z -> Prop) (e : grid R) (c : Z * Z) : Prop :=
  forall p q u v, within P c p q -> 0 <= u -> 0 <= v -> drop e (fst c) (snd c) p q u v <= 0.
