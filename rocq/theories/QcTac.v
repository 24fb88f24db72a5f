(** Linear arithmetic over canonical rationals, and integers as rationals. *)
From Coq Require Import ZArith QArith Qcanon Lqa Lia List Bool.
From Verif Require Import Base.
Open Scope Z_scope.

(** an integer as a rational *)
Definition zq (z : Z) : Qc := Q2Qc (inject_Z z).
(** decidable comparisons *)
Definition qlt (a b : Qc) : bool := if Qclt_le_dec a b then true else false.
Definition qle (a b : Qc) : bool := negb (qlt b a).
Definition qeq (a b : Qc) : bool := if Qc_eq_dec a b then true else false.
Definition qmin (a b : Qc) : Qc := if qlt b a then b else a.
Definition qmax (a b : Qc) : Qc := if qlt a b then b else a.

Lemma qc_add a b : (this (a + b)%Qc == this a + this b)%Q.
Proof. apply Qred_correct. Qed.
Lemma qc_opp a : (this (- a)%Qc == - this a)%Q.
Proof. apply Qred_correct. Qed.
Lemma qc_sub a b : (this (a - b)%Qc == this a - this b)%Q.
Proof. unfold Qcminus. rewrite qc_add, qc_opp. reflexivity. Qed.
Lemma qc_mul a b : (this (a * b)%Qc == this a * this b)%Q.
Proof. apply Qred_correct. Qed.
Lemma qc_zq z : (this (zq z) == inject_Z z)%Q.
Proof. apply Qred_correct. Qed.
Lemma qc_eq a b : (this a == this b)%Q -> a = b.
Proof. apply Qc_is_canon. Qed.
Lemma qc_eq' a b : a = b -> (this a == this b)%Q.
Proof. intros ->. reflexivity. Qed.

Lemma qltP a b : reflect (a < b)%Qc (qlt a b).
Proof. unfold qlt. destruct (Qclt_le_dec a b); constructor; auto. apply Qcle_not_lt; auto. Qed.
Lemma qleP a b : reflect (a <= b)%Qc (qle a b).
Proof. unfold qle. destruct (qltP b a); constructor; [apply Qclt_not_le; auto|apply Qcnot_lt_le; auto]. Qed.
Lemma qeqP a b : reflect (a = b) (qeq a b).
Proof. unfold qeq. destruct (Qc_eq_dec a b); constructor; auto. Qed.

Ltac qc_known P := match goal with H : P |- _ => idtac end.
Ltac qc_note t := let P := type of t in first [qc_known P | pose proof t].
Ltac qc_ops :=
  repeat match goal with
  | |- context [Qcplus ?a ?b] => first [match goal with H : (this (Qcplus a b) == this a + this b)%Q |- _ => fail 2 end | pose proof (qc_add a b)]
  | H : context [Qcplus ?a ?b] |- _ => first [match goal with H : (this (Qcplus a b) == this a + this b)%Q |- _ => fail 2 end | pose proof (qc_add a b)]
  | |- context [Qcminus ?a ?b] => first [match goal with H : (this (Qcminus a b) == this a - this b)%Q |- _ => fail 2 end | pose proof (qc_sub a b)]
  | H : context [Qcminus ?a ?b] |- _ => first [match goal with H : (this (Qcminus a b) == this a - this b)%Q |- _ => fail 2 end | pose proof (qc_sub a b)]
  | |- context [Qcopp ?a] => first [match goal with H : (this (Qcopp a) == - this a)%Q |- _ => fail 2 end | pose proof (qc_opp a)]
  | H : context [Qcopp ?a] |- _ => first [match goal with H : (this (Qcopp a) == - this a)%Q |- _ => fail 2 end | pose proof (qc_opp a)]
  end.
Ltac qc_consts :=
  try (assert ((this (Q2Qc 0) == 0)%Q) by (apply Qred_correct));
  try (assert ((this (Q2Qc 1) == 1)%Q) by (apply Qred_correct)).
Ltac qc_hyps :=
  repeat match goal with
  | H : (@eq Qc ?a ?b) |- _ => apply qc_eq' in H
  | H : ~ (_ < _)%Qc |- _ => apply Qcnot_lt_le in H
  | H : ~ (_ <= _)%Qc |- _ => apply Qcnot_le_lt in H
  end.
Ltac qc_minmax :=
  unfold qmin, qmax in *;
  repeat match goal with
  | |- context [qlt ?a ?b] => destruct (qltP a b)
  | H : context [qlt ?a ?b] |- _ => destruct (qltP a b)
  end.
(** linear arithmetic over Qc, with minima and maxima *)
Ltac qlra :=
  intros; qc_minmax;
  try apply qc_eq; qc_hyps; qc_ops; qc_consts; unfold Qclt, Qcle in *; lra.

Lemma zq_add a b : zq (a + b) = (zq a + zq b)%Qc.
Proof. apply qc_eq. rewrite qc_add, !qc_zq, inject_Z_plus. reflexivity. Qed.
Lemma zq_mul a b : zq (a * b) = (zq a * zq b)%Qc.
Proof. apply qc_eq. rewrite qc_mul, !qc_zq, inject_Z_mult. reflexivity. Qed.
Lemma zq_opp a : zq (- a) = (- zq a)%Qc.
Proof. apply qc_eq. rewrite qc_opp, !qc_zq, inject_Z_opp. reflexivity. Qed.
Lemma zq_sub a b : zq (a - b) = (zq a - zq b)%Qc.
Proof. unfold Z.sub, Qcminus. rewrite zq_add, zq_opp. reflexivity. Qed.
Lemma zq_le a b : (zq a <= zq b)%Qc <-> a <= b.
Proof. unfold Qcle. rewrite !qc_zq. rewrite Zle_Qle. reflexivity. Qed.
Lemma zq_lt a b : (zq a < zq b)%Qc <-> a < b.
Proof. unfold Qclt. rewrite !qc_zq. rewrite Zlt_Qlt. reflexivity. Qed.
Lemma zq_inj a b : zq a = zq b -> a = b.
Proof. intros H. apply Z.le_antisymm; apply zq_le; rewrite H; apply Qcle_refl. Qed.
Lemma zq_0 : zq 0 = 0%Qc.
Proof. reflexivity. Qed.

Lemma qlra_test a b c : (a <= b -> b < c -> a + b - c < b - 0 + (- 0))%Qc.
Proof. qlra. Qed.
Lemma qlra_test2 a b c : (qmax a b = c -> qmin a b + c = a + b)%Qc.
Proof. qlra. Qed.

(** sums of rationals *)
Definition qsum (l : list Qc) : Qc := fold_right Qcplus 0%Qc l.
