(** What the flow-metric properties say. *)
From Coq Require Import ZArith List Bool QArith Qcanon.
From Verif Require Import Base RasterSpec FlowSpec FASpec.
Open Scope Z_scope.

Section FM.
  Variables (elev : grid Qc) (nd : Qc) (w h : Z).

  (** direction [n] (RichDEM code 1..8) leads from (x,y) to a strictly lower data cell *)
  Definition lower_data (x y : Z) (n : nat) : Prop :=
    (1 <= n <= 8)%nat /\
    exists a b, toward (Z.of_nat n) x y a b /\ in_raster w h a b /\ elev a b <> nd /\ (elev a b < elev x y)%Qc.

  (** the slots [r] of cell (x,y) are a distribution over strictly lower data neighbours:
      slot 0 is 0 ("has flow"), positive slots lead to lower data cells and add up to 1 *)
  Definition distributes (r : nat -> Qc) (x y : Z) : Prop :=
    r 0%nat = 0%Qc /\
    (forall n, (1 <= n <= 8)%nat -> (0 < r n)%Qc -> lower_data x y n) /\
    qsum (map (fun n => if Qclt_le_dec 0 (r n) then r n else 0%Qc) (seq 1 8)) = 1%Qc.
  (** no flow: slot 0 is -1, nothing positive *)
  Definition keeps (r : nat -> Qc) : Prop :=
    r 0%nat = Q2Qc (-1) /\ forall n, (1 <= n <= 8)%nat -> (r n <= 0)%Qc.
  (** NoData: slot 0 is -2, nothing positive *)
  Definition marked_nodata (r : nat -> Qc) : Prop :=
    r 0%nat = Q2Qc (-2) /\ forall n, (1 <= n <= 8)%nat -> (r n <= 0)%Qc.

  (** the whole result; [gradient x y]: the metric finds a way down from interior cell (x,y) *)
  Definition good_metric (gradient : Z -> Z -> Prop) (P : Z -> nat -> Qc) : Prop :=
    forall x y, in_raster w h x y ->
      let r := P (y * w + x) in
      (elev x y = nd -> marked_nodata r) /\
      (elev x y <> nd -> on_edge w h x y -> keeps r) /\
      (elev x y <> nd -> ~ on_edge w h x y -> (gradient x y -> distributes r x y) /\ (~ gradient x y -> keeps r)).

  Definition has_lower (x y : Z) : Prop := exists n, lower_data x y n.

  (** the facet spanned by the neighbours [n] (a straight direction) and [m] (a diagonal next to it):
      both are data cells and one of them is lower than (x,y) *)
  Definition data_at (x y : Z) (n : nat) : Prop :=
    exists a b, toward (Z.of_nat n) x y a b /\ in_raster w h a b /\ elev a b <> nd.
  Definition facet (n m : nat) : Prop :=
    In (n, m) [(1,2); (3,2); (3,4); (5,4); (5,6); (7,6); (7,8); (1,8)]%nat.
  Definition has_lower_facet (x y : Z) : Prop :=
    exists n m, facet n m /\ data_at x y n /\ data_at x y m /\ (lower_data x y n \/ lower_data x y m).
End FM.

(** What Tarboton's metric needs from the trigonometric functions (true of the real atan2, sqrt with
    dang = pi4 = pi/4, and of the double/float versions up to the tolerance eps). *)
From Verif Require Import FMModel.
Definition trig_ok (T : trig) : Prop :=
  (0 < eps T /\ eps T < dang T - eps T /\ dang T - eps T < pi4 T /\ pi4 T - eps T < dang T /\ 0 < rt2 T)%Qc /\
  (forall s1 s2, eps T <= at2 T s2 s1 -> at2 T s2 s1 <= dang T - eps T -> 0 < s1 /\ 0 < s2)%Qc /\
  (forall s1 s2, s1 <= 0 -> 0 < s2 -> dang T - eps T < at2 T s2 s1)%Qc /\
  (forall s1 s2, 0 < s1 -> dang T - eps T < at2 T s2 s1 -> 0 < s2)%Qc /\
  (forall s1 s2, 0 < s1 -> 0 < s2 -> 0 < hyp T s1 s2)%Qc.

(** the slopes along and across the facet (n,m) at (x,y), and its steepness as Tarboton defines it: the
    steepest direction if it lies within the facet, else the steeper bounding edge *)
Section Facets.
  Variables (elev : grid Qc) (T : trig).
  Definition nb_elev (x y : Z) (n : nat) (e : Qc) : Prop := exists a b, toward (Z.of_nat n) x y a b /\ e = elev a b.
  Inductive facet_flow (x y : Z) (n m : nat) : Qc -> Qc -> Prop :=   (* angle from n towards m, steepness *)
  | ff_along e1 e2 : nb_elev x y n e1 -> nb_elev x y m e2 ->
      (at2 T (e1 - e2) (elev x y - e1) < eps T)%Qc -> facet_flow x y n m 0%Qc (elev x y - e1)%Qc
  | ff_across e1 e2 : nb_elev x y n e1 -> nb_elev x y m e2 -> (eps T <= at2 T (e1 - e2) (elev x y - e1))%Qc ->
      (dang T - eps T < at2 T (e1 - e2) (elev x y - e1))%Qc -> facet_flow x y n m (dang T) ((elev x y - e2) / rt2 T)%Qc
  | ff_inside e1 e2 : nb_elev x y n e1 -> nb_elev x y m e2 -> (eps T <= at2 T (e1 - e2) (elev x y - e1))%Qc ->
      (at2 T (e1 - e2) (elev x y - e1) <= dang T - eps T)%Qc ->
      facet_flow x y n m (at2 T (e1 - e2) (elev x y - e1)) (hyp T (elev x y - e1) (e1 - e2))%Qc.
End Facets.
