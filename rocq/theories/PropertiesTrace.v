(** Properties C47, C48: depression filling by Zhou2016 (what FillDepressions runs) and by Wei2018. *)
From Coq Require Import ZArith List Lia.
From Verif Require Import Base Res RasterSpec RasterFacts PFModel PFProofs FlowModel TraceFlood ZhouModel ZhouProofs WeiModel WeiProofs PropertiesPF.
Open Scope Z_scope.

(** C47. For every order in which the queue returns equal elevations, every non-empty raster and terrain: the call ends
    and every cell stands at its minimax drainage level. *)
Theorem C47_zhou_minimax : forall tb w h dem, 0 < w -> 0 < h ->
  exists r, PriorityFlood_Zhou2016 tb w h dem = Some r /\ forall x y, in_raster w h x y -> drainage_level D8 w h dem x y (r x y).
Proof. exact zhou_correct. Qed.
Print Assumptions C47_zhou_minimax.

(** FillDepressions, for both topologies, computes what the textbook algorithm computes. *)
Theorem C47_fill_depressions : forall tb tb' t w h dem, 0 < w -> 0 < h ->
  exists r r', FillDepressions tb t w h dem = Some r /\ PriorityFlood_Original tb' t w h dem = Some r' /\
    forall x y, in_raster w h x y -> drainage_level t w h dem x y (r x y) /\ r x y = r' x y.
Proof.
  intros tb tb' t w h dem Hw Hh. destruct (orig_correct tb' t w h dem Hw Hh) as [r' [E' H']].
  assert (exists r, FillDepressions tb t w h dem = Some r /\ forall x y, in_raster w h x y -> drainage_level t w h dem x y (r x y)) as [r [E H]].
  { destruct t; cbn [FillDepressions]; [apply zhou_correct; auto|apply imp_correct; auto]. }
  exists r, r'. split; [exact E|]. split; [exact E'|]. intros x y R. split; [auto|]. eapply drainage_level_unique; eauto.
Qed.
Print Assumptions C47_fill_depressions.
Example C47_run : option_map (to_rows 5 5) (FillDepressions (fun n => n) D8 5 5 dem5)
  = Some [[9;9;9;9;9];[9;7;7;7;9];[9;7;7;8;7];[9;7;8;7;9];[9;9;9;9;9]].
Proof. vm_compute. reflexivity. Qed.
Example C47_run_D4 : option_map (to_rows 5 5) (FillDepressions (fun n => 7 * n)%nat D4 5 5 dem5)
  = Some [[9;9;9;9;9];[9;8;8;8;9];[9;8;8;8;7];[9;8;8;8;9];[9;9;9;9;9]].
Proof. vm_compute. reflexivity. Qed.

(** ** C48 *)
(** A data cell where water leaves: it lies on the edge of the raster or touches a NoData cell. *)
Definition data_cell (w h nd : Z) (e : grid Z) (x y : Z) : Prop := in_raster w h x y /\ e x y <> nd.
Definition data_outlet (w h nd : Z) (e : grid Z) (x y : Z) : Prop :=
  data_cell w h nd e x y /\ (on_edge w h x y \/ exists x' y', in_raster w h x' y' /\ adjacent D8 x y x' y' /\ e x' y' = nd).
(** Water standing at level [L] in the cell gets over data cells not above [L] to an outlet. *)
Inductive drains_data (w h nd : Z) (e : grid Z) (L : Z) : Z -> Z -> Prop :=
| dd_outlet x y : data_outlet w h nd e x y -> e x y <= L -> drains_data w h nd e L x y
| dd_step x y x' y' : data_cell w h nd e x y -> e x y <= L -> adjacent D8 x y x' y' -> drains_data w h nd e L x' y' -> drains_data w h nd e L x y.
Definition data_level (w h nd : Z) (e : grid Z) (x y L : Z) : Prop :=
  drains_data w h nd e L x y /\ forall L', drains_data w h nd e L' x y -> L <= L'.

Lemma esc_data w h nd dem L c : esc nb8 (wdom w h nd (fun c => dem (fst c) (snd c))) (wout w h nd (fun c => dem (fst c) (snd c))) (fun c => dem (fst c) (snd c)) L c
  <-> drains_data w h nd dem L (fst c) (snd c).
Proof.
  split.
  - induction 1 as [x D O Le|x y D Le N E IH].
    + apply dd_outlet; auto. split; [exact D|]. destruct O as [O|[n [A [B C]]]]; [left; exact O|right; exists (fst n), (snd n); auto].
    + eapply dd_step; eauto.
  - intros H. destruct c as [x y]. cbn [fst snd] in H. induction H as [x y [D O] Le|x y x' y' D Le A H IH].
    + apply esc_out; auto. destruct O as [O|[a [b [A [B C]]]]]; [left; exact O|right; exists (a, b); auto].
    + apply (esc_step _ _ _ _ _ (x, y) (x', y')); auto.
Qed.

(** For every tie order, raster (empty ones included), NoData value and terrain: the call ends without touching a cell
    outside the raster, NoData cells are unchanged and every data cell stands at its minimax level. *)
Theorem C48_wei_minimax : forall tb w h nd dem,
  exists r, PriorityFlood_Wei2018 tb w h nd dem = Some (Ok r) /\
    (forall x y, in_raster w h x y -> dem x y = nd -> r x y = nd) /\
    (forall x y, data_cell w h nd dem x y -> data_level w h nd dem x y (r x y)).
Proof.
  intros tb w h nd dem. destruct (wei_correct tb w h nd dem) as [r [E [A B]]]. exists r. split; [exact E|]. split.
  - intros x y R Ex. apply (A (x, y)); auto.
  - intros x y [R Ex]. destruct (B (x, y) R Ex) as [C D]. split.
    + apply esc_data in C. exact C.
    + intros L' HL. apply D. apply esc_data. exact HL.
Qed.
Print Assumptions C48_wei_minimax.

(** Without NoData cells the result is that of FillDepressions. *)
Theorem C48_wei_equals_fill : forall tb tb' w h nd dem, 0 < w -> 0 < h -> (forall x y, in_raster w h x y -> dem x y <> nd) ->
  exists r r', PriorityFlood_Wei2018 tb w h nd dem = Some (Ok r) /\ FillDepressions tb' D8 w h dem = Some r' /\
    forall x y, in_raster w h x y -> r x y = r' x y.
Proof.
  intros tb tb' w h nd dem Hw Hh ND. destruct (C48_wei_minimax tb w h nd dem) as [r [E [_ B]]]. destruct (zhou_correct tb' w h dem Hw Hh) as [r' [E' H']].
  exists r, r'. split; [exact E|]. split; [exact E'|]. intros x y R.
  assert (EQ : forall L a b, drains D8 w h dem L a b <-> drains_data w h nd dem L a b).
  { intros L a b. split.
    - induction 1 as [a b O Le|a b a' b' Ra Le A D IH]; [apply dd_outlet; auto; split; [split; [apply O|apply ND; apply O]|left; exact O]|eapply dd_step; eauto; split; auto].
    - induction 1 as [a b [D O] Le|a b a' b' D Le A H IH]; [apply drains_edge; auto; destruct O as [O|[a' [b' [O1 [O2 O3]]]]]; [exact O|destruct (ND _ _ O1 O3)]|eapply drains_step; eauto; apply D]. }
  destruct (B x y (conj R (ND _ _ R))) as [B1 B2]. destruct (H' x y R) as [H1 H2].
  apply EQ in H1. apply EQ in B1. specialize (B2 _ H1). specialize (H2 _ B1). lia.
Qed.
Print Assumptions C48_wei_equals_fill.
Example C48_run : match PriorityFlood_Wei2018 (fun n => n) 5 5 (-1) dem5 with Some (Ok r) => Some (to_rows 5 5 r) | _ => None end
  = Some [[9;9;9;9;9];[9;7;7;7;9];[9;7;7;8;7];[9;7;8;7;9];[9;9;9;9;9]].
Proof. vm_compute. reflexivity. Qed.
(** a hole in the data (the cell 3) drains the basin around it *)
Example C48_run_nodata : match PriorityFlood_Wei2018 (fun n => n) 5 5 3 (of_rows [[9;9;9;9;9];[9;2;3;4;9];[9;5;9;8;7];[9;6;8;1;9];[9;9;9;9;9]]) with Some (Ok r) => Some (to_rows 5 5 r) | _ => None end
  = Some [[9;9;9;9;9];[9;2;3;4;9];[9;5;9;8;7];[9;6;8;7;9];[9;9;9;9;9]].
Proof. vm_compute. reflexivity. Qed.
