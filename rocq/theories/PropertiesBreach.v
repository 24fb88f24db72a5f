(** Properties C49, C50, C51: depression breaching (BreachDepressions, CompleteBreaching_Lindsay2016, Lindsay2016). *)
From Coq Require Import ZArith List Lia Bool.
From Verif Require Import Base Res RasterSpec RasterFacts FlowModel ZhouModel ZhouProofs BreachModel BreachSpec BreachProofs BreachLoop BreachComplete BreachTop BreachModes PropertiesPF.
Open Scope Z_scope.

Definition same (z : Z) : Z := z.
Lemma same_le z : same z <= z. Proof. unfold same. lia. Qed.
Lemma same_ge z' z : z' < z -> z' <= same z. Proof. unfold same. lia. Qed.

(** C49. For every tie order of the queue, topology, raster, NoData value and terrain whose elevations the type can hold:
    the call ends without touching anything outside the raster; NoData cells stay; from every data cell water runs off,
    never uphill, to the edge of the raster or to NoData. The result differs from the terrain in two ways only: single-cell
    pits are raised to their lowest neighbour ([F]), and cells are lowered to the level of a cell [p] without lower
    neighbour, on a path from [p] that nowhere exceeds the lowest level at which water can leave [p]. No cell stands above
    the level at which depression filling would put it. *)
Theorem C49_complete_breaching : forall tb t w h nd mx e, (forall x y, is_data w h nd e x y -> e x y <= mx) ->
  exists D F, CompleteBreaching_Lindsay2016 tb t w h nd mx e = Some (Ok D) /\
    (forall x y, is_data w h nd e x y -> runs_off t w h nd e D x y) /\
    (forall x y, in_raster w h x y -> e x y = nd -> D x y = nd) /\
    pits_raised same t w h nd e F /\
    (forall x y, D x y <= F x y) /\
    (forall x y, D x y <> F x y -> exists px py, no_lower t w h nd e F px py /\ D x y = F px py /\
       forall L, leaves_at t w h nd e F L px py -> joined_at w h nd t e F L px py x y /\ leaves_at t w h nd e F L x y) /\
    (forall x y L, leaves_at t w h nd e e L x y -> D x y <= L).
Proof.
  intros tb t w h nd mx e Hmx. set (ec := fun c : cellt => e (fst c) (snd c)).
  destruct (first_pass t w h nd mx ec same (cb_cell t w h nd mx) (cb_cell_ok t w h nd mx ec (Hmx' w h nd mx e Hmx)) ec (fun c => eq_refl)) as [s0 [E0 P0]].
  destruct (run_complete t w h nd mx e same Hmx same_le same_ge (or_introl (fun z => eq_refl)) (or_introl (fun z => eq_refl)) tb false s0 P0) as [s [E [B1 [B2 [B3 [_ B5]]]]]].
  exists (fun x y => l_dem s (x, y)), (Fg t w h nd mx e same). split; [|split; [|split; [|split; [|split; [|split]]]]]; auto.
  - unfold CompleteBreaching_Lindsay2016. replace (forM _ _ _) with (Ok s0) by (symmetry; exact E0). change (fun z : Z => z) with same. rewrite E. reflexivity.
  - exact (raised_spec t w h nd mx e same Hmx same_ge (or_introl (fun z => eq_refl))).
  - intros x y N. destruct (B5 x y N) as [px [py [C1 [_ [C3 C4]]]]]. exists px, py. split; [exact C1|]. split; [apply C3; reflexivity|exact C4].
  - intros x y L EL. apply leaves_iff in EL. specialize (B2 x y). pose proof (F_level t w h nd mx e same Hmx same_le same_ge (or_introl (fun z => eq_refl)) L (x, y) EL). unfold Fg in B2. lia.
Qed.
Print Assumptions C49_complete_breaching.

Definition breach_dem : grid Z := of_rows [[0;0;0;0;0;0;0;0;0;0];[0;8;8;8;8;8;8;8;8;0];[0;8;8;8;8;8;8;8;8;0];[0;8;8;1;1;1;8;8;8;0];[0;8;8;1;1;1;8;8;8;0];
  [0;8;8;1;1;1;8;8;8;0];[0;8;8;8;8;7;8;8;8;0];[0;8;8;8;8;7;8;8;8;0];[0;8;8;8;8;7;8;8;8;0];[0;0;0;0;0;0;0;0;0;0]].
Definition breach_show (w h : Z) (m : option (res (grid Z))) : option (list (list Z)) := match m with Some (Ok r) => Some (to_rows w h r) | _ => None end.
(** tests/breaching/testdem1.dem and testdem1.complete.out *)
Example C49_run : breach_show 10 10 (CompleteBreaching_Lindsay2016 (fun n => n) D8 10 10 9 1000 breach_dem)
  = Some [[0;0;0;0;0;0;0;0;0;0];[0;8;8;8;8;8;8;8;8;0];[0;8;8;8;8;8;8;8;8;0];[0;8;8;1;1;1;8;8;8;0];[0;8;8;1;1;1;8;8;8;0];
  [0;8;8;1;1;1;8;8;8;0];[0;8;8;8;8;1;8;8;8;0];[0;8;8;8;8;1;8;8;8;0];[0;8;8;8;8;1;8;8;8;0];[0;0;0;0;0;0;0;0;0;0]].
Proof. vm_compute. reflexivity. Qed.
(** D4, a NoData hole inside *)
Example C49_run_D4 : breach_show 6 5 (CompleteBreaching_Lindsay2016 (fun n => 3 * n)%nat D4 6 5 (-1) 1000
    (of_rows [[9;9;9;9;9;9];[9;2;8;5;9;9];[9;4;8;8;9;9];[9;8;8;7;-1;9];[9;9;9;9;9;9]]))
  = Some [[9;9;9;9;9;9];[9;4;8;8;9;9];[9;4;4;8;9;9];[9;8;4;4;-1;9];[9;9;9;9;9;9]].
Proof. vm_compute. reflexivity. Qed.

(** C50. Lindsay2016 with COMPLETE_BREACHING and epsilon gradients, NoData below all elevations: every cell drains
    strictly downhill. [down] is the next smaller value of the type. *)
Theorem C50_breaching_with_gradients : forall tb fill down up maxlen maxdepth w h nd mx lo e,
  (forall z, down z < z) -> (forall z' z, z' < z -> z' <= down z) ->
  (forall x y, is_data w h nd e x y -> nd < e x y <= mx) ->
  exists D F, Lindsay2016 tb COMPLETE down up fill maxlen maxdepth w h nd mx lo e = Some (Ok D) /\
    (forall x y, is_data w h nd e x y -> runs_down D8 w h nd e D x y) /\
    (forall x y, in_raster w h x y -> e x y = nd -> D x y = nd) /\
    pits_raised down D8 w h nd e F /\
    (forall x y, D x y <= F x y) /\
    (forall x y, D x y <> F x y -> exists px py, no_lower D8 w h nd e F px py /\ D x y <= F px py /\
       forall L, leaves_at D8 w h nd e F L px py -> joined_at w h nd D8 e F L px py x y /\ leaves_at D8 w h nd e F L x y) /\
    (forall x y L, leaves_at D8 w h nd e e L x y -> D x y <= L).
Proof.
  intros tb fill down up maxlen maxdepth w h nd mx lo e Hst Hge HE. set (ec := fun c : cellt => e (fst c) (snd c)).
  assert (Hmx : forall x y, is_data w h nd e x y -> e x y <= mx) by (intros x y H; apply HE; auto).
  assert (Hnd : (forall z, down z = z) \/ (forall x y, is_data w h nd e x y -> nd < e x y)) by (right; intros x y H; apply HE; auto).
  assert (Hdown : forall z, down z <= z) by (intros z; specialize (Hst z); lia).
  destruct (first_pass D8 w h nd mx ec down (lb_cell down w h nd mx) (gb_cell_ok D8 w h nd mx ec down (Hmx' w h nd mx e Hmx) Hdown Hge (Hnd' w h nd e down Hnd)) ec (fun c => eq_refl)) as [s0 [E0 P0]].
  destruct (run_complete D8 w h nd mx e down Hmx Hdown Hge (or_intror Hst) Hnd tb fill s0 P0) as [s [E [B1 [B2 [_ [B4 B5]]]]]].
  exists (fun x y => l_dem s (x, y)), (Fg D8 w h nd mx e down). split; [|split; [|split; [|split; [|split; [|split]]]]]; auto.
  - unfold Lindsay2016. replace (forM _ _ _) with (Ok s0) by (symmetry; exact E0). change (breach_mode COMPLETE maxlen maxdepth lo w h down) with (breach_complete w h down). rewrite E. destruct fill; reflexivity.
  - exact (raised_spec D8 w h nd mx e down Hmx Hge Hnd).
  - intros x y N. destruct (B5 x y N) as [px [py [C1 [C2 [C3 C4]]]]]. exists px, py. auto.
  - intros x y L EL. apply leaves_iff in EL. specialize (B2 x y). pose proof (F_level D8 w h nd mx e down Hmx Hdown Hge Hnd L (x, y) EL). unfold Fg in B2. lia.
Qed.
Print Assumptions C50_breaching_with_gradients.

(** Without epsilon gradients it computes what BreachDepressions promises. *)
Theorem C50_breaching_without_gradients : forall tb fill up maxlen maxdepth w h nd mx lo e,
  (forall x y, is_data w h nd e x y -> e x y <= mx) ->
  exists D F, Lindsay2016 tb COMPLETE same up fill maxlen maxdepth w h nd mx lo e = Some (Ok D) /\
    (forall x y, is_data w h nd e x y -> runs_off D8 w h nd e D x y) /\
    (forall x y, in_raster w h x y -> e x y = nd -> D x y = nd) /\
    pits_raised same D8 w h nd e F /\
    (forall x y, D x y <= F x y) /\
    (forall x y, D x y <> F x y -> exists px py, no_lower D8 w h nd e F px py /\ D x y = F px py /\
       forall L, leaves_at D8 w h nd e F L px py -> joined_at w h nd D8 e F L px py x y /\ leaves_at D8 w h nd e F L x y) /\
    (forall x y L, leaves_at D8 w h nd e e L x y -> D x y <= L).
Proof.
  intros tb fill up maxlen maxdepth w h nd mx lo e Hmx. set (ec := fun c : cellt => e (fst c) (snd c)).
  assert (Hnd : (forall z, same z = z) \/ (forall x y, is_data w h nd e x y -> nd < e x y)) by (left; reflexivity).
  destruct (first_pass D8 w h nd mx ec same (lb_cell same w h nd mx) (gb_cell_ok D8 w h nd mx ec same (Hmx' w h nd mx e Hmx) same_le same_ge (Hnd' w h nd e same Hnd)) ec (fun c => eq_refl)) as [s0 [E0 P0]].
  destruct (run_complete D8 w h nd mx e same Hmx same_le same_ge (or_introl (fun z => eq_refl)) Hnd tb fill s0 P0) as [s [E [B1 [B2 [B3 [_ B5]]]]]].
  exists (fun x y => l_dem s (x, y)), (Fg D8 w h nd mx e same). split; [|split; [|split; [|split; [|split; [|split]]]]]; auto.
  - unfold Lindsay2016. replace (forM _ _ _) with (Ok s0) by (symmetry; exact E0). change (breach_mode COMPLETE maxlen maxdepth lo w h same) with (breach_complete w h same). rewrite E. destruct fill; reflexivity.
  - exact (raised_spec D8 w h nd mx e same Hmx same_ge Hnd).
  - intros x y N. destruct (B5 x y N) as [px [py [C1 [_ [C3 C4]]]]]. exists px, py. split; [exact C1|]. split; [apply C3; reflexivity|exact C4].
  - intros x y L EL. apply leaves_iff in EL. specialize (B2 x y). pose proof (F_level D8 w h nd mx e same Hmx same_le same_ge Hnd L (x, y) EL). unfold Fg in B2. lia.
Qed.
Print Assumptions C50_breaching_without_gradients.
Example C50_run : breach_show 10 10 (Lindsay2016 (fun n => n) COMPLETE Z.pred Z.succ true 0 0 10 10 (-99) 1000 (-1000) (fun x y => 10 * breach_dem x y))
  = Some [[0;0;0;0;0;0;0;0;0;0];[0;80;80;80;80;80;80;80;80;0];[0;80;80;80;80;80;80;80;80;0];[0;80;80;10;10;10;79;80;80;0];[0;80;80;10;9;9;79;80;80;0];
    [0;80;80;10;8;10;80;80;80;0];[0;80;80;79;80;7;79;80;80;0];[0;80;80;80;80;6;80;80;80;0];[0;80;80;80;80;5;80;80;80;0];[0;0;0;0;0;0;0;0;0;0]].
Proof. vm_compute. reflexivity. Qed.

(** C51. Lindsay2016 in every mode, with and without filling and gradients: the call ends without touching anything
    outside the raster, and NoData cells stay. *)
Theorem C51_every_mode : forall tb m fill down up maxlen maxdepth w h nd mx lo e,
  (forall z, down z <= z) -> (forall z' z, z' < z -> z' <= down z) -> (forall z, z <= up z) ->
  (forall z, down z = z) \/ (forall x y, is_data w h nd e x y -> nd < e x y) ->
  (forall x y, is_data w h nd e x y -> e x y <= mx) ->
  exists D, Lindsay2016 tb m down up fill maxlen maxdepth w h nd mx lo e = Some (Ok D) /\
    (forall x y, in_raster w h x y -> e x y = nd -> D x y = nd) /\
    (** with filling, every inner cell that had no lower neighbour drains; with gradients strictly downhill *)
    (m <> COMPLETE -> fill = true -> forall x y, no_lower D8 w h nd e e x y -> runs_off D8 w h nd e D x y) /\
    (m <> COMPLETE -> fill = true -> (forall z, z < up z) -> forall x y, no_lower D8 w h nd e e x y -> runs_down D8 w h nd e D x y) /\
    (** selective breaching without filling lowers cells only to the level of a cell without lower neighbour whose
        least-cost way out they lie on *)
    (m = SELECTIVE -> fill = false -> exists F, pits_raised down D8 w h nd e F /\ (forall x y, D x y <= F x y) /\
      forall x y, D x y <> F x y -> exists px py, no_lower D8 w h nd e F px py /\ D x y <= F px py /\ ((forall z, down z = z) -> D x y = F px py) /\
       forall L, leaves_at D8 w h nd e F L px py -> joined_at w h nd D8 e F L px py x y /\ leaves_at D8 w h nd e F L x y).
Proof.
  intros tb m fill down up maxlen maxdepth w h nd mx lo e Hdown Hge Hup Hnd Hmx. set (ec := fun c : cellt => e (fst c) (snd c)).
  destruct (first_pass D8 w h nd mx ec down (lb_cell down w h nd mx) (gb_cell_ok D8 w h nd mx ec down (Hmx' w h nd mx e Hmx) Hdown Hge (Hnd' w h nd e down Hnd)) ec (fun c => eq_refl)) as [s0 [E0 P0]].
  destruct (run_mode w h nd mx lo maxlen maxdepth e down m Hmx Hdown Hge Hnd tb fill s0 P0) as [s [ps [rk [E [I [Q [PITS _]]]]]]].
  assert (ND : forall x y, in_raster w h x y -> e x y = nd -> l_dem s (x, y) = nd).
  { intros x y IR N. rewrite (b_un _ _ _ _ _ _ _ _ _ _ _ _ I (x, y)).
    - apply (fun A => eq_trans (F_not_inner D8 w h nd mx ec down (Hmx' w h nd mx e Hmx) (Hnd' w h nd e down Hnd) (x, y) A) N). intros [[_ X] _]. apply X. exact N.
    - intros X. apply (b_ps _ _ _ _ _ _ _ _ _ _ _ _ _ I), (b_dom _ _ _ _ _ _ _ _ _ _ _ _ I) in X. apply X. exact N. }
  assert (SINK : forall x y, no_lower D8 w h nd e e x y -> l_vis s (x, y) = true).
  { intros x y [A1 [A2 A3]]. apply (b_ps _ _ _ _ _ _ _ _ _ _ _ _ _ I). apply PITS. apply (sink_pit w h nd mx e down Hmx Hge Hnd s0 (x, y) P0).
    - exact (proj1 (inner_iff D8 w h nd e down x y) (conj A1 A2)).
    - intros [x' y'] N. apply A3. exact N. }
  destruct fill eqn:FT.
  - destruct (run_flood w h nd mx e down up true s0 s ps rk Hup P0 I eq_refl) as [s' [E' [G1 [_ [G2 G3]]]]].
    destruct m eqn:M.
    1: { exists (fun x y => l_dem s (x, y)). split; [|split; [exact ND|split; [congruence|split; [congruence|discriminate]]]].
      unfold Lindsay2016. replace (forM _ _ _) with (Ok s0) by (symmetry; exact E0). rewrite E. reflexivity. }
    all: exists (fun x y => l_dem s' (x, y)); split; [unfold Lindsay2016; replace (forM (scan w h) _ _) with (Ok s0) by (symmetry; exact E0); rewrite E, E'; reflexivity|].
    all: split; [intros x y IR N; rewrite G1; [apply ND; auto|intros [_ X]; apply X; exact N]|].
    all: split; [intros _ _ x y H; apply (G2 (x, y)); auto|]; split; [intros _ _ ST x y H; apply (G3 ST (x, y)); auto|discriminate].
  - exists (fun x y => l_dem s (x, y)). split; [|split; [exact ND|split; [discriminate|split; [discriminate|]]]].
    + unfold Lindsay2016. replace (forM _ _ _) with (Ok s0) by (symmetry; exact E0). rewrite E. destruct m; reflexivity.
    + intros -> _. destruct (Q ltac:(discriminate)) as [Q1 Q3]. exists (Fg D8 w h nd mx e down). split; [exact (raised_spec D8 w h nd mx e down Hmx Hge Hnd)|]. split; [intros x y; apply Q1|].
      exact (on_path_ok D8 w h nd mx e down false ps rk s0 s P0 I Q3).
Qed.
Print Assumptions C51_every_mode.
(** tests/breaching: selective-len4-depth2-filldep and selective-len2-depth9999 *)
Example C51_run_fill : breach_show 10 10 (Lindsay2016 (fun n => n) SELECTIVE same same true 4 2 10 10 9 1000 (-1000) breach_dem)
  = Some [[0;0;0;0;0;0;0;0;0;0];[0;8;8;8;8;8;8;8;8;0];[0;8;8;8;8;8;8;8;8;0];[0;8;8;7;7;7;8;8;8;0];[0;8;8;7;7;7;8;8;8;0];
  [0;8;8;7;7;7;8;8;8;0];[0;8;8;8;8;7;8;8;8;0];[0;8;8;8;8;7;8;8;8;0];[0;8;8;8;8;7;8;8;8;0];[0;0;0;0;0;0;0;0;0;0]].
Proof. vm_compute. reflexivity. Qed.
Example C51_run_selective : breach_show 10 10 (Lindsay2016 (fun n => n) SELECTIVE same same false 2 9999 10 10 9 1000 (-1000) breach_dem) = Some (to_rows 10 10 breach_dem).
Proof. vm_compute. reflexivity. Qed.

(** The documentation says of selective breaching "that which cannot be breached is filled". It is not: the loop stops at
    the last pit, so the rest of its depression may not have been reached, and the fill skips what was not reached. *)
Definition stopped_dem : grid Z := of_rows [[10;10;10;10;10];[9;2;2;3;10];[10;10;10;10;10]].
Theorem C51_fill_refuted : ~ (forall tb maxlen maxdepth w h nd mx lo e D,
  (forall x y, is_data w h nd e x y -> e x y <= mx) ->
  Lindsay2016 tb SELECTIVE same same true maxlen maxdepth w h nd mx lo e = Some (Ok D) ->
  forall x y, is_data w h nd e x y -> runs_off D8 w h nd e D x y).
Proof.
  intros H.
  assert (HM : forall x y, is_data 5 3 (-1) stopped_dem x y -> stopped_dem x y <= 1000).
  { intros x y [R _]. assert (C : (x = 0 \/ x = 1 \/ x = 2 \/ x = 3 \/ x = 4) /\ (y = 0 \/ y = 1 \/ y = 2)) by (unfold in_raster in R; lia). destruct C as [[->|[->|[->|[->| ->]]]] [->|[->| ->]]]; vm_compute; discriminate. }
  destruct (C51_every_mode (fun n => n) SELECTIVE true same same 0 0 5 3 (-1) 1000 (-1000) stopped_dem same_le same_ge (fun z => Z.le_refl z) (or_introl (fun z => eq_refl)) HM) as [D [E _]].
  assert (R : breach_show 5 3 (Lindsay2016 (fun n => n) SELECTIVE same same true 0 0 5 3 (-1) 1000 (-1000) stopped_dem) = Some [[10;10;10;10;10];[9;9;9;3;10];[10;10;10;10;10]]) by (vm_compute; reflexivity).
  specialize (H _ _ _ _ _ _ _ _ _ D HM E 3 1). rewrite E in R. cbn [breach_show] in R. injection R. intros. 
  assert (DD : is_data 5 3 (-1) stopped_dem 3 1) by (split; [unfold in_raster; lia|vm_compute; discriminate]). specialize (H DD).
  inversion H as [x y O|x y x' y' _ A Le _]; subst.
  - destruct O as [_ [[_ O]|[x' [y' [R9 [_ N]]]]]]; [lia|]. assert (C : (x' = 0 \/ x' = 1 \/ x' = 2 \/ x' = 3 \/ x' = 4) /\ (y' = 0 \/ y' = 1 \/ y' = 2)) by (unfold in_raster in R9; lia). destruct C as [[->|[->|[->|[->| ->]]]] [->|[->| ->]]]; vm_compute in N; discriminate.
  - unfold adjacent in A. assert (C : (x' = 2 /\ (y' = 0 \/ y' = 1 \/ y' = 2)) \/ (x' = 3 /\ (y' = 0 \/ y' = 2)) \/ (x' = 4 /\ (y' = 0 \/ y' = 1 \/ y' = 2))).
    { destruct A as [A1 A2]. destruct (Z.eq_dec x' 3) as [->|]; [|lia]. destruct (Z.eq_dec y' 1) as [->|]; [destruct A1; reflexivity|lia]. }
    destruct C as [[-> [->|[->| ->]]]|[[-> [->| ->]]|[-> [->|[->| ->]]]]]; lia.
Qed.
Print Assumptions C51_fill_refuted.

(** ... and of constrained breaching "as deep as permitted, but no more". With maxdepth 3 the flat of two cells at 0 is dug
    down to -8: the code subtracts the depth of the path where it should subtract maxdepth, from the pit as well. *)
Definition deep_dem : grid Z := of_rows [[9;9;9;9];[8;0;0;9];[9;9;9;9]].
Theorem C51_maxdepth_refuted : ~ (forall tb fill maxlen maxdepth w h nd mx lo e D,
  (forall x y, is_data w h nd e x y -> e x y <= mx) -> 0 <= maxdepth ->
  Lindsay2016 tb CONSTRAINED same same fill maxlen maxdepth w h nd mx lo e = Some (Ok D) ->
  forall x y, is_data w h nd e x y -> e x y - maxdepth <= D x y).
Proof.
  intros H.
  assert (HM : forall x y, is_data 4 3 (-1) deep_dem x y -> deep_dem x y <= 1000).
  { intros x y [R _]. assert (C : (x = 0 \/ x = 1 \/ x = 2 \/ x = 3) /\ (y = 0 \/ y = 1 \/ y = 2)) by (unfold in_raster in R; lia). destruct C as [[->|[->|[->| ->]]] [->|[->| ->]]]; vm_compute; discriminate. }
  destruct (C51_every_mode (fun n => n) CONSTRAINED false same same 5 3 4 3 (-1) 1000 (-1000) deep_dem same_le same_ge (fun z => Z.le_refl z) (or_introl (fun z => eq_refl)) HM) as [D [E _]].
  assert (R : breach_show 4 3 (Lindsay2016 (fun n => n) CONSTRAINED same same false 5 3 4 3 (-1) 1000 (-1000) deep_dem) = Some [[9;9;9;9];[0;-8;0;9];[9;9;9;9]]) by (vm_compute; reflexivity).
  assert (DD : is_data 4 3 (-1) deep_dem 1 1) by (split; [unfold in_raster; lia|vm_compute; discriminate]).
  specialize (H _ _ _ _ _ _ _ _ _ _ D HM (ltac:(discriminate) : 0 <= 3) E 1 1 DD). rewrite E in R. cbn [breach_show] in R. injection R. intros.
  change (deep_dem 1 1) with 0 in H. lia.
Qed.
Print Assumptions C51_maxdepth_refuted.
