(** C76, C77: D-infinity flow directions and upslope areas. *)
From Coq Require Import ZArith Reals List Bool Permutation Lra Lia Psatz.
From Verif Require Import Base Res Kahn RasterSpec RasterFacts FlowModel FlowSpec FlowProofs TAModel TAProofs DinfModel DinfSpec DinfProofs DinfProofs2 DinfProofs3 DinfArea DinfArea2.
Import ListNotations.
Open Scope R_scope.

(** * C76: directions *)
Theorem C76_directions : forall w h e nd order, Permutation order (scan w h) ->
  exists fd, dinf_flow_directions w h e nd order = Ok fd /\
    forall x y, in_raster w h x y ->
      (e x y = nd -> fd x y = -1) /\
      (* border cells drain straight off the raster *)
      (e x y <> nd -> on_edge w h x y ->
         exists k, (0 <= k < 8)%Z /\ fd x y = IZR k * PI / 4 /\ ~ in_raster w h (fst (step (x, y) k)) (snd (step (x, y) k))) /\
      (* other cells follow the steepest descent, if there is any *)
      (e x y <> nd -> ~ on_edge w h x y ->
         (fd x y = 0 /\ no_descent e x y) \/ exists s, 0 < s /\ steepest e x y (fd x y) s /\ 0 <= fd x y < 2 * PI).
Proof.
  intros w h e nd order HP. destruct (dirs_ok w h e nd order HP) as [fd [E H]]. exists fd. split; [exact E|].
  intros x y I. destruct (H x y I) as [H1 H2]. split; [exact H1|]. split.
  - intros N Ed. specialize (H2 N). destruct (edge_dir w h e x y I Ed) as [k [K1 [K2 K3]]]. rewrite H2 in K2. injection K2 as K2. eauto.
  - intros N Ed. specialize (H2 N). destruct (dinf_inner w h e x y (inner_nbrs w h x y I Ed)) as [th [T1 T2]].
    rewrite H2 in T1. injection T1 as T1. rewrite T1. exact T2.
Qed.
Print Assumptions C76_directions.

(** a border cell points away from the raster, at right angles to its border, or diagonally in a corner *)
Theorem C76_border : forall w h e nd order fd, Permutation order (scan w h) -> dinf_flow_directions w h e nd order = Ok fd ->
  forall x y, in_raster w h x y -> e x y <> nd -> on_edge w h x y ->
  exists k, (0 <= k < 8)%Z /\ fd x y = IZR k * PI / 4 /\
    compass k = ((if x =? 0 then -1 else if x =? w - 1 then 1 else 0), (if y =? 0 then -1 else if y =? h - 1 then 1 else 0))%Z.
Proof.
  intros w h e nd order fd HP E x y I N D. destruct (dirs_ok w h e nd order HP) as [f [F H]]. rewrite E in F. injection F as <-.
  destruct (H x y I) as [_ H2]. specialize (H2 N).
  assert (Ed : isEdgeCell w h x y = true) by (apply (on_edge_iff w h x y I); exact D).
  unfold dinf_FlowDir in H2. rewrite Ed in H2. unfold on_edge in D. clear - H2 D. 
  destruct (Z.eqb_spec x 0) as [X0|X0], (Z.eqb_spec y 0) as [Y0|Y0], (Z.eqb_spec x (w - 1)) as [XW|XW], (Z.eqb_spec y (h - 1)) as [YH|YH]; cbn [andb] in H2;
    try (exfalso; lia); injection H2 as H2;
    match type of H2 with (?c * PI / 4 = _) => first
      [ exists 3%Z; unify c 3; split; [lia|split; [symmetry; exact H2|reflexivity]] | exists 5%Z; unify c 5; split; [lia|split; [symmetry; exact H2|reflexivity]]
      | exists 1%Z; unify c 1; split; [lia|split; [symmetry; exact H2|reflexivity]] | exists 7%Z; unify c 7; split; [lia|split; [symmetry; exact H2|reflexivity]]
      | exists 4%Z; unify c 4; split; [lia|split; [symmetry; exact H2|reflexivity]] | exists 0%Z; unify c 0; split; [lia|split; [symmetry; exact H2|reflexivity]]
      | exists 2%Z; unify c 2; split; [lia|split; [symmetry; exact H2|reflexivity]] | exists 6%Z; unify c 6; split; [lia|split; [symmetry; exact H2|reflexivity]] ] end.
Qed.
Print Assumptions C76_border.

(** the result does not depend on the order in which threads write the cells *)
Theorem C76_any_schedule : forall w h e nd order order' fd fd', Permutation order (scan w h) -> Permutation order' (scan w h) ->
  dinf_flow_directions w h e nd order = Ok fd -> dinf_flow_directions w h e nd order' = Ok fd' ->
  forall x y, in_raster w h x y -> fd x y = fd' x y.
Proof.
  intros w h e nd order order' fd fd' HP HP' E E' x y I.
  destruct (dirs_ok w h e nd order HP) as [f [F H]]. rewrite E in F. injection F as <-.
  destruct (dirs_ok w h e nd order' HP') as [f [F H']]. rewrite E' in F. injection F as <-.
  destruct (H x y I) as [A B], (H' x y I) as [A' B']. destruct (Req_EM_T (e x y) nd) as [Q|Q].
  - rewrite A, A' by exact Q. reflexivity.
  - specialize (B Q). specialize (B' Q). congruence.
Qed.
Print Assumptions C76_any_schedule.

(** every neighbour that receives a share is strictly lower, so directions never form a loop *)
Theorem C76_downhill : forall w h e nd order fd, Permutation order (scan w h) ->
  dinf_flow_directions w h e nd order = Ok fd ->
  forall d c s, sends w h fd (-1) d c s -> e (fst c) (snd c) < e (fst d) (snd d).
Proof.
  intros w h e nd order fd HP E d c s [[Id Nd] [[Ic _] [NZ [k [Hs ->]]]]].
  destruct (dirs_ok w h e nd order HP) as [f [F H]]. rewrite E in F. injection F as <-.
  destruct d as [x y]. cbn [fst snd] in *. destruct (H x y Id) as [A B].
  assert (Ne : e x y <> nd) by (intros Q; apply Nd; exact (A Q)). specialize (B Ne).
  destruct (isEdgeCell w h x y) eqn:Ed.
  - exfalso. apply (on_edge_iff w h x y Id) in Ed. destruct (edge_dir w h e x y Id Ed) as [k' [_ [K2 K3]]].
    rewrite B in K2. injection K2 as K2. rewrite K2 in Hs. apply share_int in Hs. destruct Hs as [-> _]. contradiction.
  - apply (dinf_lower w h e x y (fd x y) k s); auto. apply inner_nbrs; [exact Id|]. rewrite on_edge_iff by exact Id. congruence.
Qed.
Print Assumptions C76_downhill.
Theorem C76_no_loops : forall w h e nd order fd, Permutation order (scan w h) ->
  dinf_flow_directions w h e nd order = Ok fd -> forall c, ~ after_loop w h fd (-1) c.
Proof.
  intros w h e nd order fd HP E c [v [C _]].
  assert (G : forall a b, below w h fd (-1) a b -> e (fst b) (snd b) < e (fst a) (snd a)).
  { induction 1 as [d c' s H|d m c' s H IH Hs].
    - exact (C76_downhill w h e nd order fd HP E d c' s H).
    - assert (K := C76_downhill w h e nd order fd HP E m c' s Hs). lra. }
  specialize (G v v C). lra.
Qed.
Print Assumptions C76_no_loops.

(** a plane that falls due east: everywhere inside the direction of steepest descent is 0, the value that means "no flow" *)
Definition east : grid R := fun x _ => - IZR x.
Lemma east_dir w h x y : in_raster w h x y -> ~ on_edge w h x y -> dinf_FlowDir w h east x y = Ok 0.
Proof.
  intros I N. destruct (flowdir_inner w h east x y (inner_nbrs w h x y I N)) as [th [E H]]. rewrite E. f_equal.
  destruct H as [[-> _]|[n [r [s [Hn [Hs [F [-> [HM HL]]]]]]]]]; [reflexivity|].
  assert (F0 : Fc east x y 0 = (0, 1)).
  { unfold Fc, facet, e1of, e2of. rewrite datan2_11. offs. unfold east. rewrite plus_IZR.
    replace ((- IZR x - - (IZR x + 1)) / 1) with 1 by field.
    replace ((- (IZR x + 1) - - (IZR x + 1)) / 1) with 0 by field.
    assert (D : datan2 0 1 = 0).
    { unfold datan2. destruct (Req_EM_T 0 0); [|lra]. destruct (Req_EM_T 1 0); [lra|]. unfold atan2. destruct (Rlt_dec 0 1); [|lra].
      replace (0 / 1) with 0 by field. apply atan_0. }
    rewrite D. assert (P := PI_RGT_0). destruct (Rlt_dec 0 0); [lra|]. destruct (Rgt_dec 0 (PI / 4)); [lra|].
    replace (1 * 1 + 0 * 0) with 1 by ring. rewrite sqrt_1. reflexivity. }
  assert (B : s <= 1).
  { destruct (facet_ok _ _ _ _ _ F) as [_ [Es _]]. assert (C := cauchy (cos r) (sin r) (east x y - e1of east x y n) (e1of east x y n - e2of east x y n)).
    assert (K := sin2_cos2 r). unfold Rsqr in K. replace (cos r * cos r + sin r * sin r) with 1 in C by lra. rewrite sqrt_1 in C.
    assert (Q : (east x y - e1of east x y n) * (east x y - e1of east x y n) + (e1of east x y n - e2of east x y n) * (e1of east x y n - e2of east x y n) = 1).
    { unfold e1of, e2of, east. rewrite !plus_IZR. clear - Hn. each Hn; offs; ring. }
    rewrite Q, sqrt_1 in C. lra. }
  destruct (Z.eq_dec n 0) as [->|N0].
  - rewrite F0 in F. injection F as <- <-. unfold angle. offa. lra.
  - specialize (HL 0%Z ltac:(lia)). rewrite F0 in HL. cbn [snd] in HL. lra.
Qed.
Theorem C76_east_is_no_flow_refuted : forall w h nd order fd, Permutation order (scan w h) ->
  dinf_flow_directions w h east nd order = Ok fd ->
  forall x y, in_raster w h x y -> ~ on_edge w h x y -> east x y <> nd -> fd x y = 0 /\ steepest east x y 0 1.
Proof.
  intros w h nd order fd HP E x y I N Ne. destruct (dirs_ok w h east nd order HP) as [f [F H]]. rewrite E in F. injection F as <-.
  destruct (H x y I) as [_ B]. specialize (B Ne). rewrite (east_dir w h x y I N) in B. injection B as B. split; [congruence|].
  split.
  - exists (1, 0)%Z, (1, 1)%Z, 1, 0. split; [unfold triangle; cbn; lia|].
    assert (D : dist (1, 0)%Z (1, 1)%Z 1 0 = 1).
    { unfold dist. cbn [fst snd]. replace ((1 * 1 + 0 * 1) ^ 2 + (1 * 0 + 0 * 1) ^ 2) with 1 by ring. apply sqrt_1. }
    split; [lra|]. split; [lra|]. rewrite D. split; [lra|]. unfold heading, drop. rewrite D, cos_0, sin_0. cbn [fst snd]. unfold east.
    rewrite !plus_IZR. split; [split; ring|ring].
  - intros p q u v T Hu Hv. destruct (triangle_facet p q T) as [n [Hn [-> ->]]].
    rewrite drop_eq, dist_eq by exact Hn.
    assert (C := cauchy (u + v) v (east x y - e1of east x y n) (e1of east x y n - e2of east x y n)).
    assert (Q : (east x y - e1of east x y n) * (east x y - e1of east x y n) + (e1of east x y n - e2of east x y n) * (e1of east x y n - e2of east x y n) = 1).
    { unfold e1of, e2of, east. rewrite !plus_IZR. clear - Hn. each Hn; offs; ring. }
    rewrite Q, sqrt_1 in C. exact C.
Qed.
Print Assumptions C76_east_is_no_flow_refuted.
(** cells of the last column, other than the corners, also get 0 instead of a direction that leaves the raster *)
Theorem C76_right_border_refuted : forall w h e y, (2 <= w)%Z -> (0 < y < h - 1)%Z -> dinf_FlowDir w h e (w - 1) y = Ok 0.
Proof.
  intros w h e y W Y. unfold dinf_FlowDir, isEdgeCell.
  destruct (Z.eqb_spec (w - 1) 0); [lia|]. destruct (Z.eqb_spec y 0); [lia|]. destruct (Z.eqb_spec y (h - 1)); [lia|].
  destruct (Z.eqb_spec (w - 1) (w - 1)); [|lia]. cbn [orb andb]. f_equal. field.
Qed.
Print Assumptions C76_right_border_refuted.

(** a 3 x 3 raster that falls towards the southwest *)
Example C76_not_vacuous :
  let e : grid R := fun x y => IZR x - IZR y in
  Permutation (scan 3 3) (scan 3 3) /\ in_raster 3 3 1 1 /\ ~ on_edge 3 3 1 1 /\
  drop e 1 1 (-1, 0)%Z (-1, 1)%Z 0 1 = 2 /\ ~ no_descent e 1 1.
Proof.
  cbv zeta. split; [apply Permutation_refl|]. split; [unfold in_raster; lia|]. split; [unfold on_edge; lia|].
  assert (D : drop (fun x y => IZR x - IZR y) 1 1 (-1, 0)%Z (-1, 1)%Z 0 1 = 2) by (unfold drop; cbn [fst snd]; rewrite !plus_IZR, ?minus_IZR; lra).
  split; [exact D|]. intros N. specialize (N (-1, 0)%Z (-1, 1)%Z 0 1 ltac:(unfold triangle; cbn; lia) ltac:(lra) ltac:(lra)). lra.
Qed.

(** * C77: upslope area *)
Theorem C77_upslope_area : forall w h fd fnd order, Permutation order (scan w h) ->
  (forall x y, in_raster w h x y -> fd x y = fnd \/ 0 <= fd x y <= 2 * PI) ->
  exists area, dinf_upslope_area w h fd fnd order = Some (Ok area) /\
    forall c, in_raster w h (fst c) (snd c) ->
      (* NoData stays NoData *)
      (fd (fst c) (snd c) = fnd -> area c = -1) /\
      (* a cell's area is its own and what is sent to it *)
      (isdata w h fd fnd c -> fd (fst c) (snd c) <> 0 \/ (exists d s, sends w h fd fnd d c s) -> ~ after_loop w h fd fnd c ->
         exists a, received w h fd fnd area c (scan w h) a /\ area c = 1 + a) /\
      (* a cell without a direction to which nothing is sent has area 0, not 1 *)
      (isdata w h fd fnd c -> fd (fst c) (snd c) = 0 -> (forall d s, ~ sends w h fd fnd d c s) -> area c = 0) /\
      (* a cell that a loop feeds has only what the donors that no loop feeds send to it *)
      (after_loop w h fd fnd c -> exists L, NoDup L /\
         (forall d s, sends w h fd fnd d c s -> (In d L <-> ~ after_loop w h fd fnd d)) /\ received w h fd fnd area c L (area c)) /\
      (after_loop w h fd fnd c \/ ~ after_loop w h fd fnd c).
Proof. intros w h fd fnd order HP Hfd. exact (area_ok w h fd fnd Hfd order HP). Qed.
Print Assumptions C77_upslope_area.

(** what a cell receives is one number *)
Theorem C77_received_unique : forall w h fd fnd area c L a a',
  received w h fd fnd area c L a -> received w h fd fnd area c L a' -> a = a'.
Proof. intros w h fd fnd area c L a a'. apply received_fun. Qed.
Print Assumptions C77_received_unique.

(** a cell's whole area is passed on: the shares add up to 1 *)
Theorem C77_shares : forall th, exists j,
  (forall k s, share th k s <-> k = j /\ s = 1) \/
  exists f, 0 < f < 1 /\ forall k s, share th k s <-> (k = j /\ s = f) \/ (k = (j + 1)%Z /\ s = 1 - f).
Proof.
  intros th. exists (kof th). assert (B := kof_bounds th). destruct (closeb th) eqn:C.
  - left. intros k s. rewrite share_iff, C. reflexivity.
  - right. exists (qof th - IZR (kof th)). split.
    + unfold closeb in C. destruct (Rlt_dec _ _) as [L|L]; [discriminate|]. lra.
    + intros k s. rewrite share_iff, C. replace (1 - (qof th - IZR (kof th))) with (IZR (kof th) + 1 - qof th) by ring. reflexivity.
Qed.
Print Assumptions C77_shares.

(** the neighbour whose direction is closer to the flow direction gets the smaller share *)
Theorem C77_larger_share_refuted : forall th j, let q := 4 * th / PI in 1 / 1000000 <= q - IZR j < 1 / 2 ->
  share th j (q - IZR j) /\ share th (j + 1) (IZR j + 1 - q) /\ q - IZR j < IZR j + 1 - q.
Proof.
  intros th j q H. unfold share. fold q.
  split; [exists j; right; split; [lra|left; auto]|]. split; [exists j; right; split; [lra|right; auto]|]. lra.
Qed.
Print Assumptions C77_larger_share_refuted.

(** after [dinf_flow_directions]: no loops, so every data cell with a direction or a donor has its full area *)
Theorem C77_from_elevations : forall w h e nd order order' fd, Permutation order (scan w h) -> Permutation order' (scan w h) ->
  dinf_flow_directions w h e nd order = Ok fd ->
  exists area, dinf_upslope_area w h fd (-1) order' = Some (Ok area) /\
    forall x y, in_raster w h x y ->
      (e x y = nd -> area (x, y) = -1) /\
      (e x y <> nd -> (fd x y <> 0 \/ exists d s, sends w h fd (-1) d (x, y) s) ->
         exists a, received w h fd (-1) area (x, y) (scan w h) a /\ area (x, y) = 1 + a) /\
      (e x y <> nd -> fd x y = 0 -> (forall d s, ~ sends w h fd (-1) d (x, y) s) -> area (x, y) = 0).
Proof.
  intros w h e nd order order' fd HP HP' E.
  destruct (C76_directions w h e nd order HP) as [f [F H]]. rewrite E in F. injection F as <-.
  assert (P := PI_RGT_0).
  assert (R : forall x y, in_raster w h x y -> (e x y = nd /\ fd x y = -1) \/ (e x y <> nd /\ 0 <= fd x y <= 2 * PI)).
  { intros x y I. destruct (H x y I) as [A [B C]]. destruct (Req_EM_T (e x y) nd) as [Q|Q]; [left; auto|right; split; [exact Q|]].
    destruct (isEdgeCell w h x y) eqn:Ed.
    - apply (on_edge_iff w h x y I) in Ed. destruct (B Q Ed) as [k [K [-> _]]].
      assert (K0 : 0 <= IZR k) by (apply IZR_le; lia). assert (K8 : IZR k <= 8) by (apply IZR_le; lia). nra.
    - assert (Nd : ~ on_edge w h x y) by (rewrite on_edge_iff by exact I; congruence).
      destruct (C Q Nd) as [[-> _]|[s [_ [_ K]]]]; lra. }
  destruct (C77_upslope_area w h fd (-1) order' HP') as [area [EA HA]].
  { intros x y I. destruct (R x y I); tauto. }
  exists area. split; [exact EA|]. intros x y I. destruct (HA (x, y) I) as [A1 [A2 [A3 _]]]. cbn [fst snd] in *.
  assert (D : e x y <> nd -> isdata w h fd (-1) (x, y)).
  { intros Q. split; [exact I|]. cbn [fst snd]. destruct (R x y I) as [[K _]|[_ K]]; [contradiction|lra]. }
  split; [|split].
  - intros Q. apply A1. destruct (H x y I) as [K _]. exact (K Q).
  - intros Q K. apply A2; [apply D; exact Q|exact K|]. apply (C76_no_loops w h e nd order fd HP E).
  - intros Q. apply A3. apply D. exact Q.
Qed.
Print Assumptions C77_from_elevations.

(** on the plane that falls due east nothing is passed on and every cell inside has area 0 *)
Theorem C77_east_plane_refuted : forall w h nd order order' fd, Permutation order (scan w h) -> Permutation order' (scan w h) ->
  (forall x y, in_raster w h x y -> east x y <> nd) ->
  dinf_flow_directions w h east nd order = Ok fd ->
  exists area, dinf_upslope_area w h fd (-1) order' = Some (Ok area) /\
    forall x y, in_raster w h x y -> ~ on_edge w h x y -> area (x, y) = 0.
Proof.
  intros w h nd order order' fd HP HP' Nn E.
  destruct (C77_from_elevations w h east nd order order' fd HP HP' E) as [area [EA HA]]. exists area. split; [exact EA|].
  intros x y I N. destruct (HA x y I) as [_ [_ A3]]. apply A3; [apply Nn; exact I| |].
  - apply (C76_east_is_no_flow_refuted w h nd order fd HP E x y I N (Nn x y I)).
  - intros d s Hs. assert (Hs' := Hs). destruct Hs as [[Id Nd] [[Ic _] [NZ [k [Sh Ec]]]]].
    destruct d as [a b]. cbn [fst snd] in *.
    destruct (isEdgeCell w h a b) eqn:Ed.
    + apply (on_edge_iff w h a b Id) in Ed. destruct (C76_directions w h east nd order HP) as [f [F H]]. rewrite E in F. injection F as <-.
      destruct (H a b Id) as [_ [B _]]. destruct (B (Nn a b Id) Ed) as [k' [_ [K2 K3]]]. rewrite K2 in Sh. apply share_int in Sh.
      destruct Sh as [-> _]. rewrite <- Ec in K3. contradiction.
    + apply NZ. apply (C76_east_is_no_flow_refuted w h nd order fd HP E a b Id); [|apply Nn; exact Id].
      rewrite on_edge_iff by exact Id. congruence.
Qed.
Print Assumptions C77_east_plane_refuted.

(** two cells; the left one sends all of its area to the right one, which sends it off the raster *)
Example C77_not_vacuous :
  let fd : grid R := fun x _ => if (x =? 0)%Z then 2 * PI else PI / 2 in
  (forall x y, in_raster 2 1 x y -> fd x y = -1 \/ 0 <= fd x y <= 2 * PI) /\
  sends 2 1 fd (-1) (0, 0)%Z (1, 0)%Z 1 /\ fd 1%Z 0%Z <> 0.
Proof.
  assert (P := PI_RGT_0). cbv zeta. split; [intros x y _; right; destruct (x =? 0)%Z; lra|]. split; [|cbn; lra].
  split; [|split; [|split]]; try (unfold isdata, in_raster; cbn [fst snd]; cbn [Z.eqb]; split; [lia|lra]); try (cbn; lra).
  exists 8%Z. split; [|reflexivity]. cbn [fst snd Z.eqb]. exists 8%Z. left.
  replace (4 * (2 * PI) / PI) with 8 by (field; lra). split; [lra|auto].
Qed.
