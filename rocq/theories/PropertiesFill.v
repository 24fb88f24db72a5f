(** C31: DetermineWaterLevel and FillDepressions. *)
From Coq Require Import ZArith List Lia Bool Permutation QArith Qcanon Lqa.
From Verif Require Import Base Res QcTac RasterSpec RasterFacts FlowModel FlowSpec FlowProofs PropertiesFlow FlatsSpec FlatsProofs
  DHModel DHSpec PropertiesDH FSMModel FSMSpec FSMPits FSMPits2 FSMFill FSMFill2 FSMFill3.
Open Scope Z_scope.

(** the water under the level [lev] over cells of the given elevations, all of them below it *)
Definition stored (lev : Qc) (elevs : list Z) : Qc := qsum (map (fun e => (lev - zq e)%Qc) elevs).
Lemma stored_under lev elevs : under_level (length elevs) (zsum elevs) lev = stored lev elevs.
Proof.
  unfold stored, under_level, zsum, qsum. induction elevs as [|a l IH]; cbn [length map fold_right].
  - rewrite times_0, zq_0. ring.
  - rewrite <- IH, times_S, zq_add. ring.
Qed.

(** ** DetermineWaterLevel *)
(** The level is never above the sill; the water above the flooded cells and the water absorbed by the sill cell
    make up the given volume, up to the code's tolerance. *)
Theorem C31_water_level : forall sill_wtd vol sill elevs sill_wtd' level, (0 <= vol)%Qc ->
  DetermineWaterLevel sill_wtd vol sill (length elevs) (zsum elevs) = Ok (sill_wtd', level) ->
  (level <= zq sill)%Qc /\ (sill_wtd <= sill_wtd')%Qc /\ (sill_wtd' <= qmax 0 sill_wtd)%Qc /\
  within (times (S (length elevs)) tolerance) vol (stored level elevs + (sill_wtd' - sill_wtd))%Qc.
Proof.
  intros sw vol sill el sw' lev V E. destruct (dwl_spec _ _ _ _ _ _ _ V E) as [D1 [D2 [D3 D4]]]. rewrite <- stored_under.
  split; [exact D3|]. split; [exact D1|]. split; [destruct D2 as [D2| ->]; qlra|].
  destruct D4 as [[_ D4]|[D4 [D5 _]]]; [exact D4|]. rewrite D5, D4. pose proof (times_nonneg (S (length el)) tolerance ltac:(pose proof tol_pos; qlra)). unfold within. split; qlra.
Qed.
(** When the volume differs by more than the tolerance from the one under the sill, nothing is lost or gained; and
    then the sill absorbs water only when the level is the sill's. *)
Theorem C31_water_level_exact : forall sill_wtd vol sill elevs sill_wtd' level, (0 <= vol)%Qc ->
  DetermineWaterLevel sill_wtd vol sill (length elevs) (zsum elevs) = Ok (sill_wtd', level) ->
  (stored (zq sill) elevs + tolerance <= vol \/ level + tolerance <= zq sill)%Qc ->
  (stored level elevs + (sill_wtd' - sill_wtd) = vol)%Qc /\ (level = zq sill \/ sill_wtd' = sill_wtd).
Proof.
  intros sw vol sill el sw' lev V E H. destruct (dwl_spec _ _ _ _ _ _ _ V E) as [D1 [D2 [D3 D4]]]. rewrite <- stored_under in *. pose proof tol_pos as TP.
  destruct H as [H|H].
  - revert E. unfold DetermineWaterLevel. rewrite <- under_zq. set (cur := under_level (length el) (zsum el) (zq sill)) in *.
    destruct (qltP cur vol) as [GT|LE]; [|exfalso; qlra].
    destruct (fp_eqP vol cur) as [[X Y]|X]; [exfalso; qlra|].
    destruct (assert_ _); try discriminate. cbn [bind]. destruct (assert_ _); try discriminate. cbn [bind]. destruct (assert_ _); try discriminate. cbn [bind].
    intros K. injection K as <- <-. fold cur. split; [ring|auto].
  - destruct D4 as [[D4 _]|[-> [D4 _]]]; [rewrite D4 in H; exfalso; qlra|]. rewrite D4. split; [ring|auto].
Qed.
(** The call completes whenever some cells are flooded and the sill has room. *)
Theorem C31_water_level_completes : forall sill_wtd vol sill elevs, elevs <> [] -> (sill_wtd <= 0)%Qc ->
  (vol <= stored (zq sill) elevs - sill_wtd)%Qc ->
  exists sill_wtd' level, DetermineWaterLevel sill_wtd vol sill (length elevs) (zsum elevs) = Ok (sill_wtd', level).
Proof.
  intros sw vol sill el NE W V. rewrite <- stored_under in V. unfold DetermineWaterLevel. rewrite <- under_zq. set (cur := under_level (length el) (zsum el) (zq sill)) in *.
  pose proof tol_pos as TP. destruct (qltP cur vol) as [GT|LE].
  - set (v := if fp_eq vol cur then cur else vol).
    assert (H : (cur <= v /\ v <= cur - sw)%Qc) by (unfold v; destruct (fp_eq vol cur); split; qlra). destruct H as [H1 H2].
    destruct (fp_leP v (cur - sw)) as [|X]; [|exfalso; apply X; qlra]. cbn [assert_ bind].
    destruct (qleP 0 (v - cur)) as [|X]; [|exfalso; apply X; qlra]. cbn [assert_ bind].
    destruct (qleP (v - cur) (- sw)) as [|X]; [|exfalso; apply X; qlra]. cbn [assert_ bind]. eauto.
  - destruct (fp_eq vol cur); [eauto|]. destruct (Nat.eqb_spec (length el) 0) as [Z0|]; [destruct el; [congruence|discriminate Z0]|eauto].
Qed.
Definition show_level (r : res (Qc * Qc)) : option (Q * Q) := match r with Ok (a, b) => Some (this a, this b) | _ => None end.
(** five units over cells of elevations 1, 2, 2: the level is 10/3; with sill 2, they fill 1 unit and 4 are absorbed *)
Example C31_level_below : show_level (DetermineWaterLevel (zq (-4)) (zq 5) 7 3 (zsum [1; 2; 2])) = Some (-4 # 1, 10 # 3)%Q.
Proof. vm_compute. reflexivity. Qed.
Example C31_level_sill : show_level (DetermineWaterLevel (zq (-4)) (zq 5) 2 3 (zsum [1; 2; 2])) = Some (0 # 1, 2 # 1)%Q.
Proof. vm_compute. reflexivity. Qed.

(** ** FillDepressions *)
(** Whatever the depression, water tables and schedule: a call that completes conserves water up to the tolerance per
    flooded cell, and changes only cells of the depression and the outlet; water stands at one level over the flooded
    cells. *)
Theorem C31_fill_conserves : forall w h dem lab labels pit out tb fuel vol wtd wtd',
  in_dep w h lab labels pit -> inside w h out -> elev_at dem pit <= elev_at dem out ->
  FillDepressions w h dem lab labels pit out tb fuel vol wtd = Some (Ok wtd') ->
  wtd' = wtd /\ vol = 0%Qc \/
  exists A sill level, lake w h dem lab labels out A sill level wtd wtd' /\
    within (times (S (length A)) tolerance) (surface_total w h wtd + vol) (surface_total w h wtd').
Proof.
  intros w h dem lab labels pit out tb fuel vol wtd wtd' Hp Ho Hl. unfold FillDepressions. destruct (qeqP vol 0) as [Z0|NZ].
  - intros K. injection K as <-. auto.
  - rewrite (gat_in w h dem pit (proj1 Hp)). intros K. right.
    eapply (loop_partial w h dem lab labels pit out wtd vol Ho Hl); [|exact K]. apply start_inv; auto.
Qed.

(** On a basin whose water fits below the outlet and suffices to reach the level where it is one basin, with no water
    on its cells yet, the call completes, whichever of equally low cells the queue returns first, and the lake it
    leaves covers every cell of the depression below its level. *)
Theorem C31_fill_completes : forall w h dem lab labels pit out s R tb vol wtd,
  basin w h dem lab labels pit out s R ->
  (forall c, In c R \/ c = out -> (wtd c <= 0)%Qc) ->
  (0 <= vol)%Qc -> (vol <= zq (depth_sum dem (elev_at dem out) R))%Qc ->
  reaches_level dem out s R wtd vol -> measured out R wtd vol ->
  exists wtd' level, FillDepressions w h dem lab labels pit out tb (2 * Z.to_nat (w * h)) vol wtd = Some (Ok wtd') /\
    (zq s <= level)%Qc /\ (level <= zq (elev_at dem out))%Qc /\
    filled w h dem lab labels out level wtd wtd' /\
    within (times (S (length R)) tolerance) (surface_total w h wtd + vol) (surface_total w h wtd').
Proof.
  intros w h dem lab labels pit out s R tb vol wtd BA Dry V0 Room En Ex.
  destruct (fill_complete w h dem lab labels pit out wtd vol s R BA Dry V0 Room En Ex tb) as [wt [E [A [level [N [I [L1 [L2 [F W]]]]]]]]].
  exists wt, level. split; [exact E|]. split; [exact L1|]. split; [exact L2|]. split; [exact F|].
  pose proof (NoDup_incl_length N I) as LE. pose proof tol_pos as TP.
  assert (TT : (times (S (length A)) tolerance <= times (S (length R)) tolerance)%Qc).
  { unfold times. apply Qcmult_le_compat_r; [|qlra]. apply zq_le. lia. }
  destruct W. unfold within. split; qlra.
Qed.

(** *** A terrain of two pits *)
(** elevations 5 1 3 2 5; the cells 1 and 2 have label 1, cell 3 has label 2, and cell 4 is the outlet *)
Definition two_dem : grid Z := of_rows [[5; 1; 3; 2; 5]].
Definition two_lab : grid Z := of_rows [[0; 1; 1; 2; 0]].
Definition two_R : list cell := [(1, 0); (2, 0); (3, 0)].
Definition two_wtd (q1 q2 : Qc) : cell -> Qc := fun c => if ceqb c (1, 0) then q1 else if ceqb c (2, 0) then q2 else 0%Qc.
Lemma two_cell c : in_dep 5 1 two_lab [1; 2] c <-> In c two_R.
Proof.
  unfold in_dep, two_R. split.
  - intros [[H1 H2] H]. destruct c as [x y]. cbn [fst snd] in *. assert (y = 0) by lia. subst y.
    assert (X : In x (zrange 0 5)) by (apply zrange_In; lia). vm_compute in X.
    repeat (destruct X as [<-|X]); try destruct X; vm_compute in H; cbn; tauto || (exfalso; repeat (destruct H as [H|H]; try discriminate H); destruct H).
  - intros H. repeat (destruct H as [<-|H]); try destruct H; (split; [split; cbn; lia|vm_compute; tauto]).
Qed.
Lemma two_basin : basin 5 1 two_dem two_lab [1; 2] (1, 0) (4, 0) 3 two_R.
Proof.
  constructor.
  - split; [apply two_cell; left; reflexivity|]. vm_compute. discriminate.
  - split; [split; cbn; lia|]. vm_compute. discriminate.
  - split; [repeat constructor; cbn; intuition congruence|]. intros c. split.
    + intros H. split; [apply two_cell; auto|]. repeat (destruct H as [<-|H]); try destruct H; vm_compute; discriminate.
    + intros [H _]. apply two_cell. exact H.
  - intros z c Hz Hc Le. apply two_cell in Hc. change (elev_at two_dem (4, 0)) with 5 in Hz.
    assert (J1 : joined 5 1 two_dem two_lab [1; 2] z (1, 0) (1, 0)).
    { apply jn_here; [apply two_cell; left; reflexivity|]. change (elev_at two_dem (1, 0)) with 1. lia. }
    assert (J2 : joined 5 1 two_dem two_lab [1; 2] z (1, 0) (2, 0)).
    { eapply jn_step; [exact J1| |apply two_cell; right; left; reflexivity|change (elev_at two_dem (2, 0)) with 3; lia]. unfold neighbours, adjacent. cbn. repeat split; try lia; try congruence. }
    assert (J3 : joined 5 1 two_dem two_lab [1; 2] z (1, 0) (3, 0)).
    { eapply jn_step; [exact J2| |apply two_cell; right; right; left; reflexivity|change (elev_at two_dem (3, 0)) with 2; lia]. unfold neighbours, adjacent. cbn. repeat split; try lia; try congruence. }
    repeat (destruct Hc as [<-|Hc]); try destruct Hc; auto.
Qed.
Definition show_fill (r : option (res (cell -> Qc))) : option (list Q) :=
  match r with Some (Ok wt) => Some (map (fun c => this (wt c)) (cells 5 1)) | _ => None end.
Lemma two_dry q1 q2 : (q1 <= 0)%Qc -> (q2 <= 0)%Qc -> forall c, In c two_R \/ c = (4, 0) -> (two_wtd q1 q2 c <= 0)%Qc.
Proof. intros A B c _. unfold two_wtd. destruct (ceqb c (1, 0)); [auto|]. destruct (ceqb c (2, 0)); [auto|apply Qcle_refl]. Qed.
(** seven units, of which the lowest cell absorbs one: the level is 4 *)
Example C31_fill_hypotheses_met :
  basin 5 1 two_dem two_lab [1; 2] (1, 0) (4, 0) 3 two_R /\
  (forall c, In c two_R \/ c = (4, 0) -> (two_wtd (zq (-1)) 0 c <= 0)%Qc) /\
  (0 <= zq 7 /\ zq 7 <= zq (depth_sum two_dem (elev_at two_dem (4%Z, 0%Z)) two_R))%Qc /\
  reaches_level two_dem (4, 0) 3 two_R (two_wtd (zq (-1)) 0) (zq 7) /\
  measured (4, 0) two_R (two_wtd (zq (-1)) 0) (zq 7).
Proof.
  split; [apply two_basin|]. split; [apply two_dry; vm_compute; discriminate|]. split; [split; vm_compute; discriminate|].
  split; [right; split; [vm_compute; discriminate|left; reflexivity]|]. right. split; [apply millionths_zq|].
  intros c _. unfold two_wtd. destruct (ceqb c (1, 0)); [apply millionths_zq|]. rewrite <- zq_0. destruct (ceqb c (2, 0)); apply millionths_zq.
Qed.
Example C31_fill_example : show_fill (FillDepressions 5 1 two_dem two_lab [1; 2] (1, 0) (4, 0) (fun _ => 0%nat) 10 (zq 7) (two_wtd (zq (-1)) 0)) =
  Some [0; 3; 1; 2; 0]%Q.
Proof. vm_compute. reflexivity. Qed.
Example C31_fill_full : show_fill (FillDepressions 5 1 two_dem two_lab [1; 2] (1, 0) (4, 0) (fun _ => 0%nat) 10 (zq 9) (two_wtd 0 0)) =
  Some [0; 4; 2; 3; 0]%Q.
Proof. vm_compute. reflexivity. Qed.

(** The condition that the water reaches the level where the basins join cannot be dropped. Water that fills both pits
    makes the code spread it over the whole metadepression, but when the ground of the saddle is unsaturated it absorbs
    so much that the level comes out below the saddle, and an assertion fails. (With assertions disabled the code puts
    11/6 + 5/6 units above ground where only 5/2 are left.) *)
Theorem C31_saddle_deficit_refuted :
  ~ (forall w h dem lab labels pit out s R tb vol wtd,
      basin w h dem lab labels pit out s R -> (forall c, In c R \/ c = out -> (wtd c <= 0)%Qc) ->
      (zq (volume_under dem s R) <= vol)%Qc -> (vol <= zq (depth_sum dem (elev_at dem out) R))%Qc -> measured out R wtd vol ->
      exists fuel wtd', FillDepressions w h dem lab labels pit out tb fuel vol wtd = Some (Ok wtd')).
Proof.
  intros H.
  destruct (H 5 1 two_dem two_lab [1; 2] (1, 0) (4, 0) 3 two_R (fun _ => 0%nat) (Q2Qc (7 # 2)) (two_wtd 0 (zq (-1)))) as [fuel [wt E]].
  - apply two_basin.
  - apply two_dry; vm_compute; discriminate.
  - vm_compute. discriminate.
  - vm_compute. discriminate.
  - right. split; [exists 3500000; apply Qc_is_canon; vm_compute; reflexivity|].
    intros c _. unfold two_wtd. rewrite <- zq_0. destruct (ceqb c (1, 0)); [apply millionths_zq|]. destruct (ceqb c (2, 0)); apply millionths_zq.
  - do 6 (destruct fuel as [|fuel]; [vm_compute in E; discriminate E|]). vm_compute in E. discriminate E.
Qed.

(** Nor can the measurement condition: the code accepts water exceeding the room by less than its tolerance, and
    then asserts that it does not exceed it. *)
Theorem C31_tolerance_refuted :
  ~ (forall w h dem lab labels pit out s R tb vol wtd,
      basin w h dem lab labels pit out s R -> (forall c, In c R \/ c = out -> (wtd c <= 0)%Qc) ->
      (0 <= vol)%Qc -> (vol <= zq (depth_sum dem (elev_at dem out) R))%Qc -> reaches_level dem out s R wtd vol ->
      exists fuel wtd', FillDepressions w h dem lab labels pit out tb fuel vol wtd = Some (Ok wtd')).
Proof.
  intros H.
  set (dem := of_rows [[5; 1; 5]]). set (lab := of_rows [[0; 1; 0]]).
  set (wtd := fun c : cell => if ceqb c (1, 0) then Q2Qc (-3 # 10) else 0%Qc).
  assert (DC : forall c, in_dep 3 1 lab [1] c <-> c = (1, 0)).
  { intros c. split; [|intros ->; split; [split; cbn; lia|vm_compute; tauto]]. intros [[H1 H2] H3]. destruct c as [x y]. cbn [fst snd] in *. assert (y = 0) by lia. subst y.
    assert (X : In x (zrange 0 3)) by (apply zrange_In; lia). vm_compute in X.
    repeat (destruct X as [<-|X]); try destruct X; vm_compute in H3; auto; destruct H3 as [H3|[]]; discriminate H3. }
  destruct (H 3 1 dem lab [1] (1, 0) (2, 0) 1 [(1, 0)] (fun _ => 0%nat) (Q2Qc (3000001 # 10000000)) wtd) as [fuel [wt E]].
  - constructor.
    + split; [apply DC; reflexivity|vm_compute; discriminate].
    + split; [split; cbn; lia|vm_compute; discriminate].
    + split; [repeat constructor; intros []|]. intros c. split; [intros [<-|[]]; split; [apply DC; reflexivity|vm_compute; discriminate]|intros [X _]; left; symmetry; apply DC; auto].
    + intros z c Hz Hc _. apply DC in Hc. subst c. apply jn_here; [apply DC; reflexivity|]. change (elev_at dem (1, 0)) with 1. lia.
  - intros c _. unfold wtd. destruct (ceqb c (1, 0)); vm_compute; discriminate.
  - vm_compute. discriminate.
  - vm_compute. discriminate.
  - left. intros c [<-|[]]. vm_compute. discriminate.
  - do 2 (destruct fuel as [|fuel]; [vm_compute in E; discriminate E|]). vm_compute in E. discriminate E.
Qed.

Print Assumptions C31_water_level.
Print Assumptions C31_water_level_exact.
Print Assumptions C31_water_level_completes.
Print Assumptions C31_fill_conserves.
Print Assumptions C31_fill_completes.
Print Assumptions C31_saddle_deficit_refuted.
Print Assumptions C31_tolerance_refuted.
