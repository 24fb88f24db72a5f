(** C59-C63: bucket fill, the fill-spill-merge program, perimeters, conversion of direction codes, surface area. *)
From Coq Require Import ZArith List Lia Bool Permutation QArith QArith.Qcanon.
From Verif Require Import Base Res RasterSpec RasterFacts FlatsSpec FlowModel FlowSpec DHModel DHSpec FSMModel FSMSpec PropertiesFSM PropertiesDH QcTac DHAll MiscSpec MiscModel MiscProofs PropertiesPF.
Import ListNotations.
Open Scope Z_scope.

(** C59. BucketFill terminates and paints exactly the cells that the paint reaches from the seeds; all other cells keep
    their values. *)
Theorem C59_bucket_fill : forall t w h chk cv sv set seeds, 0 < w ->
  (forall i, In i seeds -> exists p, inside w h p /\ numbered_cell w i p) ->
  exists n, forall fuel, (n <= fuel)%nat -> exists set', BucketFill t w h chk cv sv fuel seeds set = Some (Ok set') /\
    let reached := painted t w h chk cv sv set (fun p => exists i, In i seeds /\ numbered_cell w i p) in
    (forall p, reached p -> elev_at set' p = sv) /\ (forall p, ~ reached p -> elev_at set' p = elev_at set p).
Proof.
  intros t w h chk cv sv set seeds Hw HS. destruct (fill_ok t w h chk cv sv set seeds Hw) as [n F].
  { intros i Ii. destruct (HS i Ii) as [p [Ip [-> _]]]. destruct p. apply idx_range. exact Ip. }
  exists n. intros fuel Hf. destruct (F fuel Hf) as [set' [E [A B]]]. exists set'. split; [exact E|]. split; [exact A|]. intros p N. destruct (B p) as [X|X]; [contradiction|exact X].
Qed.
Print Assumptions C59_bucket_fill.
(** A seed outside the raster: memory that is not the raster's is accessed. *)
Theorem C59_bad_seed : forall t w h chk cv sv set seeds, 0 < w -> 0 <= h ->
  (exists i, In i seeds /\ forall p, inside w h p -> ~ numbered_cell w i p) -> forall fuel set',
  BucketFill t w h chk cv sv fuel seeds set <> Some (Ok set') /\ BucketFill t w h chk cv sv fuel seeds set <> Some Thrown.
Proof.
  intros t w h chk cv sv set seeds Hw Hh [i [Ii B]] fuel set'. destruct (fill_bad t w h chk cv sv seeds Hh) with (fuel := fuel) (set := set) as [X Y]; [|split; auto].
  exists i. split; [exact Ii|]. intros R. apply (B (at_ w i) (at_inside w h i Hw R)). split; [symmetry; apply idx_at; exact Hw|apply (at_inside w h i Hw R)].
Qed.
Print Assumptions C59_bad_seed.
(** From the edges *)
Theorem C59_from_edges : forall t w h chk cv sv set, 0 < w -> 0 < h ->
  exists n, forall fuel, (n <= fuel)%nat -> exists set', BucketFillFromEdges t w h chk cv sv fuel set = Some (Ok set') /\
    let reached := painted t w h chk cv sv set (fun p => on_edge w h (fst p) (snd p)) in
    (forall p, reached p -> elev_at set' p = sv) /\ (forall p, ~ reached p -> elev_at set' p = elev_at set p).
Proof.
  intros t w h chk cv sv set Hw Hh. destruct (from_edges_ok t w h chk cv sv set Hw Hh) as [n F].
  exists n. intros fuel Hf. destruct (F fuel Hf) as [set' [E [A B]]]. exists set'. split; [exact E|]. split; [exact A|]. intros p N. destruct (B p) as [X|X]; [contradiction|exact X].
Qed.
Print Assumptions C59_from_edges.
(** tests/tests.cpp:377-437 *)
Definition chk8 : list (list Z) :=
  [[1;2;1;1;1]; [1;2;2;1;1]; [1;1;1;2;1]; [1;1;1;2;1]; [1;1;1;1;1]].
Example C59_run : option_map (fun r => match r with Ok g => Some (to_rows 5 5 g) | _ => None end)
    (BucketFill D8 5 5 (of_rows chk8) 2 4 100 [13] (fun _ _ => 0)) =
  Some (Some [[0;4;0;0;0]; [0;4;4;0;0]; [0;0;0;4;0]; [0;0;0;4;0]; [0;0;0;0;0]]).
Proof. vm_compute. reflexivity. Qed.
Example C59_run_D4 : option_map (fun r => match r with Ok g => Some (to_rows 5 5 g) | _ => None end)
    (BucketFillFromEdges D4 5 5 (of_rows chk8) 2 4 100 (fun _ _ => 0)) =
  Some (Some [[0;4;0;0;0]; [0;4;4;0;0]; [0;0;0;0;0]; [0;0;0;0;0]; [0;0;0;0;0]]).
Proof. vm_compute. reflexivity. Qed.

(** ** C61 *)
(** C61. SQUARE_EDGE adds the lengths of all sides of data cells at which the data ends. [parts]: the rows of each thread. *)
Theorem C61_square_edge : forall w h arr nd lx ly parts nh nv, 0 <= w -> 0 <= h -> w * h < 2 ^ 31 -> Permutation (concat parts) (zrange 0 (Z.to_nat h)) ->
  there_are nh (horizontal_side w h arr nd) -> there_are nv (vertical_side w h arr nd) ->
  Perimeter true w h arr nd lx ly parts = (Q2Qc (inject_Z nh) * lx + Q2Qc (inject_Z nv) * ly)%Qc.
Proof.
  intros w h arr nd lx ly parts nh nv Hw Hh Hs HP A B. rewrite perimeter_eq by auto.
  rewrite (there_are_unique _ _ _ A (h_spec w h arr nd)), (there_are_unique _ _ _ B (v_spec w h arr nd)). reflexivity.
Qed.
Print Assumptions C61_square_edge.
(** The numbers exist. *)
Example C61_numbers w h arr nd : (exists n, there_are n (horizontal_side w h arr nd)) /\ exists n, there_are n (vertical_side w h arr nd).
Proof. split; eexists; [apply h_spec|apply v_spec]. Qed.
(** CELL_COUNT gives the number of data cells on the edge of the raster ... *)
Theorem C61_cell_count : forall w h arr nd lx ly parts n, 0 <= w -> 0 <= h -> w * h < 2 ^ 31 -> Permutation (concat parts) (zrange 0 (Z.to_nat h)) ->
  there_are n (fun p => MiscSpec.data w h arr nd p /\ on_edge w h (fst p) (snd p)) ->
  Perimeter false w h arr nd lx ly parts = Q2Qc (inject_Z n).
Proof.
  intros w h arr nd lx ly parts n Hw Hh Hs HP A. rewrite perimeter_eq by auto. rewrite (there_are_unique _ _ _ A (c_spec w h arr nd)). reflexivity.
Qed.
Print Assumptions C61_cell_count.
(** ... and not, as documented, of the data cells that border the edge of the raster or NoData. *)
Theorem C61_cell_count_refuted : ~ (forall w h arr nd lx ly parts n, 0 <= w -> 0 <= h -> w * h < 2 ^ 31 -> Permutation (concat parts) (zrange 0 (Z.to_nat h)) ->
  there_are n (fun p => MiscSpec.data w h arr nd p /\ (on_edge w h (fst p) (snd p) \/ exists q, inside w h q /\ touching p q /\ elev_at arr q = nd)) ->
  Perimeter false w h arr nd lx ly parts = Q2Qc (inject_Z n)).
Proof.
  intros C. specialize (C 5 5 (fun x y => if (x =? 2) && (y =? 2) then -1 else x) (-1) 1%Qc 1%Qc [[0;1;2;3;4]] 24).
  assert (X : Perimeter false 5 5 (fun x y => if (x =? 2) && (y =? 2) then -1 else x) (-1) 1%Qc 1%Qc [[0;1;2;3;4]] = Q2Qc (inject_Z 24)).
  { apply C; [lia|lia|lia|apply Permutation_refl|]. exists (filter (fun p => negb ((fst p =? 2) && (snd p =? 2))) (cells 5 5)).
    split; [apply NoDup_filter, cells_NoDup|]. split; [|reflexivity]. intros [x y]. rewrite filter_In, cells_In. unfold MiscSpec.data, inside, elev_at. cbn [fst snd]. unfold in_raster at 1. rewrite negb_true_iff. split.
    - intros [R N]. rewrite N. split; [split; [lia|lia]|].
      destruct (Z.eq_dec x 0); [left; unfold on_edge, in_raster; lia|]. destruct (Z.eq_dec y 0); [left; unfold on_edge, in_raster; lia|]. destruct (Z.eq_dec x 4); [left; unfold on_edge, in_raster; lia|]. destruct (Z.eq_dec y 4); [left; unfold on_edge, in_raster; lia|].
      right. exists (2, 2). split; [split; cbn; lia|]. split; [|reflexivity]. unfold touching, adjacent. cbn [fst snd]. split; [intros [= -> ->]; discriminate N|lia].
    - intros [[R N] _]. split; [lia|]. destruct ((x =? 2) && (y =? 2)); [congruence|reflexivity]. }
  vm_compute in X. discriminate X.
Qed.
Print Assumptions C61_cell_count_refuted.
Example C61_run : Perimeter true 3 2 (of_rows [[1;0;1];[1;1;1]]) 0 (Q2Qc 2) (Q2Qc 10) [[1];[0]] = Q2Qc 72.
Proof. vm_compute. reflexivity. Qed.

(** ** C62 *)
Lemma scan_order_In w h p : In p (scan_order w h) <-> inside w h p.
Proof.
  unfold scan_order, inside, in_raster. destruct p as [x y]. rewrite in_flat_map. cbn [fst snd]. split.
  - intros [y' [Iy X]]. apply in_map_iff in X. destruct X as [x' [[= <- <-] Ix]]. apply zrange_In in Iy, Ix. lia.
  - intros [Hx Hy]. exists y. split; [apply zrange_In; lia|]. apply in_map_iff. exists x. split; [reflexivity|apply zrange_In; lia].
Qed.
(** what each cell becomes, when every cell is changed on its own *)
Lemma forM_cells (f : Z -> res Z) (src : grid Z -> Z * Z -> Z) : (forall g p q v, p <> q -> src (gset g (fst q) (snd q) v) p = src g p) ->
  forall l, NoDup l -> forall g, (forall p, In p l -> exists v, f (src g p) = Ok v) ->
  exists g', forM l (fun c g => do v <- f (src g c); Ok (gset g (fst c) (snd c) v)) g = Ok g' /\
    (forall p, In p l -> f (src g p) = Ok (g' (fst p) (snd p))) /\ (forall p : Z * Z, ~ In p l -> g' (fst p) (snd p) = g (fst p) (snd p)).
Proof.
  intros HS. induction l as [|c l IH]; intros N g F; cbn [forM]; [exists g; split; [reflexivity|split; [intros p []|auto]]|].
  inversion N as [|? ? N1 N2]. destruct (F c (or_introl eq_refl)) as [v Ev]. rewrite Ev. cbn [bind].
  destruct (IH N2 (gset g (fst c) (snd c) v)) as [g' [E [A B]]].
  { intros p Ip. rewrite HS by (intros ->; contradiction). apply F. right. exact Ip. }
  exists g'. split; [exact E|]. split.
  - intros p [<-|Ip]; [rewrite (B c N1), gset_same; exact Ev|]. rewrite <- (A p Ip). rewrite HS; [reflexivity|]. intros ->. contradiction.
  - intros p Np. rewrite B by (intros X; apply Np; right; exact X). apply gset_other. intros X. apply Np. left. destruct c, p. cbn [fst snd] in X. congruence.
Qed.
Lemma forM_thrown (f : Z -> res Z) (src : grid Z -> Z * Z -> Z) : (forall g p q v, p <> q -> src (gset g (fst q) (snd q) v) p = src g p) -> (forall v, f v <> Undef) ->
  forall l, NoDup l -> forall g, (exists p, In p l /\ f (src g p) = Thrown) -> forM l (fun c g => do v <- f (src g c); Ok (gset g (fst c) (snd c) v)) g = Thrown.
Proof.
  intros HS HU. induction l as [|c l IH]; intros N g [p [Ip T]]; [destruct Ip|]. cbn [forM]. inversion N as [|? ? N1 N2].
  destruct (f (src g c)) as [v| |] eqn:E; cbn [bind]; [|reflexivity|destruct (HU _ E)]. destruct Ip as [<-|Ip]; [congruence|]. apply IH; [exact N2|]. exists p. split; [exact Ip|]. rewrite HS; [exact T|]. intros ->. contradiction.
Qed.
Lemma scan_NoDup w h : NoDup (scan_order w h).
Proof.
  unfold scan_order. assert (G : forall l : list Z, NoDup l -> NoDup (flat_map (fun y : Z => map (fun x : Z => (x, y)) (zrange 0 (Z.to_nat w))) l)).
  { induction l as [|y l IH]; intros N; cbn [flat_map]; [constructor|]. inversion N as [|? ? N1 N2]. apply NoDup_app_disj; [|apply IH; exact N2|].
    - apply FinFun.Injective_map_NoDup; [intros a b [= X]; exact X|apply zrange_NoDup].
    - intros p Hp Hq. apply in_map_iff in Hp. destruct Hp as [x0 [<- _]]. apply in_flat_map in Hq. destruct Hq as [y' [Iy X]]. apply in_map_iff in X. destruct X as [x' [[= _ ->] _]]. contradiction. }
  apply G, zrange_NoDup.
Qed.
Definition arc_valid (a : Z) : Prop := a = 0 \/ exists x y x' y', arc_toward a x y x' y'.
Lemma arc_codes a : (arc_valid a -> exists v, arc_code a = Ok v /\ (a = 0 <-> v = 0) /\ forall x y x' y', arc_toward a x y x' y' <-> toward v x y x' y') /\ (~ arc_valid a -> arc_code a = Thrown).
Proof.
  split.
  - intros [->|[x [y [x' [y' H]]]]].
    + exists 0. split; [reflexivity|]. split; [tauto|]. intros; split; intros X; inversion X.
    + destruct H; eexists; (split; [reflexivity|]); (split; [split; discriminate|]); intros; split; intros X; inversion X; subst; constructor.
  - intros N. unfold arc_code. repeat match goal with |- (match ?a with _ => _ end) = _ => destruct a end; try reflexivity; exfalso; apply N; try (left; reflexivity); right; exists 0, 0; do 2 eexists; constructor.
Qed.
Lemma arc_dec a : arc_valid a \/ ~ arc_valid a.
Proof.
  assert (D : In a [0;1;2;4;8;16;32;64;128] \/ ~ In a [0;1;2;4;8;16;32;64;128]) by (destruct (in_dec Z.eq_dec a [0;1;2;4;8;16;32;64;128]); auto).
  destruct D as [D|D]; [left|right].
  - cbn [In] in D. destruct D as [<-|[<-|[<-|[<-|[<-|[<-|[<-|[<-|[<-|[]]]]]]]]]]; [left; reflexivity|..]; right; exists 0, 0; do 2 eexists; constructor.
  - intros [->|[x [y [x' [y' H]]]]]; apply D; [cbn; tauto|]. destruct H; cbn; tauto.
Qed.
(** C62. ArcGIS flow directions are converted to RichDEM's codes of the same directions; a raster with any other code is refused. *)
Theorem C62_arc : forall w h arc rd0,
  ((forall p, inside w h p -> arc_valid (elev_at arc p)) -> exists g, convert_arc w h arc rd0 = Ok g /\
     forall p, inside w h p -> (elev_at arc p = 0 <-> elev_at g p = 0) /\
       forall q, arc_toward (elev_at arc p) (fst p) (snd p) (fst q) (snd q) <-> toward (elev_at g p) (fst p) (snd p) (fst q) (snd q)) /\
  ((exists p, inside w h p /\ ~ arc_valid (elev_at arc p)) -> convert_arc w h arc rd0 = Thrown).
Proof.
  intros w h arc rd0. unfold convert_arc.
  assert (HS : forall (g : grid Z) (p q : Z * Z) v, p <> q -> (fun (_ : grid Z) (c : Z * Z) => arc (fst c) (snd c)) (gset g (fst q) (snd q) v) p = (fun (_ : grid Z) (c : Z * Z) => arc (fst c) (snd c)) g p) by reflexivity.
  split.
  - intros V. destruct (forM_cells arc_code _ HS (scan_order w h) (scan_NoDup w h) rd0) as [g [E [A _]]].
    { intros p Ip. apply scan_order_In in Ip. destruct (proj1 (arc_codes (elev_at arc p)) (V p Ip)) as [v [X _]]. exists v. exact X. }
    exists g. split; [exact E|]. intros p Ip. pose proof (A p (proj2 (scan_order_In w h p) Ip)) as X. cbn beta in X. destruct (proj1 (arc_codes (elev_at arc p)) (V p Ip)) as [v [Y [B1 B2]]].
    unfold elev_at in *. rewrite Y in X. injection X as ->. split; [exact B1|]. intros q. apply B2.
  - intros [p [Ip NV]]. apply (forM_thrown arc_code _ HS); [|apply scan_NoDup|].
    + intros v. destruct (arc_dec v) as [D|D]; [destruct (proj1 (arc_codes v) D) as [u [X _]]|pose proof (proj2 (arc_codes v) D) as X]; rewrite X; discriminate.
    + exists p. split; [apply scan_order_In; exact Ip|]. apply arc_codes. exact NV.
Qed.
Print Assumptions C62_arc.
(** In particular a raster with NoData cells is refused. *)
Theorem C62_arc_nodata_refuted : ~ (forall w h arc rd0 nd, (forall p, inside w h p -> arc_valid (elev_at arc p) \/ elev_at arc p = nd) -> exists g, convert_arc w h arc rd0 = Ok g).
Proof.
  intros C. destruct (C 2 1 (fun x y => if x =? 0 then 1 else 255) (fun _ _ => 0) 255) as [g E]; [|vm_compute in E; discriminate E].
  intros [x y] _. unfold elev_at. cbn [fst snd]. destruct (x =? 0); [left; right; exists 0, 0; do 2 eexists; constructor|right; reflexivity].
Qed.
Print Assumptions C62_arc_nodata_refuted.
Example C62_arc_run : match convert_arc 3 3 (of_rows [[2;4;8];[1;0;16];[128;64;32]]) (fun _ _ => 9) with Ok g => to_rows 3 3 g = [[6;7;8];[5;0;1];[4;3;2]] | _ => False end.
Proof. vm_compute. reflexivity. Qed.

Definition taudem_valid (a : Z) : Prop := a = 0 \/ exists x y x' y', taudem_toward a x y x' y'.
Lemma taudem_valid_iff a : taudem_valid a <-> 0 <= a <= 8.
Proof.
  split; [intros [->|[x [y [x' [y' H]]]]]; [lia|destruct H; lia]|]. intros H.
  assert (a = 0 \/ a = 1 \/ a = 2 \/ a = 3 \/ a = 4 \/ a = 5 \/ a = 6 \/ a = 7 \/ a = 8) as D by lia.
  destruct D as [->|[->|[->|[->|[->|[->|[->|[->| ->]]]]]]]]; [left; reflexivity|..]; right; exists 0, 0; do 2 eexists; constructor.
Qed.
Lemma taudem_codes a : taudem_valid a -> exists v, rd taudem_table a = Ok v /\ (a = 0 <-> v = 0) /\ forall x y x' y', taudem_toward a x y x' y' <-> toward v x y x' y'.
Proof.
  intros [->|[x [y [x' [y' H]]]]].
  - exists 0. split; [reflexivity|]. split; [tauto|]. intros; split; intros X; inversion X.
  - destruct H; eexists; (split; [reflexivity|]); (split; [split; discriminate|]); intros; split; intros X; inversion X; subst; constructor.
Qed.
Definition same_result (a b : res (grid Z)) : Prop := match a, b with | Ok a, Ok b => forall x y, a x y = b x y | Thrown, Thrown => True | Undef, Undef => True | _, _ => False end.
(** TauDEM directions likewise; NoData cells stay. *)
Theorem C62_taudem : forall w h nd inp,
  ((forall p, inside w h p -> elev_at inp p = nd \/ taudem_valid (elev_at inp p)) -> exists g, convert_taudem w h nd inp = Ok g /\
     forall p, inside w h p -> (elev_at inp p = nd -> elev_at g p = nd) /\ (elev_at inp p <> nd -> (elev_at inp p = 0 <-> elev_at g p = 0) /\
       forall q, taudem_toward (elev_at inp p) (fst p) (snd p) (fst q) (snd q) <-> toward (elev_at g p) (fst p) (snd p) (fst q) (snd q))) /\
  ((exists p, inside w h p /\ elev_at inp p <> nd /\ ~ taudem_valid (elev_at inp p)) -> convert_taudem w h nd inp = Thrown).
Proof.
  intros w h nd inp. set (f := fun v => if v =? nd then Ok v else if (0 <=? v) && (v <=? 8) then rd taudem_table v else Thrown).
  assert (FV : forall v, v = nd \/ taudem_valid v -> exists u, f v = Ok u /\ (v = nd -> u = nd) /\ (v <> nd -> (v = 0 <-> u = 0) /\ forall x y x' y', taudem_toward v x y x' y' <-> toward u x y x' y')).
  { intros v V. unfold f. destruct (Z.eqb_spec v nd) as [E|E]; [exists v; split; [reflexivity|]; split; [auto|contradiction]|]. destruct V as [V|V]; [contradiction|].
    destruct (taudem_codes v V) as [u [X Y]]. apply taudem_valid_iff in V. rewrite (proj2 (Z.leb_le 0 v)), (proj2 (Z.leb_le v 8)) by lia. cbn [andb]. exists u. split; [exact X|]. split; [contradiction|auto]. }
  assert (FT : forall v, v <> nd -> ~ taudem_valid v -> f v = Thrown).
  { intros v N V. unfold f. rewrite (proj2 (Z.eqb_neq _ _) N). destruct ((0 <=? v) && (v <=? 8)) eqn:B; [|reflexivity]. exfalso. apply V, taudem_valid_iff. apply andb_true_iff in B. destruct B as [B1 B2]. apply Z.leb_le in B1, B2. lia. }
  assert (HS : forall (g : grid Z) (p q : Z * Z) v, p <> q -> (fun (g : grid Z) (c : Z * Z) => g (fst c) (snd c)) (gset g (fst q) (snd q) v) p = (fun (g : grid Z) (c : Z * Z) => g (fst c) (snd c)) g p).
  { intros g p q v N. cbn beta. apply gset_other. destruct p, q. exact N. }
  (* keeping a NoData cell is writing its own value *)
  assert (EQ : forall l (g g2 : grid Z), (forall x y, g x y = g2 x y) ->
    same_result (forM l (fun c g => let v := g (fst c) (snd c) in if v =? nd then Ok g else if (0 <=? v) && (v <=? 8) then do r <- rd taudem_table v; Ok (gset g (fst c) (snd c) r) else Thrown) g)
          (forM l (fun c g => do v <- f (g (fst c) (snd c)); Ok (gset g (fst c) (snd c) v)) g2)).
  { induction l as [|c l IH]; intros g g2 G; cbn [forM]; [exact G|]. cbv zeta in IH |- *. rewrite G. unfold f at 1. destruct (Z.eqb_spec (g2 (fst c) (snd c)) nd) as [E|E].
    - cbn [bind]. apply IH. intros x y. destruct (gset_cases g2 (fst c) (snd c) (g2 (fst c) (snd c)) x y) as [[E1 E2]|[E1 E2]]; rewrite E2; [injection E1 as -> ->|]; apply G.
    - destruct ((0 <=? g2 (fst c) (snd c)) && (g2 (fst c) (snd c) <=? 8)); [|exact I]. destruct (rd taudem_table (g2 (fst c) (snd c))) as [v| |]; cbn [bind]; [|exact I|exact I]. apply IH. intros x y. unfold gset. destruct (_ && _); auto. }
  specialize (EQ (scan_order w h) inp inp (fun _ _ => eq_refl)). unfold convert_taudem. split.
  - intros V. destruct (forM_cells f _ HS (scan_order w h) (scan_NoDup w h) inp) as [g [E [A _]]].
    { intros p Ip. apply scan_order_In in Ip. destruct (FV (elev_at inp p) (V p Ip)) as [u [X _]]. exists u. exact X. }
    cbn beta in E. match type of EQ with same_result _ ?b => replace b with (Ok g) in EQ by (symmetry; exact E) end. match type of EQ with same_result ?a _ => destruct a as [g'| |]; cbn [same_result] in EQ; try contradiction end. exists g'. split; [reflexivity|]. intros p Ip.
    pose proof (A p (proj2 (scan_order_In w h p) Ip)) as X. cbn beta in X. destruct (FV (elev_at inp p) (V p Ip)) as [u [Y [B1 B2]]]. unfold elev_at in *. rewrite Y in X. injection X as ->. rewrite !EQ. split; [exact B1|].
    intros N. destruct (B2 N) as [B3 B4]. split; [exact B3|]. intros q. apply B4.
  - intros [p [Ip [N NV]]]. assert (T : forM (scan_order w h) (fun c g => do v <- f (g (fst c) (snd c)); Ok (gset g (fst c) (snd c) v)) inp = Thrown).
    { apply (forM_thrown f _ HS); [|apply scan_NoDup|].
      - intros v. destruct (Z.eq_dec v nd) as [->|M]; [destruct (FV nd (or_introl eq_refl)) as [u [X _]]; rewrite X; discriminate|].
        assert (D : taudem_valid v \/ ~ taudem_valid v) by (rewrite taudem_valid_iff; lia). destruct D as [D|D]; [destruct (FV v (or_intror D)) as [u [X _]]; rewrite X; discriminate|rewrite (FT v M D); discriminate].
      - exists p. split; [apply scan_order_In; exact Ip|]. apply FT; assumption. }
    match type of EQ with same_result _ ?b => replace b with (@Thrown (grid Z)) in EQ by (symmetry; exact T) end. match type of EQ with same_result ?a _ => destruct a; cbn [same_result] in EQ; [contradiction|reflexivity|contradiction] end.
Qed.
Print Assumptions C62_taudem.
Example C62_taudem_run : match convert_taudem 3 3 (-1) (of_rows [[8;7;6];[1;-1;5];[2;3;0]]) with Ok g => to_rows 3 3 g = [[6;7;8];[5;-1;1];[4;3;0]] | _ => False end.
Proof. vm_compute. reflexivity. Qed.

(** ** C60 *)
Section Program.
  Variables (w h : Z) (topo : grid Z) (nd level : Z).
  Notation isea := (sea w h topo nd level).
  Lemma painted_sea p : painted D8 w h topo level OCEAN label0 (fun p => on_edge w h (fst p) (snd p)) p <-> open_sea w h topo level p.
  Proof.
    assert (PB : forall q, inside w h q -> elev_at topo q = level -> paintable w h topo level OCEAN label0 q).
    { intros q I1 I2. split; [exact I1|]. split; [exact I2|]. unfold elev_at, label0, NO_DEP, OCEAN. discriminate. }
    split.
    - induction 1 as [p S [P1 [P2 P3]]|p q Hp IH Ad [P1 [P2 P3]]]; [apply open_edge; auto|apply open_next with p; auto].
    - induction 1 as [p S E|p q Hp IH Ad I1 E]; [apply painted_seed; [exact S|apply PB; [apply S|exact E]]|apply painted_next with p; auto].
  Qed.
  (** the label the program gives, from the result [lab] of the bucket fill *)
  Definition prog_lab0 (lab : grid Z) : grid Z := fun x y => if (topo x y =? nd) || (lab x y =? OCEAN) then OCEAN else lab x y.
  Lemma prog_labels lab :
    (forall p, open_sea w h topo level p -> elev_at lab p = OCEAN) -> (forall p, open_sea w h topo level p \/ elev_at lab p = NO_DEP) ->
    (forall p, inside w h p -> (elev_at (prog_lab0 lab) p = 0 <-> isea p)) /\ valid_labels w h (prog_lab0 lab) /\
    (forall p, inside w h p -> ((elev_at topo p =? nd) || (elev_at lab p =? OCEAN)) = true <-> isea p).
  Proof.
    intros A B. assert (V : forall p, elev_at (prog_lab0 lab) p = if (elev_at topo p =? nd) || (elev_at lab p =? OCEAN) then OCEAN else elev_at lab p) by reflexivity.
    assert (L : forall p, elev_at lab p = OCEAN <-> open_sea w h topo level p).
    { intros p. split; [|apply A]. intros E. destruct (B p) as [X|X]; [exact X|]. rewrite X in E. discriminate E. }
    assert (S : forall p, inside w h p -> ((elev_at topo p =? nd) || (elev_at lab p =? OCEAN)) = true <-> isea p).
    { intros p Ip. rewrite orb_true_iff, !Z.eqb_eq, L. unfold sea. tauto. }
    assert (O : forall p, inside w h p -> elev_at (prog_lab0 lab) p = 0 \/ elev_at (prog_lab0 lab) p = 2 ^ 32 - 1).
    { intros p _. rewrite V. destruct (_ || _); [left; reflexivity|]. destruct (B p) as [X|X]; [left; apply A, X|right; exact X]. }
    split; [|split; [exact O|exact S]]. intros p Ip. rewrite <- (S p Ip), V. destruct (_ || _) eqn:E; [split; reflexivity|]. apply orb_false_iff in E. destruct E as [_ E]. apply Z.eqb_neq in E. unfold OCEAN in *. split; [intros X; contradiction|discriminate].
  Qed.
End Program.

(** nothing flows into a corner that is higher than its neighbours *)
Lemma high_corner_unfed w h dem lab0 tb sorted parts lab fd deps : valid_labels w h lab0 -> has_coast D8 w h lab0 -> w * h < 2 ^ 31 ->
  (forall db, sorting_of db (sorted db)) -> each_cell_once w h parts -> high_corner w h dem ->
  GetDepressionHierarchy D8 w h dem tb sorted parts lab0 (fun _ _ => 0) = Some (Ok (lab, fd, deps)) -> ~ corner_fed fd w h.
Proof.
  intros V1 V2 V3 V4 V5 HC E [p [Ip [Ic T]]].
  destruct (gdh_ok D8 w h dem lab0 (fun _ _ => 0) tb sorted parts V1 V3 V2 V4 V5) as [lab' [fd' [deps' [pits [E' [WS _]]]]]].
  assert (EE : (lab', fd', deps') = (lab, fd, deps)) by congruence. injection EE as -> -> ->.
  assert (N0 : elev_at fd p <> 0) by (intros X; rewrite X in T; inversion T).
  destruct (ws_drain _ _ _ _ _ _ _ _ _ WS p Ip) as [r [R Z0]]. destruct R as [p Ip'|p n q r Ip' In_ F Q L D R].
  - apply N0. destruct Z0 as [[_ O]|[k [_ K]]]; [apply (ws_ocean _ _ _ _ _ _ _ _ _ WS p O)|apply (ws_pit _ _ _ _ _ _ _ _ _ WS k p K)].
  - assert (QC : q = corner).
    { rewrite Q. rewrite F in T. destruct p as [x y]. cbn [fst snd] in *. unfold corner. apply dirs_In in In_. cbn [nmax] in In_.
      assert (n = 1 \/ n = 2 \/ n = 3 \/ n = 4 \/ n = 5 \/ n = 6 \/ n = 7 \/ n = 8)%nat as C by lia.
      destruct C as [-> | [-> | [-> | [-> | [-> | [-> | [-> | ->]]]]]]]; inversion T; subst; cbn; f_equal; lia. }
    rewrite QC in D. assert (TT : touching (0, 0) p).
    { apply adjacent_sym. destruct p as [x y]. rewrite QC in Q. apply adjacent_iff. exists n. split; [exact In_|]. cbn [fst snd] in *. unfold corner in Q. injection Q as Q1 Q2. auto. }
    pose proof (HC p Ip TT). unfold corner in D. lia.
Qed.

(** C60. The program rd_fill_spill_merge: the sea is what has no data or is connected with the edge at the ocean level. Without
    a coast the program fails; otherwise it ends with the rain on the land settled (C43) and saves the water and the height of
    its surface. The corner cell (0,0) must belong to the sea or be higher than its neighbours. *)
Theorem C60_program : forall w h topo nd level sorted parts order tbs water,
  0 < w -> 0 < h -> w * h < 2 ^ 31 -> (forall db, sorting_of db (sorted db)) -> each_cell_once w h parts -> Permutation order (cells w h) ->
  (forall c, inside w h c -> (0 <= water c)%Qc) ->
  exists n, forall fuel, (n <= fuel)%nat ->
    (~ coast w h topo nd level -> fsm_main w h topo nd level sorted parts order tbs fuel water = Some Thrown) /\
    (coast w h topo nd level -> sea w h topo nd level (0, 0) \/ high_corner w h topo ->
     exists wtd surface, fsm_main w h topo nd level sorted parts order tbs fuel water = Some (Ok (wtd, surface)) /\
     exists lab0 lab deps wv rain,
       (forall p, inside w h p -> (elev_at lab0 p = 0 <-> sea w h topo nd level p)) /\
       (forall p, inside w h p -> (sea w h topo nd level p -> rain p = 0%Qc) /\ (~ sea w h topo nd level p -> rain p = water p)) /\
       water_settled w h topo lab0 lab deps rain wtd wv /\
       (forall p, inside w h p -> surface p = (if elev_at topo p =? nd then wtd p else wtd p + zq (elev_at topo p))%Qc)).
Proof.
  intros w h topo nd level sorted parts order tbs water Hw Hh Hs V4 V5 P SAT.
  destruct (from_edges_ok D8 w h topo level OCEAN label0 Hw Hh) as [n F]. exists n. intros fuel Hf. destruct (F fuel Hf) as [lab [E [A0 B0]]].
  assert (A : forall p, open_sea w h topo level p -> elev_at lab p = OCEAN) by (intros p X; apply A0, painted_sea; exact X).
  assert (B : forall p, open_sea w h topo level p \/ elev_at lab p = NO_DEP) by (intros p; destruct (B0 p) as [X|X]; [left; apply painted_sea; exact X|right; rewrite X; reflexivity]).
  destruct (prog_labels w h topo nd level lab A B) as [L [V S]]. set (lab0 := prog_lab0 topo nd lab) in *.
  assert (CO : coast w h topo nd level <-> has_coast D8 w h lab0).
  { split.
    - intros [p [q [Ip [Iq [Sp [Sq T]]]]]]. exists p, q. split; [split; [exact Ip|apply L; auto]|]. split; [split; [exact Iq|]; rewrite (L q Iq); exact Sq|exact T].
    - intros [p [q [[Ip Sp] [[Iq Sq] T]]]]. exists p, q. apply (L p Ip) in Sp. rewrite (L q Iq) in Sq. auto 10. }
  destruct (C42_rejects D8 w h topo lab0 (fun _ _ => 0) (fun _ => 0%nat) sorted parts Hs V4 V5) as [R1 R2].
  unfold fsm_main. rewrite E. cbn [then_]. cbv zeta. change (fun x y => if (topo (fst (x, y)) (snd (x, y)) =? nd) || (lab (fst (x, y)) (snd (x, y)) =? OCEAN) then OCEAN else lab x y) with lab0.
  split.
  - intros NC. rewrite (proj2 R1); [reflexivity|]. intros [_ X]. apply NC, CO, X.
  - intros HC CORNER. apply CO in HC. destruct (proj1 R2 (conj V HC)) as [[[lab1 fd] deps] G]. rewrite G. cbn [then_].
    set (rain := fun c : Z * Z => if (topo (fst c) (snd c) =? nd) || (lab (fst c) (snd c) =? OCEAN) then 0%Qc else water c).
    assert (RS : forall p, inside w h p -> (sea w h topo nd level p -> rain p = 0%Qc) /\ (~ sea w h topo nd level p -> rain p = water p)).
    { intros p Ip. unfold rain. pose proof (S p Ip) as X. unfold elev_at in X. destruct (_ || _); split; intros Y; auto; [exfalso; apply Y, X; reflexivity|apply X in Y; discriminate Y]. }
    destruct (C43_fill_spill_merge w h topo lab0 sorted parts lab1 fd deps order tbs (repeat 0%Qc (length deps)) rain) as [wtd' [wv' [FE WS]]]; auto using repeat_length.
    + intros c Ic. unfold rain. destruct (_ || _); [apply Qcle_refl|apply SAT; exact Ic].
    + assert (IC : inside w h (0, 0)) by (unfold inside, in_raster; cbn; lia). destruct CORNER as [X|X]; [right; split; [apply L; auto|apply (RS _ IC); exact X]|left].
      eapply high_corner_unfed; eauto.
    + rewrite FE. cbn [then_ fst]. do 2 eexists. split; [reflexivity|]. exists lab0, lab1, deps, wv', rain. split; [exact L|]. split; [exact RS|]. split; [exact WS|]. intros p _. reflexivity.
Qed.
Print Assumptions C60_program.
(** The two basins of C28 with a hole in the data on the edge; rain falls on the left basin and on the sea. *)
Definition prog_dem : grid Z := gset ex_dem 3 0 (-9).
Definition prog_rain : Z * Z -> Qc := fun p => if ceqb p (2, 2) then zq 12 else if ceqb p (0, 1) then zq 5 else 0%Qc.
Definition show2 (r : option (res ((Z * Z -> Qc) * (Z * Z -> Qc)))) : option (list (list Q) * list (list Q)) :=
  match r with Some (Ok (a, b)) => let rows (f : Z * Z -> Qc) := map (fun y => map (fun x => this (f (x, y))) (zrange 0 7)) (zrange 0 5) in Some (rows a, rows b) | _ => None end.
Example C60_run : show2 (fsm_main 7 5 prog_dem (-9) 0 ex_sort ex_parts (cells 7 5) (fun _ _ => 0%nat) 1000 prog_rain) =
  Some ([[0; 0; 0; 0; 0; 0; 0]; [0; 0; 0; 0; 0; 0; 0]; [0; 0; 14 # 3; 5 # 3; 17 # 3; 0; 0]; [0; 0; 0; 0; 0; 0; 0]; [0; 0; 0; 0; 0; 0; 0]],
        [[0; 0; 0; 0; 0; 0; 0]; [0; 9; 9; 9; 9; 9; 0]; [0; 9; 23 # 3; 23 # 3; 23 # 3; 9; 0]; [0; 9; 9; 9; 9; 9; 0]; [0; 0; 0; 0; 0; 0; 0]])%Q.
Proof. vm_compute. reflexivity. Qed.
Lemma inland : forall p, open_sea 7 5 prog_dem 0 p -> p <> (1, 1).
Proof. intros p S ->. assert (X : elev_at prog_dem (1, 1) = 0) by (inversion S; assumption). vm_compute in X. discriminate X. Qed.
Example C60_met : coast 7 5 prog_dem (-9) 0 /\ sea 7 5 prog_dem (-9) 0 (0, 0) /\ forall c, inside 7 5 c -> (0 <= prog_rain c)%Qc.
Proof.
  assert (S : sea 7 5 prog_dem (-9) 0 (0, 0)).
  { right. apply open_edge; [unfold on_edge, in_raster; cbn; lia|reflexivity]. }
  split; [|split; [exact S|]].
  - exists (0, 0), (1, 1). split; [unfold inside, in_raster; cbn; lia|]. split; [unfold inside, in_raster; cbn; lia|]. split; [exact S|]. split; [|unfold touching, adjacent; cbn; repeat split; try lia; congruence].
    intros [[_ X]|X]; [vm_compute in X; discriminate X|exact (inland _ X eq_refl)].
  - intros c _. unfold prog_rain. destruct (ceqb c (2, 2)), (ceqb c (0, 1)); try apply Qcle_refl; rewrite <- zq_0; apply zq_le; lia.
Qed.
(** everything is land *)
Example C60_no_coast : fsm_main 3 3 (fun x y => 5) (-9) 0 ex_sort [cells 3 3] (cells 3 3) (fun _ _ => 0%nat) 1000 prog_rain = Some Thrown.
Proof. vm_compute. reflexivity. Qed.
