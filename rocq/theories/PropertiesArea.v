(** C63: the surface area of a terrain. *)
From Coq Require Import ZArith Reals List Lia Lra Bool Permutation.
From Verif Require Import Base Res RasterSpec RasterFacts AreaModel AreaSpec AreaProofs.
Import ListNotations.
Open Scope R_scope.

Section Unique.
  Variables (w h : Z) (e : grid R) (nodata : grid bool) (zscale lx ly : R).
  Lemma data_dec x y : has_data w h nodata x y \/ ~ has_data w h nodata x y.
  Proof.
    unfold has_data. assert (in_raster w h x y \/ ~ in_raster w h x y) by (unfold in_raster; lia). destruct (nodata x y); [right; intros [_ X]; discriminate X|]. tauto.
  Qed.
  Lemma halfway_fun x y i j u v : halfway w h e nodata zscale lx ly x y i j u -> halfway w h e nodata zscale lx ly x y i j v -> u = v.
  Proof.
    intros [z [[A B] ->]] [z' [[A' B'] ->]]. destruct (data_dec (x + i) (y + j)) as [D|D]; [rewrite (A D), (A' D)|rewrite (B D), (B' D)]; reflexivity.
  Qed.
  Lemma cell_surface_fun x y a b : cell_surface w h e nodata zscale lx ly x y a -> cell_surface w h e nodata zscale lx ly x y b -> a = b.
  Proof.
    intros [u1 [u2 [u3 [u4 [u5 [u6 [u7 [u8 [A1 [A2 [A3 [A4 [A5 [A6 [A7 [A8 ->]]]]]]]]]]]]]]]] [v1 [v2 [v3 [v4 [v5 [v6 [v7 [v8 [B1 [B2 [B3 [B4 [B5 [B6 [B7 [B8 ->]]]]]]]]]]]]]]]].
    rewrite (halfway_fun _ _ _ _ _ _ A1 B1), (halfway_fun _ _ _ _ _ _ A2 B2), (halfway_fun _ _ _ _ _ _ A3 B3), (halfway_fun _ _ _ _ _ _ A4 B4), (halfway_fun _ _ _ _ _ _ A5 B5), (halfway_fun _ _ _ _ _ _ A6 B6), (halfway_fun _ _ _ _ _ _ A7 B7), (halfway_fun _ _ _ _ _ _ A8 B8). reflexivity.
  Qed.
  Lemma surface_fun a b : surface w h e nodata zscale lx ly a -> surface w h e nodata zscale lx ly b -> a = b.
  Proof.
    intros [l [f [N [I [F ->]]]]] [l' [f' [N' [I' [F' ->]]]]].
    assert (P : Permutation l l') by (apply NoDup_Permutation; auto; intros [x y]; rewrite I, I'; tauto).
    rewrite (rsum_perm _ _ (Permutation_map f P)). f_equal. apply map_ext_in. intros [x y] J. apply I' in J. exact (cell_surface_fun x y _ _ (F x y J) (F' x y J)).
  Qed.
End Unique.

(** C63. dem_surface_area never fails and computes the area of the surface through the elevations: eight triangles a cell,
    level where there is no data. It is at least the planar area of the data cells, whatever the order in which threads take the rows. *)
Theorem C63_surface_area : forall w h e nodata zscale gt1 gt5 parts (n : Z) a,
  Permutation (concat parts) (zrange 0 (Z.to_nat h)) ->
  (exists l, NoDup l /\ (forall x y, In (x, y) l <-> has_data w h nodata x y) /\ Z.of_nat (length l) = n) ->
  (surface w h e nodata zscale (Rabs gt1) (Rabs gt5) a <-> dem_surface_area w h e nodata zscale gt1 gt5 parts n = Ok a) /\
  (exists a, dem_surface_area w h e nodata zscale gt1 gt5 parts n = Ok a /\ IZR n * (Rabs gt1 * Rabs gt5) <= a).
Proof.
  intros w h e nodata zscale gt1 gt5 parts n a P [l [N [I L]]].
  set (D := dcells w h nodata).
  assert (LD : Z.of_nat (length D) = n).
  { rewrite <- L. f_equal. apply Permutation_length, NoDup_Permutation; [apply NoDup_filter, cells_NoDup|exact N|]. intros [x y]. unfold D. rewrite I. apply dcells_In. }
  pose proof (surface_area_ok w h e nodata zscale gt1 gt5 parts n P) as E. rewrite E by (unfold D in LD; lia).
  pose proof (surface_dcells w h e nodata zscale gt1 gt5) as S. split.
  - split; [intros X; f_equal; eapply surface_fun; eauto|]. intros X. injection X as <-. exact S.
  - eexists. split; [reflexivity|]. pose proof (rs_ge w h e nodata zscale gt1 gt5 (dcells w h nodata)) as G. fold D in G |- *. rewrite INR_IZR_INZ, LD in G. exact G.
Qed.
Print Assumptions C63_surface_area.
(** On a tilted plane, a cell surrounded by data has exactly the area of the plane above it; a level terrain has its planar area. *)
Lemma plane_triangle lx ly p q i j i' j' : 0 <= lx -> 0 <= ly -> (i * j' - j * i') * (i * j' - j * i') = 1 ->
  triangle (i * lx / 2, j * ly / 2, (p * (i * lx) + q * (j * ly)) / 2) (i' * lx / 2, j' * ly / 2, (p * (i' * lx) + q * (j' * ly)) / 2) = lx * ly * sqrt (1 + p * p + q * q) / 8.
Proof.
  intros Hx Hy D. unfold triangle, cross, norm.
  match goal with |- sqrt ?X / 2 = _ => replace X with ((lx * ly / 4) * (lx * ly / 4) * (((i * j' - j * i') * (i * j' - j * i')) * (1 + p * p + q * q))) by field end.
  rewrite D, Rmult_1_l. assert (0 <= lx * ly / 4) by nra.
  rewrite sqrt_mult; [|nra|nra]. rewrite sqrt_square by lra. field.
Qed.
Theorem C63_plane : forall w h e nodata zscale lx ly p q x y, 0 <= lx -> 0 <= ly ->
  (forall x' y', (Z.abs (x - x') <= 1)%Z -> (Z.abs (y - y') <= 1)%Z -> has_data w h nodata x' y' /\ zscale * e x' y' = zscale * e x y + p * (IZR (x' - x) * lx) + q * (IZR (y' - y) * ly)) ->
  cell_surface w h e nodata zscale lx ly x y (lx * ly * sqrt (1 + p * p + q * q)).
Proof.
  intros w h e nodata zscale lx ly p q x y Hx Hy HP.
  assert (HW : forall i j, (Z.abs i <= 1)%Z -> (Z.abs j <= 1)%Z -> halfway w h e nodata zscale lx ly x y i j (IZR i * lx / 2, IZR j * ly / 2, (p * (IZR i * lx) + q * (IZR j * ly)) / 2)).
  { intros i j Hi Hj. destruct (HP (x + i)%Z (y + j)%Z) as [D E]; [lia|lia|]. exists (zscale * e (x + i)%Z (y + j)%Z). split; [split; [reflexivity|contradiction]|]. rewrite E.
    replace (x + i - x)%Z with i by lia. replace (y + j - y)%Z with j by lia. f_equal. lra. }
  do 8 eexists. do 8 (split; [apply HW; lia|]). rewrite !plane_triangle by (try assumption; cbn; lra). field.
Qed.
Print Assumptions C63_plane.
Theorem C63_level : forall w h e nodata zscale gt1 gt5 parts (n : Z) z, (forall x y, has_data w h nodata x y -> zscale * e x y = z) ->
  Permutation (concat parts) (zrange 0 (Z.to_nat h)) ->
  (exists l, NoDup l /\ (forall x y, In (x, y) l <-> has_data w h nodata x y) /\ Z.of_nat (length l) = n) ->
  dem_surface_area w h e nodata zscale gt1 gt5 parts n = Ok (IZR n * (Rabs gt1 * Rabs gt5)).
Proof.
  intros w h e nodata zscale gt1 gt5 parts n z HZ P L. apply (C63_surface_area w h e nodata zscale gt1 gt5 parts n _ P L).
  destruct L as [l [N [I L]]]. exists l, (fun _ => Rabs gt1 * Rabs gt5). split; [exact N|]. split; [exact I|]. split.
  - intros x y D. assert (HW : forall i j, halfway w h e nodata zscale (Rabs gt1) (Rabs gt5) x y i j (IZR i * Rabs gt1 / 2, IZR j * Rabs gt5 / 2, (0 * (IZR i * Rabs gt1) + 0 * (IZR j * Rabs gt5)) / 2)).
    { intros i j. exists z. split; [split; intros X; [symmetry; apply HZ; exact X|symmetry; apply HZ; exact D]|]. rewrite (HZ x y D). f_equal. lra. }
    do 8 eexists. do 8 (split; [apply HW|]). rewrite !plane_triangle by (try apply Rabs_pos; cbn; lra). replace (1 + 0 * 0 + 0 * 0) with 1 by ring. rewrite sqrt_1. field.
  - rewrite <- L, <- INR_IZR_INZ. clear. induction l as [|c l IH]; [cbn; ring|]. cbn [map rsum fold_right length]. rewrite S_INR. unfold rsum in IH. rewrite <- IH. ring.
Qed.
Print Assumptions C63_level.
(** Hypotheses met: one row of two data cells and a cell without data, 3 wide and 4 high, elevations 0 and 4. *)
Example C63_met : exists l, NoDup l /\ (forall x y, In (x, y) l <-> has_data 3 1 (fun x _ => (x =? 2)%Z) x y) /\ Z.of_nat (length l) = 2%Z.
Proof.
  exists [(0, 0); (1, 0)]%Z. split; [repeat constructor; cbn; intuition congruence|]. split; [|reflexivity].
  intros x y. unfold has_data, in_raster. cbn [In]. split; [intros [X|[X|[]]]; injection X as <- <-; split; (lia || reflexivity)|].
  intros [[Hx Hy] E]. apply Z.eqb_neq in E. assert (x = 0 \/ x = 1)%Z as [-> | ->] by lia; replace y with 0%Z by lia; auto.
Qed.
Example C63_two_cells : exists a, dem_surface_area 3 1 (fun x _ => IZR (if (x =? 1)%Z then 4 else 0)) (fun x _ => (x =? 2)%Z) 1 3 (-4) [[0%Z]] 2 = Ok a /\ 24 <= a.
Proof.
  destruct (C63_surface_area 3 1 (fun x _ => IZR (if (x =? 1)%Z then 4 else 0)) (fun x _ => (x =? 2)%Z) 1 3 (-4) [[0%Z]] 2 0) as [_ [a [E G]]]; [reflexivity|apply C63_met|].
  exists a. split; [exact E|]. rewrite Rabs_right, Rabs_left in G by lra. lra.
Qed.
