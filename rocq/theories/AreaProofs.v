(** Proofs about the surface area. *)
From Coq Require Import ZArith Reals List Lia Bool Lra Permutation.
From Verif Require Import Base Res RasterSpec RasterFacts AreaModel AreaSpec.
Import ListNotations.
Open Scope R_scope.

Definition flat8 (a b n d : R) : R := sqrt (a * a * (b * b) + a * a * ((n - d) * (n - d)) + b * b * (n * n)) / 8.

Lemma sq0 x : 0 <= x * x.
Proof. pose proof (Rle_0_sqr x) as H. exact H. Qed.
Lemma sqrt_quarter X Y : 0 <= Y -> X = Y / 64 -> sqrt X = sqrt Y / 8.
Proof.
  intros HY ->. replace (Y / 64) with (Y * (/ 8 * / 8)) by field. rewrite sqrt_mult by lra. rewrite sqrt_square by lra. reflexivity.
Qed.
Lemma euc_sq a b : euc_dist a b * euc_dist a b = a * a + b * b.
Proof. unfold euc_dist. rewrite sqrt_sqrt; [ring|]. pose proof (sq0 a). pose proof (sq0 b). lra. Qed.
Lemma flat_pos a b n d : 0 <= a * a * (b * b) + a * a * ((n - d) * (n - d)) + b * b * (n * n).
Proof. pose proof (sq0 (a * b)). pose proof (sq0 (a * (n - d))). pose proof (sq0 (b * n)). lra. Qed.
Lemma heron a b d n D : D * D = a * a + b * b ->
  let p := euc_dist D d / 2 in let q := euc_dist a n / 2 in let r := euc_dist b (n - d) / 2 in let s := (p + q + r) / 2 in
  sqrt (s * (s - p) * (s - q) * (s - r)) = flat8 a b n d.
Proof.
  intros HD p q r s. apply sqrt_quarter; [apply flat_pos|].
  assert (P : p * p = (D * D + d * d) / 4) by (unfold p; pose proof (euc_sq D d); lra).
  assert (Q : q * q = (a * a + n * n) / 4) by (unfold q; pose proof (euc_sq a n); lra).
  assert (R : r * r = (b * b + (n - d) * (n - d)) / 4) by (unfold r; pose proof (euc_sq b (n - d)); lra).
  replace (s * (s - p) * (s - q) * (s - r)) with ((4 * (p * p) * (q * q) - (p * p + q * q - r * r) * (p * p + q * q - r * r)) / 16) by (unfold s; field).
  rewrite P, Q, R, HD. field.
Qed.
Lemma tri_h a b n d i j : i * i = 1 -> j * j = 1 -> triangle (i * a / 2, j * b / 2, d / 2) (i * a / 2, 0 * b / 2, n / 2) = flat8 a b n d.
Proof.
  intros Hi Hj. unfold triangle, cross, norm.
  match goal with |- sqrt ?X / 2 = _ => replace X with ((a * a * (b * b) + a * a * ((n - d) * (n - d)) + b * b * (n * n)) * (/ 4 * / 4)) end.
  - rewrite sqrt_mult; [|apply flat_pos|lra]. rewrite sqrt_square by lra. unfold flat8. field.
  - replace (a * a * (b * b)) with ((i * i) * (j * j) * (a * a * (b * b))) by (rewrite Hi, Hj; ring). replace (a * a * ((n - d) * (n - d))) with ((i * i) * (a * a * ((n - d) * (n - d)))) by (rewrite Hi; ring).
    replace (b * b * (n * n)) with ((j * j) * (b * b * (n * n))) by (rewrite Hj; ring). field.
Qed.
Lemma tri_v a b n d i j : i * i = 1 -> j * j = 1 -> triangle (i * a / 2, j * b / 2, d / 2) (0 * a / 2, j * b / 2, n / 2) = flat8 b a n d.
Proof.
  intros Hi Hj. unfold triangle, cross, norm.
  match goal with |- sqrt ?X / 2 = _ => replace X with ((b * b * (a * a) + b * b * ((n - d) * (n - d)) + a * a * (n * n)) * (/ 4 * / 4)) end.
  - rewrite sqrt_mult; [|apply flat_pos|lra]. rewrite sqrt_square by lra. unfold flat8. field.
  - replace (b * b * (a * a)) with ((i * i) * (j * j) * (b * b * (a * a))) by (rewrite Hi, Hj; ring). replace (b * b * ((n - d) * (n - d))) with ((j * j) * (b * b * ((n - d) * (n - d)))) by (rewrite Hj; ring).
    replace (a * a * (n * n)) with ((i * i) * (a * a * (n * n))) by (rewrite Hi; ring). field.
Qed.
Lemma tri_sym u v : triangle u v = triangle v u.
Proof.
  destruct u as [[a b] c], v as [[a' b'] c']. unfold triangle, cross, norm. f_equal. f_equal. ring.
Qed.
Lemma flat_ge a b n d : 0 <= a -> 0 <= b -> a * b / 8 <= flat8 a b n d.
Proof.
  intros Ha Hb. unfold flat8. assert (a * b <= sqrt (a * a * (b * b) + a * a * ((n - d) * (n - d)) + b * b * (n * n))); [|lra].
  rewrite <- (sqrt_square (a * b)) at 1 by nra. apply sqrt_le_1_alt.
  pose proof (sq0 (a * (n - d))). pose proof (sq0 (b * n)). lra.
Qed.

Section Area.
  Variables (w h : Z) (e : grid R) (nodata : grid bool) (zscale gt1 gt5 : R).
  Let lx := Rabs gt1. Let ly := Rabs gt5.
  Lemma lx_pos : 0 <= lx. Proof. apply Rabs_pos. Qed.
  Lemma ly_pos : 0 <= ly. Proof. apply Rabs_pos. Qed.
  Notation nbe := (nb_elev w h e nodata zscale).
  Definition vec_of (x y : Z) (n : nat) : vec := (IZR (dx D8 n) * lx / 2, IZR (dy D8 n) * ly / 2, (nbe x y n - zscale * e x y) / 2).
  Lemma vec_halfway x y n : halfway w h e nodata zscale lx ly x y (dx D8 n) (dy D8 n) (vec_of x y n).
  Proof.
    exists (nbe x y n). split; [|reflexivity]. unfold nb_elev, height, has_data. rewrite in_raster_iff.
    destruct (inGrid w h (x + dx D8 n) (y + dy D8 n)), (nodata (x + dx D8 n)%Z (y + dy D8 n)%Z); cbn [andb negb]; split; intros H; try reflexivity; try (destruct H; discriminate); exfalso; apply H; auto.
  Qed.
  Definition nxt (n : nat) : nat := if Nat.eqb n 8 then 1%nat else S n.
  Lemma tri_ok x y n : In n (dirs D8) -> tri_area w h e nodata zscale gt1 gt5 x y n = triangle (vec_of x y n) (vec_of x y (nxt n)) /\ lx * ly / 8 <= tri_area w h e nodata zscale gt1 gt5 x y n.
  Proof.
    intros Hn.
    assert (HH : forall d m i j, i * i = 1 -> j * j = 1 -> tri_area w h e nodata zscale gt1 gt5 x y n = flat8 lx ly m d -> triangle (vec_of x y n) (vec_of x y (nxt n)) = triangle (i * lx / 2, j * ly / 2, d / 2) (i * lx / 2, 0 * ly / 2, m / 2) ->
      tri_area w h e nodata zscale gt1 gt5 x y n = triangle (vec_of x y n) (vec_of x y (nxt n)) /\ lx * ly / 8 <= tri_area w h e nodata zscale gt1 gt5 x y n).
    { intros d m i j Hi Hj E1 E2. rewrite E1, E2, tri_h by auto. split; [reflexivity|]. apply flat_ge; [apply lx_pos|apply ly_pos]. }
    assert (VV : forall d m i j, i * i = 1 -> j * j = 1 -> tri_area w h e nodata zscale gt1 gt5 x y n = flat8 ly lx m d -> triangle (vec_of x y n) (vec_of x y (nxt n)) = triangle (i * lx / 2, j * ly / 2, d / 2) (0 * lx / 2, j * ly / 2, m / 2) ->
      tri_area w h e nodata zscale gt1 gt5 x y n = triangle (vec_of x y n) (vec_of x y (nxt n)) /\ lx * ly / 8 <= tri_area w h e nodata zscale gt1 gt5 x y n).
    { intros d m i j Hi Hj E1 E2. rewrite E1, E2, tri_v by auto. split; [reflexivity|]. replace (lx * ly) with (ly * lx) by ring. apply flat_ge; [apply ly_pos|apply lx_pos]. }
    assert (DD : planar_diag_dist gt1 gt5 * planar_diag_dist gt1 gt5 = lx * lx + ly * ly) by (apply euc_sq).
    assert (DD' : planar_diag_dist gt1 gt5 * planar_diag_dist gt1 gt5 = ly * ly + lx * lx) by (rewrite DD; ring).
    set (z := zscale * e x y) in *.
    assert (TH : forall dn ndn, (dy D8 ndn =? 0)%Z = true -> (if negb (diag n) then (nxt n, n) else (n, nxt n)) = (dn, ndn) -> tri_area w h e nodata zscale gt1 gt5 x y n = flat8 lx ly (nbe x y ndn - z) (nbe x y dn - z)).
    { intros dn ndn D E. unfold tri_area. replace (if Nat.eqb (n + 1) 9 then 1%nat else (n + 1)%nat) with (nxt n) by (unfold nxt; rewrite Nat.add_comm; reflexivity). rewrite E. cbv zeta. rewrite D. fold z.
      replace (nbe x y ndn - nbe x y dn) with ((nbe x y ndn - z) - (nbe x y dn - z)) by ring. apply heron. exact DD. }
    assert (TV : forall dn ndn, (dy D8 ndn =? 0)%Z = false -> (if negb (diag n) then (nxt n, n) else (n, nxt n)) = (dn, ndn) -> tri_area w h e nodata zscale gt1 gt5 x y n = flat8 ly lx (nbe x y ndn - z) (nbe x y dn - z)).
    { intros dn ndn D E. unfold tri_area. replace (if Nat.eqb (n + 1) 9 then 1%nat else (n + 1)%nat) with (nxt n) by (unfold nxt; rewrite Nat.add_comm; reflexivity). rewrite E. cbv zeta. rewrite D. fold z.
      replace (nbe x y ndn - nbe x y dn) with ((nbe x y ndn - z) - (nbe x y dn - z)) by ring. apply heron. exact DD'. }
    assert (F1 : (-1) * (-1) = 1) by ring. assert (F2 : 1 * 1 = 1) by ring.
    change (dirs D8) with [1;2;3;4;5;6;7;8]%nat in Hn. cbn [In] in Hn.
    destruct Hn as [<-|[<-|[<-|[<-|[<-|[<-|[<-|[<-|[]]]]]]]]].
    - apply (HH (nbe x y 2 - z) (nbe x y 1 - z) (-1) (-1)); [exact F1|exact F1|apply TH; reflexivity|first [reflexivity|rewrite tri_sym; reflexivity]].
    - apply (VV (nbe x y 2 - z) (nbe x y 3 - z) (-1) (-1)); [exact F1|exact F1|apply TV; reflexivity|first [reflexivity|rewrite tri_sym; reflexivity]].
    - apply (VV (nbe x y 4 - z) (nbe x y 3 - z) 1 (-1)); [exact F2|exact F1|apply TV; reflexivity|first [reflexivity|rewrite tri_sym; reflexivity]].
    - apply (HH (nbe x y 4 - z) (nbe x y 5 - z) 1 (-1)); [exact F2|exact F1|apply TH; reflexivity|first [reflexivity|rewrite tri_sym; reflexivity]].
    - apply (HH (nbe x y 6 - z) (nbe x y 5 - z) 1 1); [exact F2|exact F2|apply TH; reflexivity|first [reflexivity|rewrite tri_sym; reflexivity]].
    - apply (VV (nbe x y 6 - z) (nbe x y 7 - z) 1 1); [exact F2|exact F2|apply TV; reflexivity|first [reflexivity|rewrite tri_sym; reflexivity]].
    - apply (VV (nbe x y 8 - z) (nbe x y 7 - z) (-1) 1); [exact F1|exact F2|apply TV; reflexivity|first [reflexivity|rewrite tri_sym; reflexivity]].
    - apply (HH (nbe x y 8 - z) (nbe x y 1 - z) (-1) 1); [exact F1|exact F2|apply TH; reflexivity|first [reflexivity|rewrite tri_sym; reflexivity]].
  Qed.

  Definition ca (p : Z * Z) : R := fold_left (fun a n => a + tri_area w h e nodata zscale gt1 gt5 (fst p) (snd p) n) (dirs D8) 0.
  Lemma area_lxly : cell_area gt1 gt5 = lx * ly.
  Proof. unfold cell_area, lx, ly. apply Rabs_mult. Qed.
  Lemma ca_ok x y : cell_surface w h e nodata zscale lx ly x y (ca (x, y)) /\ lx * ly <= ca (x, y).
  Proof.
    unfold ca. cbn [fst snd]. change (dirs D8) with [1;2;3;4;5;6;7;8]%nat. cbn [fold_left].
    pose proof (fun n => tri_ok x y n) as T. change (dirs D8) with [1;2;3;4;5;6;7;8]%nat in T.
    destruct (T 1%nat) as [E1 L1]; [cbn; tauto|]. destruct (T 2%nat) as [E2 L2]; [cbn; tauto|]. destruct (T 3%nat) as [E3 L3]; [cbn; tauto|]. destruct (T 4%nat) as [E4 L4]; [cbn; tauto|].
    destruct (T 5%nat) as [E5 L5]; [cbn; tauto|]. destruct (T 6%nat) as [E6 L6]; [cbn; tauto|]. destruct (T 7%nat) as [E7 L7]; [cbn; tauto|]. destruct (T 8%nat) as [E8 L8]; [cbn; tauto|]. clear T.
    split; [|lra]. exists (vec_of x y 1), (vec_of x y 2), (vec_of x y 3), (vec_of x y 4), (vec_of x y 5), (vec_of x y 6), (vec_of x y 7), (vec_of x y 8).
    split; [apply (vec_halfway x y 1)|]. split; [apply (vec_halfway x y 2)|]. split; [apply (vec_halfway x y 3)|]. split; [apply (vec_halfway x y 4)|].
    split; [apply (vec_halfway x y 5)|]. split; [apply (vec_halfway x y 6)|]. split; [apply (vec_halfway x y 7)|]. split; [apply (vec_halfway x y 8)|].
    rewrite E1, E2, E3, E4, E5, E6, E7, E8. cbn [nxt Nat.eqb]. ring.
  Qed.
  Definition contrib (p : Z * Z) : R := if nodata (fst p) (snd p) then 0 else ca p.
  Lemma area_cell_ok y x a : area_cell w h e nodata zscale gt1 gt5 y x a = Ok (a + contrib (x, y)).
  Proof.
    unfold area_cell, contrib. cbn [fst snd]. destruct (nodata x y); [rewrite Rplus_0_r; reflexivity|]. fold (ca (x, y)). cbv zeta. change (fold_left _ _ _) with (ca (x, y)).
    destruct (ca_ok x y) as [_ L]. destruct (Rlt_dec (ca (x, y)) (cell_area gt1 gt5)) as [X|_]; [|reflexivity]. rewrite area_lxly in X. lra.
  Qed.
  Definition rs (l : list (Z * Z)) : R := rsum (map contrib l).
  Lemma rs_app l l' : rs (l ++ l') = rs l + rs l'.
  Proof. unfold rs. induction l as [|p l IH]; cbn [app map rsum fold_right]; [unfold rsum; lra|]. unfold rsum in *. rewrite IH. lra. Qed.
  Definition row (y : Z) : list (Z * Z) := map (fun x => (x, y)) (zrange 0 (Z.to_nat w)).
  Lemma area_row_ok y a : forM (zrange 0 (Z.to_nat w)) (area_cell w h e nodata zscale gt1 gt5 y) a = Ok (a + rs (row y)).
  Proof.
    unfold row. generalize (zrange 0 (Z.to_nat w)) as xs. intros xs. revert a. induction xs as [|x xs IH]; intros a; cbn [forM map]; [unfold rs; cbn; rewrite Rplus_0_r; reflexivity|].
    rewrite area_cell_ok. cbn [bind]. rewrite IH. f_equal. unfold rs. cbn [map rsum fold_right]. unfold rsum. lra.
  Qed.
  Lemma area_rows_ok rows : area_rows w h e nodata zscale gt1 gt5 rows = Ok (rs (flat_map row rows)).
  Proof.
    unfold area_rows. assert (G : forall a, forM rows (fun y area => forM (zrange 0 (Z.to_nat w)) (area_cell w h e nodata zscale gt1 gt5 y) area) a = Ok (a + rs (flat_map row rows))).
    { induction rows as [|y rows IH]; intros a; cbn [forM flat_map]; [unfold rs; cbn; rewrite Rplus_0_r; reflexivity|]. rewrite area_row_ok. cbn [bind]. rewrite IH, rs_app. f_equal. lra. }
    rewrite G, Rplus_0_l. reflexivity.
  Qed.
  Lemma total_ok parts : total_area w h e nodata zscale gt1 gt5 parts = Ok (rs (flat_map row (concat parts))).
  Proof.
    unfold total_area. assert (G : forall a, forM parts (fun rows area => do x <- area_rows w h e nodata zscale gt1 gt5 rows; Ok (area + x)) a = Ok (a + rs (flat_map row (concat parts)))).
    { induction parts as [|rows parts IH]; intros a; cbn [forM concat]; [unfold rs; cbn; rewrite Rplus_0_r; reflexivity|]. rewrite area_rows_ok. cbn [bind]. rewrite IH, flat_map_app, rs_app. f_equal. lra. }
    rewrite G, Rplus_0_l. reflexivity.
  Qed.
  Lemma rsum_perm l l' : Permutation l l' -> rsum l = rsum l'.
  Proof. induction 1; unfold rsum in *; cbn [fold_right]; lra. Qed.
  Lemma rows_perm parts : Permutation (concat parts) (zrange 0 (Z.to_nat h)) -> Permutation (flat_map row (concat parts)) (cells w h).
  Proof.
    intros P. eapply Permutation_trans; [apply (Permutation_flat_map row P)|]. clear P. apply NoDup_Permutation; [|apply cells_NoDup|].
    - assert (G : forall l, NoDup l -> NoDup (flat_map row l)).
      { induction l as [|y l IH]; intros N; cbn [flat_map]; [constructor|]. inversion N as [|? ? N1 N2]. apply NoDup_app_disj; [|apply IH; exact N2|].
        - apply FinFun.Injective_map_NoDup; [intros a b [= X]; exact X|apply zrange_NoDup].
        - intros p Hp Hq. apply in_map_iff in Hp. destruct Hp as [x0 [<- _]]. apply in_flat_map in Hq. destruct Hq as [y' [Iy X]]. apply in_map_iff in X. destruct X as [x0' [[= _ ->] _]]. contradiction. }
      apply G. apply zrange_NoDup.
    - intros [x y]. rewrite cells_In, in_flat_map. split.
      + intros [y' [Iy X]]. apply in_map_iff in X. destruct X as [x' [[= <- <-] Ix]]. apply zrange_In in Iy, Ix. lia.
      + intros [Hx Hy]. exists y. split; [apply zrange_In; lia|]. apply in_map_iff. exists x. split; [reflexivity|apply zrange_In; lia].
  Qed.
  Definition dcells : list (Z * Z) := filter (fun p => negb (nodata (fst p) (snd p))) (cells w h).
  Lemma rs_data l : rs l = rsum (map ca (filter (fun p => negb (nodata (fst p) (snd p))) l)).
  Proof.
    unfold rs, contrib. induction l as [|p l IH]; [reflexivity|]. cbn [map filter]. destruct (nodata (fst p) (snd p)); cbn [negb map rsum fold_right] in *; unfold rsum in *; rewrite IH; lra.
  Qed.
  Lemma dcells_In x y : In (x, y) dcells <-> has_data w h nodata x y.
  Proof. unfold dcells, has_data. rewrite filter_In, cells_In. cbn [fst snd]. rewrite negb_true_iff. unfold in_raster. tauto. Qed.
  Lemma rs_ge l : INR (length l) * (lx * ly) <= rsum (map ca l).
  Proof.
    induction l as [|[x y] l IH]; [cbn; lra|]. cbn [length map rsum fold_right]. rewrite S_INR. pose proof (proj2 (ca_ok x y)). unfold rsum in *. lra.
  Qed.
  Lemma surface_area_ok parts ndc : Permutation (concat parts) (zrange 0 (Z.to_nat h)) -> (ndc <= Z.of_nat (length dcells))%Z -> 
    dem_surface_area w h e nodata zscale gt1 gt5 parts ndc = Ok (rsum (map ca dcells)).
  Proof.
    intros P N. unfold dem_surface_area. rewrite total_ok. cbn [bind]. cbv zeta.
    assert (E : rs (flat_map row (concat parts)) = rsum (map ca dcells)).
    { unfold dcells. rewrite <- rs_data. unfold rs. apply rsum_perm. apply Permutation_map, rows_perm, P. }
    rewrite E. destruct (Rlt_dec _ _) as [X|_]; [|reflexivity]. exfalso. rewrite area_lxly in X. pose proof (rs_ge dcells) as G. rewrite INR_IZR_INZ in G.
    pose proof lx_pos. pose proof ly_pos. assert (0 <= lx * ly) by nra. apply IZR_le in N. nra.
  Qed.
  Lemma surface_dcells : surface w h e nodata zscale lx ly (rsum (map ca dcells)).
  Proof.
    exists dcells, ca. split; [apply NoDup_filter, cells_NoDup|]. split; [apply dcells_In|]. split; [|reflexivity]. intros x y _. apply ca_ok.
  Qed.
End Area.
