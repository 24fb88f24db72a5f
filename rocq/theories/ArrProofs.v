From Coq Require Import ZArith List Lia Bool Permutation.
From Verif Require Import Base Res ArrModel ArrSpec.
Open Scope Z_scope.

Ltac pw := change (2 ^ 31) with 2147483648 in *; change (2 ^ 32) with 4294967296 in *;
           change (2 ^ 64) with 18446744073709551616 in *.

Lemma cell_ix {A} (a : arr A) x y : 0 <= x < a_w a -> 0 <= y < a_h a -> cell a x y = ix (a_data a) (y * a_w a + x).
Proof.
  intros Hx Hy. unfold cell. assert (E : inGrid (a_w a) (a_h a) x y = true) by (apply inGrid_iff; lia).
  rewrite E. unfold ix. destruct (Z.ltb_spec (y * a_w a + x) 0); [nia|reflexivity].
Qed.
Lemma cell_out {A} (a : arr A) x y : ~ (0 <= x < a_w a /\ 0 <= y < a_h a) -> cell a x y = None.
Proof.
  intros H. unfold cell. destruct (inGrid _ _ _ _) eqn:E; auto. apply inGrid_iff in E. contradiction.
Qed.

Lemma idx_range w h x y : 0 <= x < w -> 0 <= y < h -> 0 <= y * w + x < w * h.
Proof. nia. Qed.
Lemma idx_inj w x y x' y' : 0 <= x < w -> 0 <= x' < w -> y * w + x = y' * w + x' -> x = x' /\ y = y'.
Proof. intros Hx Hx' E. assert (y = y') by (destruct (Z.lt_trichotomy y y') as [?|[?|?]]; [|assumption|]; exfalso; nia). subst. lia. Qed.
Lemma idx_split w h i : 0 <= i < w * h -> 0 <= w -> exists x y, 0 <= x < w /\ 0 <= y < h /\ i = y * w + x.
Proof.
  intros Hi Hw. assert (0 < w) by (destruct (Z.eq_dec w 0) as [->|]; lia). exists (i mod w), (i / w).
  pose proof (Z.mod_pos_bound i w H). pose proof (Z_div_mod_eq_full i w).
  assert (0 <= i / w) by (apply Z.div_pos; lia).
  assert (i / w < h) by (apply Z.div_lt_upper_bound; nia). repeat split; lia.
Qed.

(** ** Addressing *)
Definition dims_ok (w h : Z) : Prop := 0 <= w < 2 ^ 31 /\ 0 <= h < 2 ^ 31 /\ w * h < 2 ^ 32.

Lemma xyToI_val {A} (a : arr A) x y : dims_ok (a_w a) (a_h a) -> 0 <= x < a_w a -> 0 <= y < a_h a -> xyToI a x y = y * a_w a + x.
Proof.
  intros [Hw [Hh Hm]] Hx Hy. pose proof (idx_range _ _ _ _ Hx Hy). unfold xyToI.
  rewrite (w32_id y), (w32_id (a_w a)), (w32_id x) by (pw; lia). apply w32_id. pw; lia.
Qed.

Lemma iToxy_val {A} (a : arr A) x y : dims_ok (a_w a) (a_h a) -> 0 <= x < a_w a -> 0 <= y < a_h a ->
  iToxy a (y * a_w a + x) = Ok (x, y).
Proof.
  intros [Hw [Hh Hm]] Hx Hy. pose proof (idx_range _ _ _ _ Hx Hy). unfold iToxy.
  rewrite (w32_id (a_w a)), (w32_id (y * a_w a + x)) by (pw; lia). destruct (Z.eqb_spec (a_w a) 0); [lia|].
  assert (E1 : (y * a_w a + x) mod a_w a = x) by (rewrite Z.add_comm, Z.mod_add by lia; apply Z.mod_small; lia).
  assert (E2 : (y * a_w a + x) / a_w a = y) by (rewrite Z.add_comm, Z.div_add by lia; rewrite Z.div_small by lia; lia).
  rewrite E1, E2. rewrite !s32_id by (pw; lia). reflexivity.
Qed.

Lemma xy_i_roundtrip {A} (a : arr A) x y : dims_ok (a_w a) (a_h a) -> 0 <= x < a_w a -> 0 <= y < a_h a ->
  0 <= xyToI a x y < a_w a * a_h a /\ iToxy a (xyToI a x y) = Ok (x, y).
Proof.
  intros Hd Hx Hy. rewrite (xyToI_val a x y Hd Hx Hy). split; [apply idx_range; auto|apply iToxy_val; auto].
Qed.

Lemma i_xy_roundtrip {A} (a : arr A) i : dims_ok (a_w a) (a_h a) -> 0 <= i < a_w a * a_h a ->
  exists x y, iToxy a i = Ok (x, y) /\ 0 <= x < a_w a /\ 0 <= y < a_h a /\ xyToI a x y = i.
Proof.
  intros Hd Hi. destruct (idx_split _ _ _ Hi) as [x [y [Hx [Hy ->]]]]; [destruct Hd; lia|].
  exists x, y. split; [apply iToxy_val; auto|]. split; [auto|]. split; [auto|]. apply xyToI_val; auto.
Qed.

Lemma wrap_add (c d w : Z) : 0 <= c < w -> w < 2 ^ 31 -> - 2 ^ 31 <= d < 2 ^ 31 ->
  let r := s32 (c + w32 d) in (0 <= r < w <-> 0 <= c + d < w) /\ (0 <= r < w -> r = c + d).
Proof.
  intros Hc Hw Hd. cbv zeta. assert (E : s32 (c + w32 d) = s32 (c + d)).
  { rewrite <- (s32_w32 (c + w32 d)), <- (s32_w32 (c + d)). f_equal. unfold w32.
    rewrite Zplus_mod_idemp_r. reflexivity. }
  rewrite E. destruct (Z_lt_ge_dec (c + d) (2 ^ 31)).
  - rewrite s32_id by (pw; lia). lia.
  - rewrite s32_high by (pw; lia). pw. lia.
Qed.

Lemma nToI_val {A} (a : arr A) x y dx dy : dims_ok (a_w a) (a_h a) -> 0 <= x < a_w a -> 0 <= y < a_h a ->
  - 2 ^ 31 <= dx < 2 ^ 31 -> - 2 ^ 31 <= dy < 2 ^ 31 ->
  nToI a (xyToI a x y) dx dy = Ok (if inGrid (a_w a) (a_h a) (x + dx) (y + dy) then xyToI a (x + dx) (y + dy) else NO_I).
Proof.
  intros Hd Hx Hy Hdx Hdy. rewrite (xyToI_val a x y Hd Hx Hy). destruct Hd as [Hw [Hh Hm]].
  pose proof (idx_range _ _ _ _ Hx Hy) as HI. unfold nToI.
  assert (Ew : w32 (a_w a) = a_w a) by (apply w32_id; pw; lia).
  assert (Ei : w32 (y * a_w a + x) = y * a_w a + x) by (apply w32_id; pw; lia).
  rewrite Ew, Ei. destruct (Z.eqb_spec (a_w a) 0); [lia|].
  assert (E1 : (y * a_w a + x) mod a_w a = x) by (rewrite Z.add_comm, Z.mod_add by lia; apply Z.mod_small; lia).
  assert (E2 : (y * a_w a + x) / a_w a = y) by (rewrite Z.add_comm, Z.div_add by lia; rewrite Z.div_small by lia; lia).
  rewrite E1, E2.
  destruct (wrap_add x dx (a_w a) Hx ltac:(pw; lia) Hdx) as [X1 X2]. destruct (wrap_add y dy (a_h a) Hy ltac:(pw; lia) Hdy) as [Y1 Y2].
  cbv zeta in *. set (X := s32 (x + w32 dx)) in *. set (Y := s32 (y + w32 dy)) in *.
  destruct (Z.ltb_spec X 0); cbn [orb].
  { destruct (inGrid _ _ _ _) eqn:E; [apply inGrid_iff in E; lia|reflexivity]. }
  destruct (Z.ltb_spec Y 0); cbn [orb].
  { destruct (inGrid _ _ _ _) eqn:E; [apply inGrid_iff in E; lia|reflexivity]. }
  destruct (Z.leb_spec (a_w a) X); cbn [orb].
  { destruct (inGrid _ _ _ _) eqn:E; [apply inGrid_iff in E; lia|reflexivity]. }
  destruct (Z.leb_spec (a_h a) Y); cbn [orb].
  { destruct (inGrid _ _ _ _) eqn:E; [apply inGrid_iff in E; lia|reflexivity]. }
  rewrite X2, Y2 by lia. assert (E : inGrid (a_w a) (a_h a) (x + dx) (y + dy) = true) by (apply inGrid_iff; lia).
  rewrite E. reflexivity.
Qed.

Lemma d8_small n : - 1 <= nth n d8x 0 <= 1 /\ - 1 <= nth n d8y 0 <= 1.
Proof. do 9 (destruct n as [|n]; [cbn; lia|]). cbn. destruct n; lia. Qed.

Lemma nshift_val {A} (a : arr A) n x y : well_formed a -> (n <= 8)%nat -> 0 <= x < a_w a -> 0 <= y < a_h a ->
  0 <= x + nth n d8x 0 < a_w a -> 0 <= y + nth n d8y 0 < a_h a ->
  w32 (xyToI a x y + nshift a n) = xyToI a (x + nth n d8x 0) (y + nth n d8y 0).
Proof.
  intros [Hw Hh Hs Hl Hn] Hn8 Hx Hy Hx' Hy'.
  assert (Hd : dims_ok (a_w a) (a_h a)) by (split; [|split]; pw; lia).
  rewrite !xyToI_val by auto. unfold nshift. rewrite Hn.
  pose proof (idx_range _ _ _ _ Hx' Hy').
  replace (y * a_w a + x + nth n (nshift_table (a_w a)) 0) with ((y + nth n d8y 0) * a_w a + (x + nth n d8x 0)).
  - apply w32_id. pw. lia.
  - do 9 (destruct n as [|n]; [cbn [nth nshift_table d8x d8y]; lia|]). lia.
Qed.

Lemma size_ok {A} (a : arr A) : well_formed a -> size a = Ok (a_w a * a_h a).
Proof.
  intros [Hw Hh Hs Hl Hn]. unfold size. pw. assert (0 <= a_w a * a_h a) by nia.
  destruct (Z.leb_spec (- (2147483648)) (a_w a * a_h a)); [|lia].
  destruct (Z.ltb_spec (a_w a * a_h a) 2147483648); [|lia]. cbn [andb]. rewrite w32_id by (pw; lia). reflexivity.
Qed.

Lemma wf_dims {A} (a : arr A) : well_formed a -> dims_ok (a_w a) (a_h a).
Proof. intros [Hw Hh Hs Hl Hn]. split; [|split]; pw; lia. Qed.

Lemma xyToI_in {A} (a : arr A) x y : well_formed a -> 0 <= x < a_w a -> 0 <= y < a_h a ->
  xyToI a x y = y * a_w a + x /\ 0 <= y * a_w a + x < Z.of_nat (length (a_data a)).
Proof.
  intros H Hx Hy. split; [apply xyToI_val; auto using wf_dims|]. rewrite (wf_len a H). apply idx_range; auto.
Qed.

Lemma get_cell {A} (a : arr A) x y : well_formed a -> 0 <= x < a_w a -> 0 <= y < a_h a ->
  exists v, get a x y = Ok v /\ cell a x y = Some v.
Proof.
  intros H Hx Hy. destruct (xyToI_in a x y H Hx Hy) as [E R]. unfold get. rewrite E, cell_ix by auto.
  apply rd_in. auto.
Qed.

Lemma wf_with_data {A} (a : arr A) l : well_formed a -> length l = length (a_data a) -> well_formed (with_data a l).
Proof. intros [Hw Hh Hs Hl Hn] E. constructor; cbn; auto. rewrite E. auto. Qed.
Lemma same_with_data {A} (a : arr A) l : same_shape a (with_data a l).
Proof. unfold same_shape. cbn. auto 10. Qed.

Lemma set_cell {A} (a : arr A) x y v : well_formed a -> 0 <= x < a_w a -> 0 <= y < a_h a ->
  exists b, set a x y v = Ok b /\ well_formed b /\ same_shape a b /\
    forall x' y', cell b x' y' = if (x' =? x) && (y' =? y) then Some v else cell a x' y'.
Proof.
  intros H Hx Hy. destruct (xyToI_in a x y H Hx Hy) as [E R]. unfold set. rewrite E.
  destruct (wr_in (a_data a) _ v R) as [l [W [L X]]]. rewrite W. cbn [bind]. eexists. split; [reflexivity|].
  split; [apply wf_with_data; auto|]. split; [apply same_with_data|].
  intros x' y'. destruct (inGrid (a_w a) (a_h a) x' y') eqn:G.
  - apply inGrid_iff in G. rewrite !cell_ix by (cbn; lia). cbn [a_data with_data a_w]. rewrite X.
    destruct (Z.eqb_spec (y' * a_w a + x') (y * a_w a + x)) as [E'|E'].
    + apply idx_inj in E'; [|lia|lia]. destruct E'; subst. rewrite !Z.eqb_refl. reflexivity.
    + destruct (Z.eqb_spec x' x); destruct (Z.eqb_spec y' y); cbn [andb]; auto. subst. congruence.
  - assert (G' : ~ (0 <= x' < a_w a /\ 0 <= y' < a_h a)) by (rewrite <- inGrid_iff; congruence).
    rewrite !cell_out by (cbn; auto).
    destruct (Z.eqb_spec x' x); destruct (Z.eqb_spec y' y); cbn [andb]; auto. subst. lia.
Qed.

(** ** Bulk writes *)
Lemma zr_all n : (forall i, In i (zrange 0 (Z.to_nat n)) <-> 0 <= i < n) \/ n < 0.
Proof. destruct (Z_lt_ge_dec n 0); [right; auto|left]. intros i. rewrite zrange_In. lia. Qed.
Lemma zr_In n i : In i (zrange 0 (Z.to_nat n)) <-> 0 <= i < n.
Proof. rewrite zrange_In. lia. Qed.

Lemma setAll_spec {A} (a : arr A) v : well_formed a ->
  exists b, setAll a v = Ok b /\ well_formed b /\ same_shape a b /\
    forall x y, 0 <= x < a_w a -> 0 <= y < a_h a -> cell b x y = Some v.
Proof.
  intros H. unfold setAll. rewrite size_ok by auto. cbn [bind].
  destruct (forM_writes (fun i => i) v (zrange 0 (Z.to_nat (a_w a * a_h a))) (a_data a)) as [l [E [L X]]].
  { intros i Hi. apply zr_In in Hi. rewrite (wf_len a H). auto. }
  rewrite E. cbn [bind]. eexists. split; [reflexivity|]. split; [apply wf_with_data; auto|].
  split; [apply same_with_data|]. intros x y Hx Hy. rewrite cell_ix by auto. cbn [a_data with_data a_w].
  rewrite X. destruct (existsb _ _) eqn:Ex; auto.
  assert (existsb (fun i => i =? y * a_w a + x) (zrange 0 (Z.to_nat (a_w a * a_h a))) = true); [|congruence].
  apply existsb_exists. exists (y * a_w a + x). split; [apply zr_In; apply idx_range; auto|apply Z.eqb_refl].
Qed.

Lemma resize_spec {A} junk (a : arr A) w h v :
  (forall n, length (junk n) = n) -> 0 <= w <= 2 ^ 31 - 3 -> 0 <= h < 2 ^ 31 -> w * h < 2 ^ 31 ->
  a_owned a = true \/ Z.of_nat (length (a_data a)) = w * h ->
  exists b, resize junk a w h v = Ok b /\ well_formed b /\ a_w b = w /\ a_h b = h /\ a_nodata b = a_nodata a /\ a_ndc b = a_ndc a /\
    a_owned b = a_owned a /\
    forall x y, 0 <= x < w -> 0 <= y < h -> cell b x y = Some v.
Proof.
  intros HJ Hw Hh Hs Ho. unfold resize.
  assert (M : exists l, mv_resize junk (a_owned a) (a_data a) (w * h) = Ok l /\ Z.of_nat (length l) = w * h).
  { unfold mv_resize. destruct (Z.eqb_spec (Z.of_nat (length (a_data a))) (w * h)); [eauto|].
    destruct Ho as [->|]; [|contradiction]. eexists; split; [reflexivity|]. rewrite HJ. nia. }
  destruct M as [l [E L]]. rewrite E. cbn [bind].
  destruct (setAll_spec (mkA w h (a_nodata a) (a_ndc a) (nshift_table w) (a_owned a) l) v) as [b [E' [W [Sh C]]]].
  { constructor; cbn; auto. }
  exists b. split; [exact E'|]. split; [exact W|]. unfold same_shape in Sh. cbn in Sh.
  destruct Sh as (S1 & S2 & S3 & S4 & S5 & S6). repeat (split; [congruence|]). exact C.
Qed.

Lemma setRow_spec {A} (a : arr A) y v : well_formed a -> 0 <= y < a_h a ->
  exists b, setRow a y v = Ok b /\ well_formed b /\ same_shape a b /\
    forall x' y', cell b x' y' = if inGrid (a_w a) (a_h a) x' y' && (y' =? y) then Some v else cell a x' y'.
Proof.
  intros H Hy. unfold setRow.
  destruct (forM_writes (fun x => xyToI a x y) v (zrange 0 (Z.to_nat (a_w a))) (a_data a)) as [l [E [L X]]].
  { intros i Hi. apply zr_In in Hi. destruct (xyToI_in a i y H Hi Hy) as [-> R]. exact R. }
  rewrite E. cbn [bind]. eexists. split; [reflexivity|]. split; [apply wf_with_data; auto|].
  split; [apply same_with_data|]. intros x' y'. destruct (inGrid (a_w a) (a_h a) x' y') eqn:G; cbn [andb].
  - apply inGrid_iff in G. rewrite !cell_ix by (cbn; lia). cbn [a_data with_data a_w]. rewrite X.
    destruct (existsb _ _) eqn:Ex.
    + apply existsb_exists in Ex. destruct Ex as [x [Hx E']]. apply zr_In in Hx. apply Z.eqb_eq in E'.
      rewrite xyToI_val in E' by auto using wf_dims. apply idx_inj in E'; [|lia|lia].
      destruct E' as [-> ->]. rewrite Z.eqb_refl. reflexivity.
    + destruct (Z.eqb_spec y' y) as [->|]; auto. exfalso. rewrite <- not_true_iff_false in Ex. apply Ex.
      apply existsb_exists. exists x'. split; [apply zr_In; lia|]. rewrite xyToI_val by (auto using wf_dims; lia). apply Z.eqb_refl.
  - assert (G' : ~ (0 <= x' < a_w a /\ 0 <= y' < a_h a)) by (rewrite <- inGrid_iff; congruence).
    rewrite !cell_out by (cbn; auto). reflexivity.
Qed.

Lemma setCol_spec {A} (a : arr A) x v : well_formed a -> 0 <= x < a_w a ->
  exists b, setCol a x v = Ok b /\ well_formed b /\ same_shape a b /\
    forall x' y', cell b x' y' = if inGrid (a_w a) (a_h a) x' y' && (x' =? x) then Some v else cell a x' y'.
Proof.
  intros H Hx. unfold setCol.
  destruct (forM_writes (fun y => xyToI a x y) v (zrange 0 (Z.to_nat (a_h a))) (a_data a)) as [l [E [L X]]].
  { intros i Hi. apply zr_In in Hi. destruct (xyToI_in a x i H Hx Hi) as [-> R]. exact R. }
  rewrite E. cbn [bind]. eexists. split; [reflexivity|]. split; [apply wf_with_data; auto|].
  split; [apply same_with_data|]. intros x' y'. destruct (inGrid (a_w a) (a_h a) x' y') eqn:G; cbn [andb].
  - apply inGrid_iff in G. rewrite !cell_ix by (cbn; lia). cbn [a_data with_data a_w]. rewrite X.
    destruct (existsb _ _) eqn:Ex.
    + apply existsb_exists in Ex. destruct Ex as [y [Hy E']]. apply zr_In in Hy. apply Z.eqb_eq in E'.
      rewrite xyToI_val in E' by auto using wf_dims. apply idx_inj in E'; [|lia|lia].
      destruct E' as [-> ->]. rewrite Z.eqb_refl. reflexivity.
    + destruct (Z.eqb_spec x' x) as [->|]; auto. exfalso. rewrite <- not_true_iff_false in Ex. apply Ex.
      apply existsb_exists. exists y'. split; [apply zr_In; lia|]. rewrite xyToI_val by (auto using wf_dims; lia). apply Z.eqb_refl.
  - assert (G' : ~ (0 <= x' < a_w a /\ 0 <= y' < a_h a)) by (rewrite <- inGrid_iff; congruence).
    rewrite !cell_out by (cbn; auto). reflexivity.
Qed.

Lemma same_trans {A} (a b c : arr A) : same_shape a b -> same_shape b c -> same_shape a c.
Proof. unfold same_shape. intuition congruence. Qed.

Lemma setEdges_spec {A} (a : arr A) v : well_formed a -> 1 <= a_w a -> 1 <= a_h a ->
  exists b, setEdges a v = Ok b /\ well_formed b /\ same_shape a b /\
    forall x y, 0 <= x < a_w a -> 0 <= y < a_h a ->
      cell b x y = if isEdgeCell (a_w a) (a_h a) x y then Some v else cell a x y.
Proof.
  intros H Hw Hh. unfold setEdges.
  destruct (setRow_spec a 0 v H ltac:(lia)) as [a1 [E1 [W1 [S1 C1]]]]. rewrite E1. cbn [bind].
  pose proof S1 as (w1 & h1 & _).
  destruct (setRow_spec a1 (a_h a1 - 1) v W1 ltac:(lia)) as [a2 [E2 [W2 [S2 C2]]]]. rewrite E2. cbn [bind].
  pose proof S2 as (w2 & h2 & _).
  destruct (setCol_spec a2 0 v W2 ltac:(lia)) as [a3 [E3 [W3 [S3 C3]]]]. rewrite E3. cbn [bind].
  pose proof S3 as (w3 & h3 & _).
  destruct (setCol_spec a3 (a_w a3 - 1) v W3 ltac:(lia)) as [a4 [E4 [W4 [S4 C4]]]].
  exists a4. split; [exact E4|]. split; [exact W4|].
  split; [eauto using same_trans|]. intros x y Hx Hy. rewrite C4, C3, C2, C1.
  assert (G : inGrid (a_w a) (a_h a) x y = true) by (apply inGrid_iff; lia).
  rewrite w3, w2, w1, h3, h2, h1, G. cbn [andb]. unfold isEdgeCell.
  destruct (x =? 0); destruct (y =? 0); destruct (x =? a_w a - 1); destruct (y =? a_h a - 1); reflexivity.
Qed.

(** ** Copies of rows and columns *)
Lemma forM_collect {A} (f : Z -> Z) (l : list A) (is : list Z) :
  (forall i, In i is -> 0 <= f i < Z.of_nat (length l)) -> forall acc,
  exists r, forM is (fun i acc => do d <- rd l (f i); Ok (acc ++ [d])) acc = Ok (acc ++ r) /\
    length r = length is /\ forall k, nth_error r k = match nth_error is k with Some i => ix l (f i) | None => None end.
Proof.
  induction is as [|i is IH]; intros H acc; cbn [forM].
  - exists []. rewrite app_nil_r. split; auto. split; auto. intros k. destruct k; reflexivity.
  - destruct (rd_in l (f i) (H i (or_introl eq_refl))) as [d [R X]]. rewrite R. cbn [bind].
    destruct (IH ltac:(intros; apply H; right; auto) (acc ++ [d])) as [r [E [L N]]].
    exists (d :: r). rewrite E, <- app_assoc. split; [reflexivity|]. split; [simpl; lia|].
    intros [|k]; cbn [nth_error]; auto.
Qed.

Lemma nth_zrange a n k : (k < n)%nat -> nth_error (zrange a n) k = Some (a + Z.of_nat k).
Proof.
  revert a k; induction n as [|n IH]; intros a [|k] H; try lia; cbn [zrange nth_error].
  - f_equal; lia.
  - rewrite IH by lia. f_equal; lia.
Qed.

Lemma getRow_spec {A} (a : arr A) y : well_formed a -> 0 <= y < a_h a ->
  exists r, getRowData a y = Ok r /\ Z.of_nat (length r) = a_w a /\
    forall x, 0 <= x < a_w a -> nth_error r (Z.to_nat x) = cell a x y.
Proof.
  intros H Hy. unfold getRowData, read_range.
  destruct (Z.eq_dec (a_w a) 0) as [Ew|Ew].
  { rewrite Ew. exists []. split; [reflexivity|]. split; [reflexivity|]. lia. }
  pose proof (wf_w a H). destruct (xyToI_in a 0 y H ltac:(lia) Hy) as [E R].
  destruct (forM_collect (fun i => i) (a_data a) (zrange (xyToI a 0 y) (Z.to_nat (a_w a)))) with (acc := @nil A) as [r [Er [L N]]].
  { intros i Hi. apply zrange_In in Hi. rewrite E in Hi. rewrite (wf_len a H). nia. }
  exists r. split; [exact Er|]. split; [rewrite L, zrange_length; lia|].
  intros x Hx. rewrite N, nth_zrange by lia. rewrite cell_ix by auto. rewrite E. f_equal. lia.
Qed.

Lemma getCol_spec {A} (a : arr A) x : well_formed a -> 0 <= x < a_w a ->
  exists r, getColData a x = Ok r /\ Z.of_nat (length r) = a_h a /\
    forall y, 0 <= y < a_h a -> nth_error r (Z.to_nat y) = cell a x y.
Proof.
  intros H Hx. unfold getColData. pose proof (wf_h a H).
  destruct (forM_collect (fun y => xyToI a x y) (a_data a) (zrange 0 (Z.to_nat (a_h a)))) with (acc := @nil A) as [r [Er [L N]]].
  { intros i Hi. apply zr_In in Hi. destruct (xyToI_in a x i H Hx Hi) as [-> R]; exact R. }
  exists r. split; [exact Er|]. split; [rewrite L, zrange_length; lia|].
  intros y Hy. rewrite N, nth_zrange by lia. rewrite Z.add_0_l, Z2Nat.id by lia.
  rewrite cell_ix, xyToI_val by (auto using wf_dims). reflexivity.
Qed.
