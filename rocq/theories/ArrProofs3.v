From Coq Require Import ZArith List Lia Bool Permutation.
From Verif Require Import Base Res ArrModel ArrSpec ArrProofs.
Open Scope Z_scope.

Lemma forM_ext_map {I J S} (f : I -> J) (b1 : I -> S -> res S) (b2 : J -> S -> res S) (is : list I) :
  (forall i s, In i is -> b1 i s = b2 (f i) s) -> forall s, forM is b1 s = forM (map f is) b2 s.
Proof.
  induction is as [|i is IH]; intros H s; cbn [forM map]; auto.
  rewrite (H i s (or_introl eq_refl)). destruct (b2 (f i) s); cbn [bind]; auto.
  apply IH. intros j s' Hj. apply H. right; auto.
Qed.

Lemma rowmajor_In w h p : In p (rowmajor w h) <-> 0 <= snd p < w /\ 0 <= fst p < h.
Proof. destruct p as [y x]. unfold rowmajor. rewrite in_prod_iff, !zr_In. cbn. lia. Qed.
Lemma rowmajor_NoDup w h : NoDup (rowmajor w h).
Proof. apply list_prod_NoDup; apply zrange_NoDup. Qed.

Lemma NoDup_map_in {A B} (f : A -> B) (l : list A) :
  (forall a b, In a l -> In b l -> f a = f b -> a = b) -> NoDup l -> NoDup (map f l).
Proof.
  intros Hi H. induction H as [|a l Ha Hl IH]; cbn [map]; constructor.
  - rewrite in_map_iff. intros [b [E Hb]]. apply Hi in E; [subst; auto|right; auto|left; auto].
  - apply IH. intros x y Hx Hy. apply Hi; right; auto.
Qed.

Lemma memZ_map_iff {I} (f : I -> Z) (is : list I) j : memZ j (map f is) = true <-> exists i, In i is /\ f i = j.
Proof. rewrite memZ_iff, in_map_iff. firstorder. Qed.

(** ** flipVert *)
Lemma flipVert_spec {A} (a : arr A) : well_formed a ->
  exists b, flipVert a = Ok b /\ well_formed b /\ same_shape a b /\
    forall x y, 0 <= x < a_w a -> 0 <= y < a_h a -> cell b x y = cell a x (a_h a - 1 - y).
Proof.
  intros H. pose proof (wf_w a H) as Hw. pose proof (wf_h a H) as Hh. unfold flipVert. set (w := a_w a) in *. set (h := a_h a) in *.
  set (half := Z.quot h 2).
  assert (Hhalf : 2 * half <= h <= 2 * half + 1).
  { unfold half. rewrite Z.quot_div_nonneg by lia. pose proof (Z_div_mod_eq_full h 2). pose proof (Z.mod_pos_bound h 2). lia. }
  destruct (Z.eq_dec w 0) as [Ew|Ew].
  { unfold rowmajor. rewrite Ew. cbn [Z.to_nat zrange].
    assert (E0 : forall (l : list Z), list_prod l (@nil Z) = []) by (induction l; cbn; auto).
    rewrite E0. cbn [forM bind]. eexists. split; [reflexivity|]. split; [apply wf_with_data; auto|].
    split; [apply same_with_data|]. intros; lia. }
  set (sg := fun i => (h - 1 - i / w) * w + i mod w).
  assert (Sg : forall x y, 0 <= x < w -> sg (y * w + x) = (h - 1 - y) * w + x).
  { intros x y Hx. unfold sg. rewrite (Z.add_comm (y * w) x), Z.mod_add, Z.div_add by lia.
    rewrite Z.mod_small, Z.div_small by lia. lia. }
  rewrite (forM_ext_map (fun p => fst p * w + snd p) _ (fun i l => swp l i (sg i))).
  2:{ intros [y x] l Hp. apply rowmajor_In in Hp. cbn [fst snd] in *. rewrite Sg by lia.
      rewrite !xyToI_val by (try apply wf_dims; auto; fold w h; lia). reflexivity. }
  destruct (swaps_xor sg (map (fun p => fst p * w + snd p) (rowmajor w half)) (a_data a)) as [l [E [L X]]].
  { rewrite (wf_len a H). fold w h. intros i Hi. destruct (idx_split _ _ _ Hi) as [x [y [Hx [Hy ->]]]]; [lia|].
    rewrite Sg by auto. split; [apply idx_range; lia|]. rewrite Sg by auto. f_equal. lia. }
  { apply NoDup_map_in; [|apply rowmajor_NoDup]. intros [y x] [y' x'] Hp Hq E. apply rowmajor_In in Hp, Hq. cbn [fst snd] in *.
    apply idx_inj in E; [|lia|lia]. destruct E; subst; auto. }
  { intros i Hi. apply in_map_iff in Hi. destruct Hi as [[y x] [<- Hp]]. apply rowmajor_In in Hp. cbn [fst snd] in *.
    rewrite (wf_len a H). apply idx_range; fold w h; lia. }
  rewrite E. cbn [bind]. eexists. split; [reflexivity|]. split; [apply wf_with_data; auto|]. split; [apply same_with_data|].
  assert (Mem : forall x y, 0 <= x < w -> 0 <= y < h ->
    memZ (y * w + x) (map (fun p => fst p * w + snd p) (rowmajor w half)) = (y <? half)).
  { intros x y Hx Hy. apply eq_true_iff_eq. rewrite memZ_map_iff, Z.ltb_lt. split.
    - intros [[y' x'] [Hp E']]. apply rowmajor_In in Hp. cbn [fst snd] in *. apply idx_inj in E'; lia.
    - intros Hlt. exists (y, x). split; [apply rowmajor_In; cbn; lia|reflexivity]. }
  intros x y Hx Hy. rewrite !cell_ix by (cbn; fold w h; lia). cbn [a_data with_data a_w]. fold w h.
  rewrite X by (rewrite (wf_len a H); apply idx_range; auto). rewrite Sg by auto.
  rewrite !Mem by lia. destruct (Z.ltb_spec y half); destruct (Z.ltb_spec (h - 1 - y) half); cbn [xorb]; auto.
  - lia.
  - assert (y = h - 1 - y) by lia. congruence.
Qed.

Lemma arr_ext {A} (a b : arr A) : well_formed a -> well_formed b -> same_shape a b ->
  (forall x y, 0 <= x < a_w a -> 0 <= y < a_h a -> cell b x y = cell a x y) -> b = a.
Proof.
  intros Ha Hb (S1 & S2 & S3 & S4 & S5 & S6) C.
  assert (D : a_data b = a_data a).
  { apply ix_ext.
    - pose proof (wf_len a Ha). pose proof (wf_len b Hb). rewrite S1, S2 in *. lia.
    - intros i Hi. rewrite (wf_len b Hb), S1, S2 in Hi. pose proof (wf_w a Ha).
      destruct (idx_split _ _ _ Hi) as [x [y [Hx [Hy ->]]]]; [lia|].
      specialize (C x y Hx Hy). rewrite !cell_ix in C by lia. rewrite S1 in C. exact C. }
  destruct a, b; cbn in *; subst; reflexivity.
Qed.

Lemma flipVert_involutive {A} (a : arr A) : well_formed a -> (do b <- flipVert a; flipVert b) = Ok a.
Proof.
  intros H. destruct (flipVert_spec a H) as [b [E [W [S C]]]]. rewrite E. cbn [bind].
  destruct (flipVert_spec b W) as [c [E2 [W2 [S2 C2]]]]. rewrite E2. f_equal.
  apply arr_ext; auto; [eapply same_trans; eauto|]. destruct S as (S1 & S3 & _). intros x y Hx Hy.
  rewrite C2 by lia. rewrite C by lia. f_equal. lia.
Qed.

Lemma classic_range (i : Z) (n : nat) : 0 <= i < Z.of_nat n \/ ~ 0 <= i < Z.of_nat n.
Proof. lia. Qed.

(** ** flipHorz always leaves the allocation *)
Lemma flip_row_not_thrown {A} fuel : forall s e (l : list A),
  (exists l', flip_row fuel s e l = Ok l' /\ length l' = length l) \/ flip_row fuel s e l = Undef.
Proof.
  induction fuel as [|f IH]; intros s e l; cbn [flip_row]; [left; eauto|].
  destruct (s <? e); [|left; eauto].
  destruct (classic_range s (length l)) as [Hs|Hs].
  - destruct (classic_range e (length l)) as [He|He].
    + destruct (swp_in l s e Hs He) as [l1 [E [L _]]]. rewrite E. cbn [bind].
      destruct (IH (s + 1) (e - 1) l1) as [[l2 [E2 L2]]|E2]; [left; exists l2; split; auto; congruence|right; auto].
    + right. unfold swp. destruct (rd_in l s Hs) as [d [R _]]. rewrite R. cbn [bind]. rewrite rd_out by auto. reflexivity.
  - right. unfold swp. rewrite rd_out by auto. reflexivity.
Qed.

Lemma flipHorz_undefined {A} (a : arr A) : well_formed a -> 1 <= a_w a -> 1 <= a_h a -> flipHorz a = Undef.
Proof.
  intros H Hw Hh. unfold flipHorz.
  replace (Z.to_nat (a_h a)) with (Z.to_nat (a_h a - 1) + 1)%nat by lia.
  rewrite zrange_app, forM_app. cbn [zrange]. rewrite Z.add_0_l, Z2Nat.id by lia.
  set (body := fun y l => flip_row _ _ _ l).
  assert (P : forall ys (l : list A), length l = length (a_data a) ->
     (exists l', forM ys body l = Ok l' /\ length l' = length (a_data a)) \/ forM ys body l = Undef).
  { induction ys as [|y ys IH]; intros l L; cbn [forM]; [left; eauto|].
    destruct (flip_row_not_thrown (Z.to_nat (a_w a) + 1) (xyToI a 0 y) (xyToI a (a_w a) y) l) as [[l1 [E1 L1]]|E1];
      unfold body at 1 3; rewrite E1; cbn [bind]; [apply IH; congruence|right; auto]. }
  destruct (P (zrange 0 (Z.to_nat (a_h a - 1))) (a_data a) eq_refl) as [[l [E L]]|E]; rewrite E; cbn [bind]; [|reflexivity].
  cbn [forM]. unfold body.
  assert (E0 : xyToI a 0 (a_h a - 1) = (a_h a - 1) * a_w a).
  { rewrite xyToI_val by (try apply wf_dims; auto; lia). lia. }
  assert (E1 : xyToI a (a_w a) (a_h a - 1) = a_w a * a_h a).
  { unfold xyToI. destruct (wf_dims a H) as [D1 [D2 D3]]. pw.
    rewrite (w32_id (a_h a - 1)), (w32_id (a_w a)) by (pw; lia).
    rewrite w32_id; [lia|]. pw. nia. }
  rewrite E0, E1. replace (Z.to_nat (a_w a) + 1)%nat with (S (Z.to_nat (a_w a))) by lia. cbn [flip_row].
  destruct (Z.ltb_spec ((a_h a - 1) * a_w a) (a_w a * a_h a)); [|nia].
  unfold swp. pose proof (wf_len a H) as WL.
  destruct (rd_in l ((a_h a - 1) * a_w a)) as [d [R _]]; [rewrite L, WL; nia|]. rewrite R. cbn [bind].
  rewrite rd_out; [reflexivity|]. rewrite L, WL. lia.
Qed.

(** ** transpose *)
Lemma transpose_square {A} (a : arr A) : well_formed a -> a_w a = a_h a -> transpose a = Ok a.
Proof.
  intros H Hsq. pose proof (wf_w a H) as Hw. pose proof (wf_dims a H) as Hd. unfold transpose. set (w := a_w a) in *.
  symmetry in Hsq. rewrite Hsq.
  assert (AE : mkA w w (a_nodata a) (a_ndc a) (a_nshift a) (a_owned a) (a_data a) = a)
    by (destruct a; cbn in *; subst w; rewrite <- Hsq at 2; reflexivity).
  destruct (Z.eq_dec w 0) as [Ew|Ew].
  { assert (F : rowmajor w w = []) by (unfold rowmajor; rewrite Ew; reflexivity).
    rewrite F. cbn [forM bind]. rewrite AE. reflexivity. }
  set (sg := fun i => (i mod w) * w + i / w).
  assert (Sg : forall x y, 0 <= x < w -> sg (y * w + x) = x * w + y).
  { intros x y Hx. unfold sg. rewrite (Z.add_comm (y * w) x), Z.mod_add, Z.div_add by lia.
    rewrite Z.mod_small, Z.div_small by lia. lia. }
  rewrite (forM_ext_map (fun p => snd p * w + fst p) _ (fun i l => swp l i (sg i))).
  2:{ intros [y x] l Hp. apply rowmajor_In in Hp. cbn [fst snd] in *. rewrite Sg by lia.
      rewrite xyToI_val by (auto; fold w; lia). fold w. destruct Hd as [D1 [D2 D3]]. rewrite Hsq in *. f_equal.
      rewrite (w32_id x), (w32_id w), (w32_id y) by (pw; lia). apply w32_id. pw.
      pose proof (idx_range w w y x ltac:(lia) ltac:(lia)). lia. }
  assert (HL : Z.of_nat (length (a_data a)) = w * w) by (rewrite (wf_len a H); fold w; rewrite Hsq; reflexivity).
  destruct (swaps_xor sg (map (fun p => snd p * w + fst p) (rowmajor w w)) (a_data a)) as [l [E [L X]]].
  { rewrite HL. intros i Hi. destruct (idx_split _ _ _ Hi) as [x [y [Hx [Hy ->]]]]; [lia|].
    rewrite Sg by auto. split; [apply idx_range; lia|]. rewrite Sg by auto. f_equal. }
  { apply NoDup_map_in; [|apply rowmajor_NoDup]. intros [y x] [y' x'] Hp Hq E. apply rowmajor_In in Hp, Hq. cbn [fst snd] in *.
    apply idx_inj in E; [|lia|lia]. destruct E; subst; auto. }
  { intros i Hi. apply in_map_iff in Hi. destruct Hi as [[y x] [<- Hp]]. apply rowmajor_In in Hp. cbn [fst snd] in *.
    rewrite HL. apply idx_range; lia. }
  rewrite E. cbn [bind]. assert (El : l = a_data a).
  { apply ix_ext; auto. intros i Hi. rewrite L in Hi. rewrite X by auto. rewrite HL in Hi.
    destruct (idx_split _ _ _ Hi) as [x [y [Hx [Hy ->]]]]; [lia|]. rewrite Sg by auto.
    assert (M1 : memZ (y * w + x) (map (fun p => snd p * w + fst p) (rowmajor w w)) = true).
    { apply memZ_map_iff. exists (x, y). split; [apply rowmajor_In; cbn; lia|reflexivity]. }
    assert (M2 : memZ (x * w + y) (map (fun p => snd p * w + fst p) (rowmajor w w)) = true).
    { apply memZ_map_iff. exists (y, x). split; [apply rowmajor_In; cbn; lia|reflexivity]. }
    rewrite M1, M2. reflexivity. }
  rewrite El, AE. reflexivity.
Qed.

Lemma swp_same {A} (l : list A) i : 0 <= i < Z.of_nat (length l) -> swp l i i = Ok l.
Proof.
  intros H. destruct (swp_in l i i H H) as [l' [E [L X]]]. rewrite E. f_equal. apply ix_ext; auto.
  intros k Hk. rewrite X. destruct (Z.eqb_spec k i); congruence.
Qed.

Lemma forM_id {I S} (is : list I) (body : I -> S -> res S) s : (forall i, In i is -> body i s = Ok s) -> forM is body s = Ok s.
Proof. induction is as [|i is IH]; intros H; cbn [forM]; auto. rewrite H by (left; auto). cbn [bind]. apply IH. intros; apply H; right; auto. Qed.

Lemma transpose_line {A} (a : arr A) : well_formed a -> a_w a = 1 \/ a_h a = 1 ->
  exists b, transpose a = Ok b /\ a_w b = a_h a /\ a_h b = a_w a /\
    forall x y, 0 <= x < a_h a -> 0 <= y < a_w a -> cell b x y = cell a y x.
Proof.
  intros H H1. pose proof (wf_dims a H) as Hd. unfold transpose. rewrite forM_id.
  - cbn [bind]. eexists. split; [reflexivity|]. split; [reflexivity|]. split; [reflexivity|].
    intros x y Hx Hy. rewrite !cell_ix by (cbn; lia). cbn [a_data a_w]. f_equal.
    destruct H1 as [E|E]; rewrite E in *; [assert (y = 0) by lia|assert (x = 0) by lia]; subst; lia.
  - intros [y x] Hp. apply rowmajor_In in Hp. cbn [fst snd] in *.
    rewrite xyToI_val by (auto; lia). destruct Hd as [D1 [D2 D3]]. pw.
    assert (E : w32 (w32 x * w32 (a_h a) + w32 y) = y * a_w a + x).
    { rewrite (w32_id x), (w32_id (a_h a)), (w32_id y) by (pw; lia). rewrite w32_id.
      - destruct H1 as [E|E]; rewrite E in *; [assert (x = 0) by lia|assert (y = 0) by lia]; subst; lia.
      - pw. pose proof (idx_range (a_h a) (a_w a) y x ltac:(lia) ltac:(lia)). lia. }
    rewrite E. apply swp_same. rewrite (wf_len a H). apply idx_range; lia.
Qed.

Lemma swp_perm {A} (l l' : list A) i j : swp l i j = Ok l' -> Permutation l l'.
Proof.
  intros E. destruct (classic_range i (length l)) as [Hi|Hi]; [|unfold swp in E; rewrite rd_out in E by auto; discriminate].
  destruct (classic_range j (length l)) as [Hj|Hj].
  2:{ unfold swp in E. destruct (rd_in l i Hi) as [d [R _]]. rewrite R in E. cbn [bind] in E. rewrite rd_out in E by auto. discriminate. }
  destruct (swp_in l i j Hi Hj) as [l1 [E1 [L X]]]. rewrite E1 in E. inversion E; subst l1.
  apply Permutation_nth_error. split; [auto|].
  exists (fun k => if Nat.eqb k (Z.to_nat j) then Z.to_nat i else if Nat.eqb k (Z.to_nat i) then Z.to_nat j else k).
  split.
  - intros k k'. destruct (Nat.eqb_spec k (Z.to_nat j)); destruct (Nat.eqb_spec k' (Z.to_nat j));
      destruct (Nat.eqb_spec k (Z.to_nat i)); destruct (Nat.eqb_spec k' (Z.to_nat i)); intros; subst; congruence.
  - intros k. specialize (X (Z.of_nat k)). unfold ix in X.
    destruct (Z.ltb_spec (Z.of_nat k) 0); [lia|]. destruct (Z.ltb_spec i 0); [lia|]. destruct (Z.ltb_spec j 0); [lia|].
    rewrite !Nat2Z.id in X. rewrite X.
    destruct (Z.eqb_spec (Z.of_nat k) j); destruct (Nat.eqb_spec k (Z.to_nat j)); try lia; auto.
    destruct (Z.eqb_spec (Z.of_nat k) i); destruct (Nat.eqb_spec k (Z.to_nat i)); try lia; auto.
Qed.

Lemma transpose_perm {A} (a : arr A) : well_formed a ->
  exists b, transpose a = Ok b /\ a_w b = a_h a /\ a_h b = a_w a /\ a_nshift b = a_nshift a /\ Permutation (a_data a) (a_data b).
Proof.
  intros H. pose proof (wf_dims a H) as Hd. unfold transpose.
  destruct (forM_inv (fun _ l => Permutation (a_data a) l)
     (fun (p : Z * Z) l => swp l (w32 (w32 (snd p) * w32 (a_h a) + w32 (fst p))) (xyToI a (snd p) (fst p)))
     (rowmajor (a_w a) (a_h a))) with (s := a_data a) as [l [E P]].
  - intros done [y x] rest l Es P.
    assert (Hp : In (y, x) (rowmajor (a_w a) (a_h a))) by (rewrite Es; apply in_app_iff; right; left; auto).
    apply rowmajor_In in Hp. cbn [fst snd] in *.
    rewrite xyToI_val by (auto; lia). destruct Hd as [D1 [D2 D3]]. pw.
    assert (E : w32 (w32 x * w32 (a_h a) + w32 y) = x * a_h a + y).
    { rewrite (w32_id x), (w32_id (a_h a)), (w32_id y) by (pw; lia). apply w32_id. pw.
      pose proof (idx_range (a_h a) (a_w a) y x ltac:(lia) ltac:(lia)). lia. }
    rewrite E. pose proof (Permutation_length P) as PL. pose proof (wf_len a H) as WL.
    destruct (swp_in l (x * a_h a + y) (y * a_w a + x)) as [l' [E' [L' _]]].
    { rewrite <- PL, WL. pose proof (idx_range (a_h a) (a_w a) y x ltac:(lia) ltac:(lia)). lia. }
    { rewrite <- PL, WL. apply idx_range; lia. }
    exists l'. split; [exact E'|]. etransitivity; [exact P|]. eapply swp_perm; eauto.
  - reflexivity.
  - rewrite E. cbn [bind]. eexists. split; [reflexivity|]. auto.
Qed.

(** ** expand *)
Lemma forM_copies {A I} (f g : I -> Z) (old : list A) (is : list I) : forall l : list A,
  NoDup (map g is) ->
  (forall i, In i is -> 0 <= f i < Z.of_nat (length old) /\ 0 <= g i < Z.of_nat (length l)) ->
  exists l', forM is (fun i l => do d <- rd old (f i); wr l (g i) d) l = Ok l' /\ length l' = length l /\
    (forall i, In i is -> ix l' (g i) = ix old (f i)) /\
    (forall j, ~ In j (map g is) -> ix l' j = ix l j).
Proof.
  induction is as [|i is IH]; intros l ND H; cbn [forM map].
  - exists l. split; auto. split; auto. split; [intros i []|auto].
  - cbn [map] in ND. inversion ND as [|? ? Hni ND']; subst.
    destruct (H i (or_introl eq_refl)) as [Hf Hg]. destruct (rd_in old (f i) Hf) as [d [R Id]]. rewrite R. cbn [bind].
    destruct (wr_in l (g i) d Hg) as [l1 [W [L X]]]. rewrite W. cbn [bind].
    destruct (IH l1 ND') as [l2 [E [L2 [C1 C2]]]]; [intros k Hk; rewrite L; apply H; right; auto|].
    exists l2. split; [exact E|]. split; [congruence|]. split.
    + intros k [<-|Hk]; [|apply C1; auto]. rewrite C2 by auto. rewrite X, Z.eqb_refl. congruence.
    + intros j Hj. rewrite C2 by (intros C; apply Hj; right; auto). rewrite X.
      destruct (Z.eqb_spec j (g i)); [exfalso; apply Hj; left; auto|reflexivity].
Qed.

Lemma expand_spec {A} junk (a : arr A) nw nh v :
  (forall n, length (junk n) = n) -> well_formed a -> a_owned a = true ->
  a_w a <= nw <= 2 ^ 31 - 3 -> a_h a <= nh < 2 ^ 31 -> nw * nh < 2 ^ 31 ->
  exists b, expand junk a nw nh v = Ok b /\ well_formed b /\ a_w b = nw /\ a_h b = nh /\ a_nodata b = a_nodata a /\
    forall x y, 0 <= x < nw -> 0 <= y < nh ->
      cell b x y = if inGrid (a_w a) (a_h a) x y then cell a x y else Some v.
Proof.
  intros HJ H Ho Hnw Hnh Hs. pose proof (wf_w a H) as Hw. pose proof (wf_h a H) as Hh. unfold expand.
  rewrite (Z.mod_small (a_w a)), (Z.mod_small (a_h a)) by (pw; lia).
  destruct (Z.eqb_spec nw (a_w a)) as [E1|E1]; [destruct (Z.eqb_spec nh (a_h a)) as [E2|E2]|]; cbn [andb].
  { exists a. split; [reflexivity|]. split; [exact H|]. split; [auto|]. split; [auto|]. split; [auto|].
    intros x y Hx Hy. assert (G : inGrid (a_w a) (a_h a) x y = true) by (apply inGrid_iff; lia). rewrite G. reflexivity. }
  all: rewrite Ho; cbn [negb];
    destruct (Z.ltb_spec nw (a_w a)); [lia|]; destruct (Z.ltb_spec nh (a_h a)); [lia|];
    rewrite !s32_id by (pw; lia);
    (destruct (resize_spec junk (with_data a []) nw nh v HJ ltac:(lia) ltac:(lia) Hs ltac:(left; auto))
      as [b [E [W [Bw [Bh [Bn [_ [_ C]]]]]]]]; rewrite E; cbn [bind]; cbn in Bn;
    destruct (forM_copies (fun p : Z * Z => fst p * a_w a + snd p) (fun p => fst p * nw + snd p) (a_data a)
       (rowmajor (a_w a) (a_h a)) (a_data b)) as [l [El [L [C1 C2]]]];
    [ apply NoDup_map_in; [|apply rowmajor_NoDup]; intros [y x] [y' x'] Hp Hq Eq; apply rowmajor_In in Hp, Hq; cbn [fst snd] in *;
      apply idx_inj in Eq; [|lia|lia]; destruct Eq; subst; auto
    | intros [y x] Hp; apply rowmajor_In in Hp; cbn [fst snd] in *; rewrite (wf_len a H), (wf_len b W), Bw, Bh;
      split; apply idx_range; lia
    | rewrite El; cbn [bind]; eexists; split; [reflexivity|]; split; [apply wf_with_data; auto|];
      split; [exact Bw|]; split; [exact Bh|]; split; [exact Bn|];
      intros x y Hx Hy; specialize (C x y Hx Hy); rewrite cell_ix in C by lia; rewrite Bw in C;
      rewrite cell_ix by (cbn; lia); cbn [a_data with_data a_w]; rewrite Bw;
      destruct (inGrid (a_w a) (a_h a) x y) eqn:G;
      [ apply inGrid_iff in G; rewrite cell_ix by lia;
        apply (C1 (y, x)); apply rowmajor_In; cbn; lia
      | rewrite C2; [exact C|]; intros Hin; apply in_map_iff in Hin; destruct Hin as [[y' x'] [Eq Hp]];
        apply rowmajor_In in Hp; cbn [fst snd] in *; apply idx_inj in Eq; [|lia|lia];
        destruct Eq; subst; rewrite <- not_true_iff_false, inGrid_iff in G; apply G; lia ] ]).
Qed.

Lemma expand_throws {A} junk (a : arr A) nw nh v : well_formed a -> 0 <= nw -> 0 <= nh ->
  nw < a_w a \/ nh < a_h a -> expand junk a nw nh v = Thrown.
Proof.
  intros H Hnw Hnh Hlt. pose proof (wf_w a H) as Hw. pose proof (wf_h a H) as Hh. unfold expand.
  rewrite (Z.mod_small (a_w a)), (Z.mod_small (a_h a)) by (pw; lia).
  destruct (Z.eqb_spec nw (a_w a)); destruct (Z.eqb_spec nh (a_h a)); cbn [andb]; try lia;
    destruct (a_owned a); cbn [negb]; auto; destruct (Z.ltb_spec nw (a_w a)); auto; destruct (Z.ltb_spec nh (a_h a)); auto; lia.
Qed.

Lemma expand_wrapped {A} junk (a : arr A) nw nh v : well_formed a -> a_owned a = false -> 0 <= nw -> 0 <= nh ->
  expand junk a nw nh v = if (nw =? a_w a) && (nh =? a_h a) then Ok a else Thrown.
Proof.
  intros H Ho Hnw Hnh. pose proof (wf_w a H) as Hw. pose proof (wf_h a H) as Hh. unfold expand.
  rewrite (Z.mod_small (a_w a)), (Z.mod_small (a_h a)) by (pw; lia). rewrite Ho. reflexivity.
Qed.
