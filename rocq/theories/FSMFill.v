(** FillDepressions: the arithmetic of the water level, and what a completed call has done. *)
From Coq Require Import ZArith List Lia Bool Permutation QArith Qcanon Lqa.
From Verif Require Import Base Res QcTac Kahn RasterSpec RasterFacts FlowModel FlowSpec FlowProofs FlatsSpec FlatsProofs
  DHModel DHSpec FSMModel FSMSpec FSMPits FSMPits2.
Open Scope Z_scope.

Lemma tol_eq : fp_error = tolerance. Proof. reflexivity. Qed.
Lemma tol_pos : (0 < tolerance)%Qc. Proof. reflexivity. Qed.
Lemma tol_one : (tolerance < 1)%Qc. Proof. reflexivity. Qed.
Lemma fp_eqP a b : reflect (a - b < tolerance /\ b - a < tolerance)%Qc (fp_eq a b).
Proof.
  unfold fp_eq. rewrite tol_eq. destruct (qltP (a - b) tolerance); cbn [andb]; [|constructor; tauto].
  destruct (qltP (b - a) tolerance); constructor; tauto.
Qed.
Lemma fp_leP a b : reflect (a < b + tolerance)%Qc (fp_le a b).
Proof.
  unfold fp_le. pose proof tol_pos. destruct (qltP a b); cbn [orb]; [constructor; qlra|].
  destruct (fp_eqP a b) as [[X Y]|X]; constructor; [qlra|]. intros Z. apply X. split; qlra.
Qed.
Lemma fp_geP a b : reflect (b < a + tolerance)%Qc (fp_ge a b).
Proof.
  unfold fp_ge. pose proof tol_pos. destruct (qltP b a); cbn [orb]; [constructor; qlra|].
  destruct (fp_eqP a b) as [[X Y]|X]; constructor; [qlra|]. intros Z. apply X. split; qlra.
Qed.
Lemma zq_1 : zq 1 = 1%Qc. Proof. reflexivity. Qed.
Lemma zq_near a b : (zq a < zq b + tolerance)%Qc -> a <= b.
Proof.
  intros H. destruct (Z_le_gt_dec a b); auto. assert (b + 1 <= a) by lia. apply zq_le in H0. rewrite zq_add, zq_1 in H0.
  pose proof tol_one. exfalso. assert (zq b + 1 < zq b + tolerance)%Qc by (eapply Qcle_lt_trans; eauto). clear H H0. qlra.
Qed.
Lemma zq_near_eq a b : (zq a - zq b < tolerance -> zq b - zq a < tolerance -> a = b)%Qc.
Proof. intros X Y. apply Z.le_antisymm; apply zq_near; qlra. Qed.

Lemma assert_Ok b u : assert_ b = Ok u -> b = true.
Proof. destruct b; cbn; [auto|discriminate]. Qed.
Lemma times_S n q : times (S n) q = (times n q + q)%Qc.
Proof. unfold times. rewrite Nat2Z.inj_succ. unfold Z.succ. rewrite zq_add, zq_1. ring. Qed.
Lemma times_0 q : times 0 q = 0%Qc.
Proof. unfold times. change (zq (Z.of_nat 0)) with 0%Qc. ring. Qed.
Lemma times_nonneg n q : (0 <= q -> 0 <= times n q)%Qc.
Proof. intros H. induction n; [rewrite times_0; apply Qcle_refl|]. rewrite times_S. qlra. Qed.
Lemma times_pos n q : n <> 0%nat -> (0 < q -> 0 < times n q)%Qc.
Proof. intros N H. destruct n; [congruence|]. rewrite times_S. pose proof (times_nonneg n q ltac:(qlra)). qlra. Qed.
Lemma times_mono n a b : (a <= b -> times n a <= times n b)%Qc.
Proof. intros H. induction n; [rewrite !times_0; apply Qcle_refl|]. rewrite !times_S. qlra. Qed.
Lemma times_lt n a b : n <> 0%nat -> (a < b -> times n a < times n b)%Qc.
Proof. intros N H. destruct n; [congruence|]. rewrite !times_S. pose proof (times_mono n a b ltac:(qlra)). qlra. Qed.
Lemma times_cancel_le n a b : n <> 0%nat -> (times n a <= times n b -> a <= b)%Qc.
Proof. intros N H. destruct (qltP b a); [|qlra]. pose proof (times_lt n b a N q). qlra. Qed.
Lemma times_cancel_lt n a b : (times n a < times n b -> a < b)%Qc.
Proof. intros H. destruct (qltP a b); auto. pose proof (times_mono n b a ltac:(qlra)). qlra. Qed.
Lemma times_add n a b : times n (a + b) = (times n a + times n b)%Qc.
Proof. unfold times. ring. Qed.
Lemma times_sub n a b : times n (a - b) = (times n a - times n b)%Qc.
Proof. unfold times. ring. Qed.
Lemma times_plus n m q : times (n + m) q = (times n q + times m q)%Qc.
Proof. unfold times. rewrite Nat2Z.inj_add, zq_add. ring. Qed.
Lemma times_zq n z : times n (zq z) = zq (Z.of_nat n * z).
Proof. unfold times. rewrite zq_mul. reflexivity. Qed.
Lemma times_div n q : n <> 0%nat -> times n (q / zq (Z.of_nat n)) = q.
Proof.
  intros N. unfold times. rewrite Qcmult_div_r; auto. intros E. rewrite <- zq_0 in E. apply zq_inj in E. lia.
Qed.

(** the water under level [L] in [n] cells of total elevation [E] (cells above [L] counting negative) *)
Definition under_level (n : nat) (E : Z) (L : Qc) : Qc := (times n L - zq E)%Qc.
Lemma under_zq n E z : under_level n E (zq z) = zq (DepressionVolume z n E).
Proof. unfold under_level, DepressionVolume. rewrite times_zq, zq_sub. reflexivity. Qed.

Lemma dwl_spec sw vol sill n E sw' lev : (0 <= vol)%Qc -> DetermineWaterLevel sw vol sill n E = Ok (sw', lev) ->
  (sw <= sw')%Qc /\ (sw' <= 0 \/ sw' = sw)%Qc /\ (lev <= zq sill)%Qc /\
  ((lev = zq sill /\ within (times (S n) tolerance) vol (under_level n E lev + (sw' - sw))) \/
   (sw' = sw /\ under_level n E lev = vol /\ n <> 0%nat /\ (lev + tolerance <= zq sill)%Qc)).
Proof.
  intros HV. unfold DetermineWaterLevel. set (cur := zq (DepressionVolume sill n E)). rewrite times_S. pose proof tol_pos as TP.
  pose proof (times_nonneg n tolerance ltac:(qlra)) as TN.
  assert (UC : under_level n E (zq sill) = cur) by apply under_zq.
  destruct (qltP cur vol) as [GT|LE].
  - destruct (fp_eqP vol cur) as [[N1 N2]|NN].
    + destruct (fp_le cur (cur - sw)); [|discriminate]. cbn [assert_ bind].
      destruct (qleP 0 (cur - cur)) as [A|]; [|discriminate]. cbn [assert_ bind].
      destruct (qleP (cur - cur) (- sw)) as [B|]; [|discriminate]. cbn [assert_ bind]. intros K. injection K as <- <-.
      split; [qlra|]. split; [left; qlra|]. split; [apply Qcle_refl|]. left. split; auto. unfold within. rewrite UC. split; qlra.
    + destruct (fp_le vol (cur - sw)); [|discriminate]. cbn [assert_ bind].
      destruct (qleP 0 (vol - cur)) as [A|]; [|discriminate]. cbn [assert_ bind].
      destruct (qleP (vol - cur) (- sw)) as [B|]; [|discriminate]. cbn [assert_ bind]. intros K. injection K as <- <-.
      split; [qlra|]. split; [left; qlra|]. split; [apply Qcle_refl|]. left. split; auto. unfold within. rewrite UC. split; qlra.
  - destruct (fp_eqP vol cur) as [[N1 N2]|NN].
    + intros K. injection K as <- <-. split; [apply Qcle_refl|]. split; [right; reflexivity|]. split; [apply Qcle_refl|]. left. split; auto. unfold within. rewrite UC. split; qlra.
    + destruct (Nat.eqb_spec n 0) as [->|N0]; [discriminate|]. set (nom := ((vol + zq E) / zq (Z.of_nat n))%Qc).
      assert (TN2 : times n nom = (vol + zq E)%Qc) by (apply times_div; auto).
      assert (TS : times n (zq sill) = (cur + zq E)%Qc) by (rewrite <- UC; unfold under_level; ring).
      assert (NL : (nom < zq sill)%Qc) by (apply (times_cancel_lt n); rewrite TN2, TS; destruct (Qc_eq_dec vol cur) as [->|]; [exfalso; apply NN; split; qlra|]; apply Qcnot_lt_le in LE; apply Qcle_lt_or_eq in LE; destruct LE; [qlra|contradiction]).
      destruct (fp_eqP nom (zq sill)) as [[M1 M2]|MM]; intros K; injection K as <- <-.
      * split; [apply Qcle_refl|]. split; [right; reflexivity|]. split; [apply Qcle_refl|]. left. split; auto. unfold within.
        assert (D : (times n (zq sill) - times n nom <= times n tolerance)%Qc) by (rewrite <- times_sub; apply times_mono; qlra).
        rewrite UC. rewrite TN2, TS in D. apply Qcnot_lt_le in LE. split; qlra.
      * split; [apply Qcle_refl|]. split; [right; reflexivity|]. split; [qlra|]. right. split; auto. unfold under_level. rewrite TN2.
        split; [ring|]. split; auto. destruct (qltP (zq sill) (nom + tolerance)); [|qlra]. exfalso. apply MM. split; qlra.
Qed.

Lemma cset_same {B} (f : cellt -> B) c b : cset f c b c = b.
Proof. unfold cset, kupd. destruct (ceqb_spec c c); congruence. Qed.
Lemma cset_other {B} (f : cellt -> B) c b x : x <> c -> cset f c b x = f x.
Proof. intros N. unfold cset, kupd. destruct (ceqb_spec x c); congruence. Qed.

Lemma backfill_spec w h dem level : forall A wt wt', NoDup A -> (forall a, In a A -> inside w h a) ->
  BackfillDepression w h dem level A wt = Ok wt' ->
  (forall a, In a A -> wt a = 0%Qc /\ (zq (elev_at dem a) < level + tolerance)%Qc /\ wt' a = qmax 0 (level - zq (elev_at dem a))) /\
  (forall c, ~ In c A -> wt' c = wt c).
Proof.
  unfold BackfillDepression. induction A as [|a A IH]; intros wt wt' ND HI; cbn [forM]; [intros K; injection K as <-; split; [intros a []|auto]|].
  inversion ND as [|a0 A0 NI ND']; subst. rewrite (gat_in w h dem a) by (apply HI; left; auto).
  destruct (qeqP (wt a) 0) as [W0|]; [|discriminate]. cbn [assert_ bind]. fold (elev_at dem a).
  intros K. assert (LT : (zq (elev_at dem a) < level + tolerance)%Qc).
  { pose proof tol_pos. destruct (qltP level (zq (elev_at dem a))); [|qlra]. destruct (fp_geP level (zq (elev_at dem a))); [auto|discriminate]. }
  assert (K' : forM A (fun (c : cellt) (wt0 : cellt -> Qc) => do _ <- assert_ (qeq (wt0 c) 0); do e <- gat w h dem (fst c) (snd c); do _ <- (if qlt level (zq e) then assert_ (fp_ge level (zq e)) else Ok tt); Ok (cset wt0 c (qmax 0 (level - zq e)))) (cset wt a (qmax 0 (level - zq (elev_at dem a)))) = Ok wt').
  { destruct (qlt level (zq (elev_at dem a))); [destruct (fp_ge level (zq (elev_at dem a))); [exact K|discriminate]|exact K]. }
  clear K. destruct (IH _ _ ND' ltac:(intros; apply HI; right; auto) K') as [I1 I2]. split.
  - intros b [->|Hb].
    + split; [auto|]. split; [auto|]. rewrite I2 by auto. apply cset_same.
    + destruct (I1 b Hb) as [J1 [J2 J3]]. rewrite cset_other in J1 by congruence. auto.
  - intros c Hc. rewrite I2 by (intros X; apply Hc; right; auto). apply cset_other. intros ->. apply Hc. left; auto.
Qed.

Lemma backfill_ok w h dem level : forall A wt, NoDup A -> (forall a, In a A -> inside w h a) ->
  (forall a, In a A -> wt a = 0%Qc /\ (zq (elev_at dem a) <= level)%Qc) ->
  exists wt', BackfillDepression w h dem level A wt = Ok wt'.
Proof.
  unfold BackfillDepression. induction A as [|a A IH]; intros wt ND HI HA; cbn [forM]; [eauto|].
  inversion ND as [|a0 A0 NI ND']; subst. rewrite (gat_in w h dem a) by (apply HI; left; auto).
  destruct (HA a (or_introl eq_refl)) as [W0 L0]. destruct (qeqP (wt a) 0); [|contradiction]. cbn [assert_ bind]. fold (elev_at dem a).
  destruct (qltP level (zq (elev_at dem a))); [exfalso; qlra|]. cbn [bind]. apply IH; auto.
  - intros; apply HI; right; auto.
  - intros b Hb. rewrite cset_other by congruence. apply HA. right; auto.
Qed.

(** sums of depths *)
Lemma under_sum dem L : forall A, under_level (length A) (zsum (map (elev_at dem) A)) L = qsum (map (fun a => L - zq (elev_at dem a))%Qc A).
Proof.
  unfold under_level. induction A as [|a A IH]; cbn [length map]; unfold zsum, qsum in *; cbn [fold_right].
  - rewrite times_0, zq_0. ring.
  - rewrite times_S, zq_add, <- IH. ring.
Qed.
Lemma qsum_between (f g : cell -> Qc) d : forall A, (forall a, In a A -> f a <= g a /\ g a <= f a + d)%Qc ->
  (qsum (map f A) <= qsum (map g A) /\ qsum (map g A) <= qsum (map f A) + times (length A) d)%Qc.
Proof.
  induction A as [|a A IH]; intros H; cbn [length map]; unfold qsum in *; cbn [fold_right].
  - rewrite times_0. split; qlra.
  - rewrite times_S. destruct (H a (or_introl eq_refl)). destruct IH; [intros; apply H; right; auto|]. split; qlra.
Qed.
Lemma qsum_ext_in (f g : cell -> Qc) A : (forall a, In a A -> f a = g a) -> qsum (map f A) = qsum (map g A).
Proof. intros H. f_equal. apply map_ext_in, H. Qed.

(** a list without duplicates, split by a sublist *)
Lemma split_incl {B} : forall (A R : list B), NoDup A -> incl A R -> exists rest, Permutation R (A ++ rest).
Proof.
  induction A as [|a A IH]; intros R ND HI; [exists R; reflexivity|]. inversion ND; subst.
  assert (HaR : In a R) by (apply HI; left; auto). apply in_split in HaR. destruct HaR as [l1 [l2 ->]].
  destruct (IH (l1 ++ l2)) as [rest P]; auto.
  - intros x Hx. assert (In x (l1 ++ a :: l2)) by (apply HI; right; auto). rewrite in_app_iff in *. cbn in H. destruct H as [|[->|]]; auto. contradiction.
  - exists rest. rewrite <- Permutation_middle. rewrite P. reflexivity.
Qed.
Lemma split_rest {B} (A R rest : list B) : NoDup R -> Permutation R (A ++ rest) -> forall x, In x rest <-> In x R /\ ~ In x A.
Proof.
  intros ND P x. assert (N2 : NoDup (A ++ rest)) by (eapply Permutation_NoDup; eauto). split.
  - intros H. split; [rewrite P; apply in_or_app; auto|]. intros Ha.
    apply in_split in H. destruct H as [r1 [r2 ->]]. rewrite app_assoc in N2. apply NoDup_remove_2 in N2. apply N2. rewrite !in_app_iff. auto.
  - intros [H1 H2]. rewrite P in H1. apply in_app_or in H1. tauto.
Qed.
