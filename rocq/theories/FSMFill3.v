(** FillDepressions completes on a basin and fills it to a level. *)
From Coq Require Import ZArith List Lia Bool Permutation QArith Qcanon Lqa.
From Verif Require Import Base Res QcTac Kahn RasterSpec RasterFacts FlowModel FlowSpec FlowProofs FlatsSpec FlatsProofs
  DHModel DHSpec FSMModel FSMSpec FSMPits FSMPits2 FSMFill FSMFill2.
Open Scope Z_scope.

(** ** sums over parts of a basin *)
Lemma zsum_perm l l' : Permutation l l' -> zsum l = zsum l'.
Proof. intros P. induction P; unfold zsum in *; cbn [fold_right]; lia. Qed.
Lemma zsum_app l l' : zsum (l ++ l') = zsum l + zsum l'.
Proof. unfold zsum. induction l as [|a l IH]; cbn [app fold_right]; lia. Qed.
Lemma zsum_nonneg (f : cell -> Z) l : (forall c, In c l -> 0 <= f c) -> 0 <= zsum (map f l).
Proof.
  induction l as [|a l IH]; intros H; unfold zsum in *; cbn [map fold_right]; [lia|].
  assert (0 <= f a) by (apply H; left; auto). assert (0 <= fold_right Z.add 0 (map f l)) by (apply IH; intros; apply H; right; auto). lia.
Qed.
Lemma zsum_mono (f g : cell -> Z) l : (forall c, In c l -> f c <= g c) -> zsum (map f l) <= zsum (map g l).
Proof.
  induction l as [|a l IH]; intros H; unfold zsum in *; cbn [map fold_right]; [lia|].
  assert (f a <= g a) by (apply H; left; auto). assert (fold_right Z.add 0 (map f l) <= fold_right Z.add 0 (map g l)) by (apply IH; intros; apply H; right; auto). lia.
Qed.
Lemma zsum_incl (f : cell -> Z) A R : NoDup A -> incl A R -> NoDup R -> (forall c, In c R -> ~ In c A -> 0 <= f c) ->
  zsum (map f A) <= zsum (map f R).
Proof.
  intros NA HI NR H. destruct (split_incl A R NA HI) as [rest P]. rewrite (zsum_perm _ _ (Permutation_map f P)), map_app, zsum_app.
  enough (0 <= zsum (map f rest)) by lia. apply zsum_nonneg. intros c Hc. apply (split_rest _ _ _ NR P) in Hc. destruct Hc. auto.
Qed.
Lemma zsum_incl_eq (f : cell -> Z) A R : NoDup A -> incl A R -> NoDup R -> (forall c, In c R -> ~ In c A -> f c = 0) ->
  zsum (map f A) = zsum (map f R).
Proof.
  intros NA HI NR H. destruct (split_incl A R NA HI) as [rest P]. rewrite (zsum_perm _ _ (Permutation_map f P)), map_app, zsum_app.
  enough (zsum (map f rest) = 0) by lia.
  assert (G : forall c, In c rest -> f c = 0) by (intros c Hc; apply (split_rest _ _ _ NR P) in Hc; destruct Hc; auto).
  clear -G. induction rest as [|a l IH]; [reflexivity|]. unfold zsum in *. cbn [map fold_right]. rewrite IH by (intros; apply G; right; auto). rewrite (G a) by (left; auto). lia.
Qed.
Lemma depvol_sum dem z : forall A, DepressionVolume z (length A) (zsum (map (elev_at dem) A)) = zsum (map (fun a => z - elev_at dem a) A).
Proof.
  unfold DepressionVolume. induction A as [|a A IH]; unfold zsum in *; cbn [length map fold_right]; [lia|]. lia.
Qed.
Lemma qsum_incl (f : cell -> Qc) A R : NoDup A -> incl A R -> NoDup R -> (forall c, In c R -> ~ In c A -> (f c <= 0)%Qc) ->
  (qsum (map f R) <= qsum (map f A))%Qc.
Proof.
  intros NA HI NR H. destruct (split_incl A R NA HI) as [rest P]. rewrite (qsum_perm _ _ (Permutation_map f P)), map_app, qsum_app.
  assert (G : forall c, In c rest -> (f c <= 0)%Qc) by (intros c Hc; apply (split_rest _ _ _ NR P) in Hc; destruct Hc; auto).
  enough (qsum (map f rest) <= 0)%Qc by qlra. clear -G.
  induction rest as [|a l IH]; unfold qsum in *; cbn [map fold_right]; [apply Qcle_refl|].
  assert (f a <= 0)%Qc by (apply G; left; auto). assert (fold_right Qcplus 0 (map f l) <= 0)%Qc by (apply IH; intros; apply G; right; auto). qlra.
Qed.
Lemma millionths_add a b : millionths a -> millionths b -> millionths (a + b).
Proof. intros [k ->] [m ->]. exists (k + m). rewrite zq_add. ring. Qed.
Lemma millionths_sub a b : millionths a -> millionths b -> millionths (a - b).
Proof. intros [k ->] [m ->]. exists (k - m). rewrite zq_sub. ring. Qed.
Lemma millionths_zq z : millionths (zq z).
Proof. exists (z * 1000000). rewrite zq_mul. apply qc_eq. rewrite !qc_mul, !qc_zq. cbn. field. Qed.
Lemma millionths_lt a : millionths a -> (a < tolerance)%Qc -> (a <= 0)%Qc.
Proof.
  intros [k ->] H. destruct (Z_le_gt_dec k 0) as [L|L].
  - assert (zq k <= 0)%Qc by (rewrite <- zq_0; apply zq_le; auto). pose proof tol_pos.
    apply Qcopp_le_compat in H0. 
    assert (X : (0 * tolerance <= (- zq k) * tolerance)%Qc) by (apply Qcmult_le_compat_r; [qlra|qlra]).
    replace (0 * tolerance)%Qc with 0%Qc in X by ring. replace (- zq k * tolerance)%Qc with (- (zq k * tolerance))%Qc in X by ring. qlra.
  - exfalso. assert (1 <= zq k)%Qc by (rewrite <- zq_1; apply zq_le; lia). pose proof tol_pos.
    assert (X : (1 * tolerance <= zq k * tolerance)%Qc) by (apply Qcmult_le_compat_r; [auto|qlra]).
    replace (1 * tolerance)%Qc with tolerance in X by ring. qlra.
Qed.

Lemma cell_dec (a b : cell) : {a = b} + {a <> b}.
Proof. decide equality; apply Z.eq_dec. Defined.
Lemma filter_le {A} (f : A -> bool) l : (length (filter f l) <= length l)%nat.
Proof. induction l as [|a l IH]; cbn; [lia|]. destruct (f a); cbn; lia. Qed.

Section Complete.
  Variables (w h : Z) (dem lab : grid Z) (labels : list Z) (pit out : cell) (wtd0 : cell -> Qc) (vol0 : Qc) (sad : Z) (R : list cell).
  Notation e c := (elev_at dem c).
  Hypothesis BA : basin w h dem lab labels pit out sad R.
  Hypothesis Dry : forall c, In c R \/ c = out -> (wtd0 c <= 0)%Qc.
  Hypothesis V0 : (0 <= vol0)%Qc.
  Hypothesis Room : (vol0 <= zq (depth_sum dem (e out) R))%Qc.
  Hypothesis Enough : reaches_level dem out sad R wtd0 vol0.
  Hypothesis Exact : measured out R wtd0 vol0.

  Local Notation core := (core w h dem lab labels pit out wtd0 vol0).
  Local Notation linv := (linv w h dem lab labels pit out wtd0 vol0).
  Local Notation popped := (popped w h dem lab labels out).
  Local Notation good := (good w h dem lab labels out).
  Notation vs := (volume_under dem sad R).

  Lemma b_pit : in_dep w h lab labels pit. Proof. apply (ba_pit _ _ _ _ _ _ _ _ _ BA). Qed.
  Lemma b_out : inside w h out. Proof. apply (ba_out _ _ _ _ _ _ _ _ _ BA). Qed.
  Lemma b_sad : e pit <= sad <= e out.
  Proof. split; [apply (ba_pit _ _ _ _ _ _ _ _ _ BA)|apply (ba_out _ _ _ _ _ _ _ _ _ BA)]. Qed.
  Lemma b_low : e pit <= e out. Proof. pose proof b_sad. lia. Qed.
  Lemma R_nd : NoDup R. Proof. apply (ba_cells _ _ _ _ _ _ _ _ _ BA). Qed.
  Lemma R_iff c : In c R <-> in_dep w h lab labels c /\ e c <= e out. Proof. apply (ba_cells _ _ _ _ _ _ _ _ _ BA). Qed.
  Lemma good_R c : good c -> c <> out -> In c R.
  Proof. intros [G1 [G2 G3]] N. apply R_iff. split; [split; auto|exact G3]. destruct G2; [auto|contradiction]. Qed.
  Lemma R_good c : In c R -> good c.
  Proof. intros H. apply R_iff in H. destruct H as [[H1 H2] H3]. split; auto. Qed.
  Lemma vs_nonneg : 0 <= vs. Proof. apply zsum_nonneg. intros. lia. Qed.

  Definition sorted (s : lstate) : Prop := forall l1 a l2, l_aff s = l1 ++ a :: l2 -> sad < e a ->
    forall d, In d R -> d <> out -> e d < e a -> In d l1.
  Definition linv2 (s : lstate) : Prop := linv s /\ sorted s /\ (zq vs <= l_vol s)%Qc.

  Lemma aff_nd s : core s -> NoDup (l_aff s).
  Proof.
    intros C. pose proof (co_nd _ _ _ _ _ _ _ _ _ _ C) as ND. revert ND. generalize (filter (nout out) (qcells s)). induction (l_aff s) as [|a A IH]; intros f H; [constructor|].
    inversion H; subst. constructor; [|eapply IH; eauto]. intros X. apply H2. apply in_or_app. auto.
  Qed.
  Lemma aff_R s : core s -> incl (l_aff s) R.
  Proof. intros C a Ha. destruct (co_aff _ _ _ _ _ _ _ _ _ _ C a Ha) as [G [N _]]. apply good_R; auto. Qed.
  Lemma aff_out s : core s -> ~ In out (l_aff s).
  Proof. intros C Ha. destruct (co_aff _ _ _ _ _ _ _ _ _ _ C out Ha) as [G [N _]]. congruence. Qed.
  Lemma cur_sum s z : core s -> DepressionVolume z (length (l_aff s)) (l_total s) = zsum (map (fun a => z - e a) (l_aff s)).
  Proof. intros C. rewrite (co_total _ _ _ _ _ _ _ _ _ _ C). apply depvol_sum. Qed.

  (** everything below the cell taken off the queue is flooded already *)
  Lemma below_done s c s1 : linv s -> popped s c s1 -> sad < e c -> forall d, In d R -> d <> out -> e d < e c -> In d (l_aff s).
  Proof.
    intros [C [CL _]] P Hc d Hd Nd Ld. destruct (po_good _ _ _ _ _ _ _ _ _ P) as [_ [_ Lc]].
    assert (J : joined w h dem lab labels (e c - 1) pit d).
    { apply (ba_joined _ _ _ _ _ _ _ _ _ BA); [lia|apply R_iff; auto|lia]. }
    assert (K : forall r, e r <= e c - 1 -> l_seen s r = true -> In r (l_aff s)).
    { intros r Lr Sr. destruct (co_seen _ _ _ _ _ _ _ _ _ _ C r Sr) as [|[X| ->]]; auto; [|lia].
      apply (po_min _ _ _ _ _ _ _ _ _ P) in X. lia. }
    clear Hd Nd Ld. induction J as [|q r J IH A B L].
    - apply K; [lia|apply (co_pit _ _ _ _ _ _ _ _ _ _ C)].
    - apply K; auto. apply (CL q IH r A). destruct B. split; auto. split; auto. lia.
  Qed.
  Lemma aff_below s c s1 : linv2 s -> popped s c s1 -> forall a, In a (l_aff s) -> e a <= Z.max sad (e c).
  Proof.
    intros [[C _] [SO _]] P a Ha. destruct (Z_le_gt_dec (e a) (Z.max sad (e c))); auto. exfalso.
    destruct (co_aff _ _ _ _ _ _ _ _ _ _ C a Ha) as [[_ [_ La]] [Na _]].
    assert (c <> out) by (intros ->; lia). apply in_split in Ha. destruct Ha as [l1 [l2 E]].
    assert (In c l1) by (eapply SO; eauto; [lia|apply good_R; auto; apply (po_good _ _ _ _ _ _ _ _ _ P)|lia]).
    destruct (po_fresh _ _ _ _ _ _ _ _ _ P H) as [X _]. apply X. rewrite E. apply in_or_app. auto.
  Qed.
  Lemma wtd_cur s c : linv s -> popped s c (s) \/ True -> ~ In c (l_aff s) -> l_wtd s c = wtd0 c.
  Proof. intros [C _] _ N. apply (co_wtd _ _ _ _ _ _ _ _ _ _ C). exact N. Qed.
  Lemma fresh s c s1 : linv s -> popped s c s1 -> ~ In c (l_aff s).
  Proof.
    intros [C _] P. destruct (ceqb_spec c out) as [->|N]; [apply aff_out; auto|]. apply (po_fresh _ _ _ _ _ _ _ _ _ P N).
  Qed.
  Lemma vol_enough A c : reaches_level dem out sad R wtd0 vol0 -> ~ (forall c, In c R -> sad <= e c) ->
    NoDup A -> incl A R -> (forall a, In a A -> e a <= sad) -> In c R -> ~ In c A -> e c <= sad ->
    (zq vs <= vol0 + qsum (map wtd0 A) + wtd0 c)%Qc.
  Proof.
    intros [F|[E _]] NF NA IA LA HcR HcA Lc; [contradiction|].
    assert (Q : (qsum (map wtd0 (filter (fun c => e c <=? sad) R)) <= qsum (map wtd0 (c :: A)))%Qc).
    { apply qsum_incl.
      - constructor; auto.
      - intros x [<-|Hx]; apply filter_In; (split; [auto|apply Z.leb_le; auto]).
      - apply NoDup_filter, R_nd.
      - intros x Hx _. apply filter_In in Hx. apply Dry. left. apply Hx. }
    unfold qsum in Q at 2. cbn [map fold_right] in Q. fold (qsum (map wtd0 A)) in Q. qlra.
  Qed.
  Lemma flat_dec : (forall c, In c R -> sad <= e c) \/ ~ (forall c, In c R -> sad <= e c).
  Proof.
    destruct (forallb (fun c => sad <=? e c) R) eqn:F.
    - left. intros c Hc. rewrite forallb_forall in F. specialize (F c Hc). apply Z.leb_le. auto.
    - right. intros H. assert (forallb (fun c => sad <=? e c) R = true) by (apply forallb_forall; intros c Hc; apply Z.leb_le; auto). congruence.
  Qed.
  Lemma flat_vs : (forall c, In c R -> sad <= e c) -> vs = 0.
  Proof.
    intros F. unfold volume_under. transitivity (zsum (map (fun c : cell => Z.max 0 (sad - e c)) [])); [|reflexivity]. symmetry.
    apply zsum_incl_eq; [constructor|intros x []|apply R_nd|]. intros c Hc _. specialize (F c Hc). lia.
  Qed.

  (** the water of a depression reaches the level [sad] *)
  Lemma not_early s c s1 : linv2 s -> popped s c s1 ->
    (l_vol s < zq (DepressionVolume (e c) (length (l_aff s)) (l_total s)) - l_wtd s c + tolerance)%Qc -> sad <= e c.
  Proof.
    intros [I [SO VE]] P TR. pose proof (proj1 I) as C. destruct (Z_le_gt_dec sad (e c)); auto. exfalso.
    assert (Nc : c <> out) by (intros ->; pose proof b_sad; lia). assert (HcR : In c R) by (apply good_R; auto; apply (po_good _ _ _ _ _ _ _ _ _ P)).
    pose proof (fresh s c s1 I P) as NA. rewrite (wtd_cur s c I (or_intror Logic.I) NA) in TR. rewrite (cur_sum s _ C) in TR.
    destruct flat_dec as [F|NF]; [specialize (F c HcR); lia|].
    assert (LA : forall a, In a (l_aff s) -> e a <= sad) by (intros a Ha; pose proof (aff_below s c s1 (conj I (conj SO VE)) P a Ha); lia).
    pose proof (vol_enough (l_aff s) c Enough NF (aff_nd s C) (aff_R s C) LA HcR NA ltac:(lia)) as VN.
    rewrite (co_vol _ _ _ _ _ _ _ _ _ _ C) in TR.
    assert (IN : zsum (map (fun a => e c - e a) (l_aff s)) + 1 <= vs).
    { assert (A1 : zsum (map (fun a => e c - e a) (l_aff s)) <= zsum (map (fun a => Z.max 0 (sad - e a)) (l_aff s))) by (apply zsum_mono; intros; lia).
      assert (A2 : zsum (map (fun a => Z.max 0 (sad - e a)) (c :: l_aff s)) <= vs).
      { apply zsum_incl; [constructor; auto; apply aff_nd; auto| |apply R_nd|intros; lia]. intros x [<-|Hx]; auto. apply aff_R in Hx; auto. }
      unfold zsum in A2 at 1. cbn [map fold_right] in A2. fold (zsum (map (fun a => Z.max 0 (sad - e a)) (l_aff s))) in A2. lia. }
    apply zq_le in IN. rewrite zq_add, zq_1 in IN. pose proof tol_one. qlra.
  Qed.

  (** ... and so does the computed level *)
  Lemma level_facts s c s1 level : linv2 s -> popped s c s1 ->
    (l_vol s < zq (DepressionVolume (e c) (length (l_aff s)) (l_total s)) - l_wtd s c + tolerance)%Qc ->
    (level = zq (e c) \/ (under_level (length (l_aff s)) (l_total s) level = l_vol s /\ l_aff s <> [])) ->
    (zq sad <= level)%Qc /\ forall a, In a (l_aff s) -> (zq (e a) <= level)%Qc.
  Proof.
    intros I2 P TR LV. pose proof (not_early s c s1 I2 P TR) as SE. pose proof I2 as [I [SO VE]]. pose proof I as [C [CL [LU NE]]].
    destruct LV as [->|[UL AN]].
    - split; [apply zq_le; auto|]. intros a Ha. apply zq_le. pose proof (aff_below s c s1 I2 P a Ha). lia.
    - assert (Ns : length (l_aff s) <> 0%nat) by (destruct (l_aff s); [congruence|discriminate]).
      assert (SL : (zq sad <= level)%Qc).
      { apply (times_cancel_le (length (l_aff s))); auto.
        assert (A1 : zsum (map (fun a => sad - e a) (l_aff s)) <= vs).
        { etransitivity; [apply (zsum_mono _ (fun a => Z.max 0 (sad - e a))); intros; lia|]. apply zsum_incl; [apply aff_nd; auto|apply aff_R; auto|apply R_nd|intros; lia]. }
        rewrite <- (cur_sum s sad C) in A1. apply zq_le in A1. rewrite <- under_zq in A1. unfold under_level in *. qlra. }
      split; [exact SL|]. intros a Ha.
      destruct (Z_le_gt_dec (e a) sad) as [La|La]; [apply zq_le in La; qlra|].
      destruct (exists_last AN) as [l [b E]].
      assert (AB : e a <= e b).
      { destruct (Z_le_gt_dec (e a) (e b)) as [|G]; auto. exfalso. rewrite E in Ha. apply in_app_or in Ha. destruct Ha as [Ha|[->|[]]]; [|lia].
        apply in_split in Ha. destruct Ha as [l1 [l2 El]]. pose proof (aff_nd s C) as ND. rewrite E in ND.
        assert (Hb : In b (l_aff s)) by (rewrite E; apply in_or_app; right; left; auto).
        assert (In b l1). { apply (SO l1 a (l2 ++ [b])); [rewrite E, El, <- app_assoc; reflexivity|lia|apply (aff_R s C); auto|intros ->; apply (aff_out s C); auto|lia]. }
        apply NoDup_remove_2 in ND. apply ND. rewrite app_nil_r, El. apply in_or_app. auto. }
      pose proof (LU l b E) as LB. rewrite <- under_zq in LB. pose proof tol_pos.
      assert (zq (e b) < level)%Qc.
      { apply (times_cancel_lt (length (l_aff s))). unfold under_level in *. qlra. }
      apply zq_le in AB. qlra.
  Qed.

  Lemma exact_gap s c : linv s -> good c -> ~ In c (l_aff s) ->
    (l_vol s < zq (DepressionVolume (e c) (length (l_aff s)) (l_total s)) - l_wtd s c + tolerance)%Qc ->
    l_wtd s c = 0%Qc \/ (l_vol s <= zq (DepressionVolume (e c) (length (l_aff s)) (l_total s)) - l_wtd s c)%Qc.
  Proof.
    intros I G N TR. pose proof (proj1 I) as C. rewrite (wtd_cur s c I (or_intror Logic.I) N) in *.
    assert (Rc : In c R \/ c = out) by (destruct (ceqb_spec c out) as [->|Nc]; [auto|left; apply good_R; auto]).
    destruct Exact as [S|[M1 M2]]; [left; auto|]. right.
    assert (MV : millionths (l_vol s)).
    { rewrite (co_vol _ _ _ _ _ _ _ _ _ _ C). apply millionths_add; auto.
      assert (G2 : forall a, In a (l_aff s) -> millionths (wtd0 a)) by (intros a Ha; apply M2; left; apply (aff_R s C); auto).
      revert G2. generalize (l_aff s). induction l as [|a l IH]; intros G2; [exists 0; unfold qsum; cbn [map fold_right]; rewrite zq_0; ring|].
      unfold qsum. cbn [map fold_right]. apply millionths_add; [apply G2; left; auto|apply IH; intros; apply G2; right; auto]. }
    assert (MD : millionths (l_vol s - (zq (DepressionVolume (e c) (length (l_aff s)) (l_total s)) - wtd0 c))).
    { apply millionths_sub; auto. apply millionths_sub; [apply millionths_zq|auto]. }
    apply millionths_lt in MD; qlra.
  Qed.

  Lemma finish_ok s c s1 : linv2 s -> popped s c s1 ->
    (l_vol s < zq (DepressionVolume (e c) (length (l_aff s)) (l_total s)) - l_wtd s c + tolerance)%Qc ->
    exists wt, fill_finish w h dem out c (e c) s1 = Ok wt.
  Proof.
    intros I2 P TR. pose proof I2 as [I [SO VE]]. pose proof I as [C [CL [LU NE]]].
    destruct (po_fields _ _ _ _ _ _ _ _ _ P) as [F1 [F2 [F3 [F4 F5]]]]. destruct (po_good _ _ _ _ _ _ _ _ _ P) as [Ic [Mc Lc]].
    pose proof (fresh s c s1 I P) as NA. pose proof (exact_gap s c I (po_good _ _ _ _ _ _ _ _ _ P) NA TR) as EX.
    assert (W : (l_wtd s c <= 0)%Qc).
    { rewrite (wtd_cur s c I (or_intror Logic.I) NA). apply Dry. destruct (ceqb_spec c out) as [->|Nc]; [auto|]. left. apply good_R; auto. apply (po_good _ _ _ _ _ _ _ _ _ P). }
    assert (VP : (0 <= l_vol s)%Qc) by (pose proof vs_nonneg as X; apply zq_le in X; rewrite zq_0 in X; qlra).
    unfold fill_finish. rewrite F2, F3, F4, F5. pose proof tol_pos as TP.
    assert (D : exists sw lev, DetermineWaterLevel (l_wtd s c) (l_vol s) (e c) (length (l_aff s)) (l_total s) = Ok (sw, lev)).
    { unfold DetermineWaterLevel. set (cur := zq (DepressionVolume (e c) (length (l_aff s)) (l_total s))) in *.
      destruct (qltP cur (l_vol s)) as [GT|LE].
      - assert (G1 : forall v, v = (if fp_eq (l_vol s) cur then cur else l_vol s) -> (v < cur - l_wtd s c + tolerance /\ 0 <= v - cur /\ v - cur <= - l_wtd s c)%Qc).
        { intros v ->. destruct (fp_eqP (l_vol s) cur) as [[X Y]|X]; [split; [qlra|split; qlra]|]. split; [exact TR|]. split; [qlra|].
          destruct EX as [E0|E0]; [|qlra]. exfalso. rewrite E0 in TR. apply X. split; qlra. }
        destruct (G1 _ eq_refl) as [H1 [H2 H3]].
        destruct (fp_leP (if fp_eq (l_vol s) cur then cur else l_vol s) (cur - l_wtd s c)) as [|X]; [|contradiction]. cbn [assert_ bind].
        destruct (qleP 0 ((if fp_eq (l_vol s) cur then cur else l_vol s) - cur)) as [|X]; [|contradiction]. cbn [assert_ bind].
        destruct (qleP ((if fp_eq (l_vol s) cur then cur else l_vol s) - cur) (- l_wtd s c)) as [|X]; [|contradiction]. cbn [assert_ bind]. eauto.
      - destruct (fp_eqP (l_vol s) cur) as [X|X]; [eauto|]. destruct (Nat.eqb_spec (length (l_aff s)) 0) as [Z0|]; [|eauto].
        exfalso. apply X. assert (EA : l_aff s = []) by (destruct (l_aff s); [auto|discriminate Z0]).
        assert (CZ : cur = 0%Qc). { unfold cur. rewrite (cur_sum s _ C), EA. reflexivity. }
        rewrite CZ in *. split; qlra. }
    destruct D as [sw [lev ED]]. rewrite ED. cbn [bind]. rewrite (gat_in w h dem out b_out). cbn [bind]. fold (e out).
    destruct (dwl_spec _ _ _ _ _ _ _ VP ED) as [D1 [D2 [D3 D4]]].
    set (level := if fp_eq lev (zq (e out)) then zq (e out) else lev) in *.
    assert (LE : (level <= zq (e c))%Qc /\ (level = zq (e c) \/ level = lev)).
    { unfold level. destruct (fp_eqP lev (zq (e out))) as [[X Y]|X]; [|split; auto].
      assert (OC : e out = e c). { apply Z.le_antisymm; [apply zq_near; qlra|exact Lc]. } rewrite OC. split; [apply Qcle_refl|auto]. }
    destruct LE as [LE1 LE2].
    assert (LV : level = zq (e c) \/ (under_level (length (l_aff s)) (l_total s) level = l_vol s /\ l_aff s <> [])).
    { destruct LE2 as [|E2]; auto. destruct D4 as [[D4 _]|[_ [D4 [N0 _]]]]; [left; congruence|]. right. rewrite E2. split; [exact D4|]. intros E. rewrite E in N0. apply N0. reflexivity. }
    destruct (level_facts s c s1 level I2 P TR LV) as [LF1 LF2].
    assert (BK : (match rev (l_aff s) with [] => Ok tt | b :: _ => do eb <- gat w h dem (fst b) (snd b); assert_ (fp_le (zq eb) level) end) = Ok tt).
    { destruct (rev (l_aff s)) as [|b r] eqn:ER; auto. assert (Hb : In b (l_aff s)) by (apply in_rev; rewrite ER; left; auto).
      destruct (co_aff _ _ _ _ _ _ _ _ _ _ C b Hb) as [[Ib _] _]. rewrite (gat_in w h dem b Ib). cbn [bind]. fold (e b).
      destruct (fp_leP (zq (e b)) level) as [|X]; [reflexivity|]. exfalso. apply X. pose proof (LF2 b Hb). qlra. }
    rewrite BK. cbn [bind].
    assert (AS : qlt level (zq (e c)) || fp_eq (zq (e c)) level = true).
    { destruct (qltP level (zq (e c))); auto. cbn [orb]. destruct (fp_eqP (zq (e c)) level) as [|X]; auto. exfalso. apply X. split; qlra. }
    rewrite AS. cbn [assert_ bind]. apply backfill_ok; [apply aff_nd; auto| |].
    - intros a Ha. apply (co_aff _ _ _ _ _ _ _ _ _ _ C a Ha).
    - intros a Ha. split; [|auto]. rewrite cset_other by congruence. apply (co_wtd _ _ _ _ _ _ _ _ _ _ C). exact Ha.
  Qed.

  Definition mu (s : lstate) : nat := (mu0 w h s + (length R - length (l_aff s)))%nat.
  Lemma all_joined s : core s -> closed w h dem lab labels out s -> closed_at w h dem lab labels out s out -> l_q s = [] ->
    forall d, In d R -> d <> out -> In d (l_aff s).
  Proof.
    intros C CL CO Q d Hd Nd. apply R_iff in Hd. destruct Hd as [Hd Ld]. pose proof b_sad.
    assert (J : joined w h dem lab labels (e out) pit d) by (apply (ba_joined _ _ _ _ _ _ _ _ _ BA); [lia|auto|auto]).
    assert (K : forall r, l_seen s r = true -> r = out \/ In r (l_aff s)).
    { intros r Sr. destruct (co_seen _ _ _ _ _ _ _ _ _ _ C r Sr) as [|[X|X]]; auto. unfold qcells in X. rewrite Q in X. destruct X. }
    enough (d = out \/ In d (l_aff s)) by tauto. clear Hd Nd Ld. induction J as [|q r J IH A B L].
    - apply K, (co_pit _ _ _ _ _ _ _ _ _ _ C).
    - apply K. assert (G : good r) by (destruct B; split; auto). destruct IH as [->|IH]; [apply (CO r A G)|apply (CL q IH r A G)].
  Qed.

  Lemma round_ok s c s1 : linv2 s -> popped s c s1 ->
    (exists wt, fill_body w h dem lab labels out c s1 = Ok (inl wt)) \/
    (exists s', fill_body w h dem lab labels out c s1 = Ok (inr s') /\ linv2 s' /\ (mu s' < mu s)%nat).
  Proof.
    intros I2 P. pose proof I2 as [I [SO VE]]. pose proof I as [C [CL [LU NE]]].
    destruct (po_fields _ _ _ _ _ _ _ _ _ P) as [F1 [F2 [F3 [F4 F5]]]]. pose proof (po_good _ _ _ _ _ _ _ _ _ P) as G. pose proof G as [Ic [Mc Lc]].
    pose proof (fresh s c s1 I P) as NA. pose proof (wtd_cur s c I (or_intror Logic.I) NA) as WC.
    assert (W : (l_wtd s c <= 0)%Qc).
    { rewrite WC. apply Dry. destruct (ceqb_spec c out) as [->|Nc]; [auto|]. left. apply good_R; auto. }
    assert (VP : (0 <= l_vol s)%Qc) by (pose proof vs_nonneg as X; apply zq_le in X; rewrite zq_0 in X; qlra).
    destruct (fill_body w h dem lab labels out c s1) as [[wt|s']| |] eqn:EB; [left; eauto| | |].
    2,3: exfalso; unfold fill_body in EB; rewrite (gat_in w h dem c Ic) in EB; cbn [bind] in EB; fold (e c) in EB; rewrite F2, F3, F4, F5 in EB;
      (destruct (qleP 0 (l_vol s)); [|contradiction]); cbn [assert_ bind] in EB; rewrite (gat_in w h lab c Ic) in EB; cbn [bind] in EB;
      (destruct (qltP 0 (l_wtd s c)) as [X|X]; [exfalso; qlra|]); rewrite andb_false_r in EB;
      destruct (fp_leP (l_vol s) (zq (DepressionVolume (e c) (length (l_aff s)) (l_total s)) - l_wtd s c)) as [TR|NT];
      [destruct (finish_ok s c s1 I2 P TR) as [wt EF]; rewrite EF in EB; discriminate EB|];
      destruct (fill_absorb out c (e c) s1) as [sa| |] eqn:EA;
      [|unfold fill_absorb in EA; (destruct (ceqb c out); [discriminate EA|]); rewrite F5 in EA; (destruct (qleP (l_wtd s c) 0); [discriminate EA|contradiction])..];
      destruct (absorb_core w h dem lab labels pit out wtd0 vol0 s c s1 sa C P EA) as [Ca _];
      destruct (visits_ok w h dem lab labels pit out wtd0 vol0 b_out c sa Ca) as [s2 [EV _]]; cbn [bind] in EB; rewrite EV in EB; cbn [bind] in EB;
      (destruct (l_q s2); [rewrite (gat_in w h dem out b_out) in EB|]); discriminate EB.
    right. exists s'. split; auto.
    destruct (body_step w h dem lab labels pit out wtd0 vol0 b_out s c s1 s' I P EB) as [I' [_ [NT [s2 [C2 [CL2 [A2 [V2 [CC [SM [QI [E1 [E2 [MM D]]]]]]]]]]]]]].
    rewrite (cur_sum s _ C) in NT.
    split.
    - split; [exact I'|]. split.
      + intros l1 a l2 E La d Hd Nd Ld. rewrite A2 in E. destruct D as [[-> [DA _]]|[Nc [DA _]]]; rewrite DA in E; [eapply SO; eauto|].
        destruct l2 as [|x l2].
        * apply app_inj_tail in E. destruct E as [E <-]. rewrite <- E. eapply below_done; eauto.
        * assert (exists l3, x :: l2 = l3 ++ [c]) as [l3 E3].
          { destruct (exists_last (l := x :: l2) ltac:(discriminate)) as [l3 [y Ey]]. rewrite Ey in E. exists l3.
            assert (E' : l_aff s ++ [c] = (l1 ++ a :: l3) ++ [y]) by (rewrite E, <- app_assoc; reflexivity). apply app_inj_tail in E'. destruct E' as [_ ->]. exact Ey. }
          rewrite E3 in E. assert (E' : l_aff s ++ [c] = (l1 ++ a :: l3) ++ [c]) by (rewrite E, <- app_assoc; reflexivity). apply app_inj_tail in E'. destruct E' as [E' _]. eapply SO; eauto.
      + rewrite V2. destruct D as [[-> [DA DV]]|[Nc [DA [DV DW]]]]; rewrite DV; [exact VE|].
        assert (HcR : In c R) by (apply good_R; auto). pose proof (aff_below s c s1 I2 P) as AB.
        destruct (Z_le_gt_dec (e c) sad) as [Lc2|Gc].
        * assert (LA : forall a, In a (l_aff s) -> e a <= sad) by (intros a Ha; specialize (AB a Ha); lia).
          destruct flat_dec as [F|NF].
          { rewrite (flat_vs F), zq_0. assert (EC : e c = sad) by (specialize (F c HcR); lia).
            assert (0 <= zsum (map (fun a => e c - e a) (l_aff s))) by (apply zsum_nonneg; intros a Ha; specialize (LA a Ha); lia).
            apply zq_le in H. rewrite zq_0 in H. pose proof tol_pos. qlra. }
          { pose proof (vol_enough (l_aff s) c Enough NF (aff_nd s C) (aff_R s C) LA HcR NA Lc2) as VN.
            rewrite (co_vol _ _ _ _ _ _ _ _ _ _ C), WC. exact VN. }
        * assert (VSL : vs <= zsum (map (fun a => e c - e a) (l_aff s))).
          { transitivity (zsum (map (fun a => Z.max 0 (sad - e a)) (l_aff s))).
            - apply Z.eq_le_incl. symmetry. apply zsum_incl_eq; [apply aff_nd; auto|apply aff_R; auto|apply R_nd|]. intros d Hd NdA.
              destruct (Z_le_gt_dec sad (e d)) as [|Gd]; [lia|]. exfalso. apply NdA. eapply below_done; eauto; [lia| |lia]. intros ->. pose proof b_sad. lia.
            - apply zsum_mono. intros a Ha. specialize (AB a Ha). lia. }
          apply zq_le in VSL. pose proof tol_pos. qlra.
    - unfold mu. rewrite A2.
      assert (M1 : (S (mu0 w h s1) = mu0 w h s)%nat).
      { unfold mu0, unseen. rewrite F1, (Permutation_length (po_perm _ _ _ _ _ _ _ _ _ P)). cbn [length]. lia. }
      destruct D as [[Ec [DA DV]]|[Nc [DA [DV DW]]]].
      + subst c. assert (NQ : l_q s2 <> []).
        { intros Q2. pose proof (all_joined s2 C2 CL2 CC Q2) as AJ.
          assert (SE : zsum (map (fun a => e out - e a) (l_aff s)) = depth_sum dem (e out) R).
          { unfold depth_sum. rewrite <- DA. apply zsum_incl_eq; [apply aff_nd; auto|apply aff_R; auto|apply R_nd|].
            intros d Hd Nd. destruct (ceqb_spec d out) as [->|Nd2]; [lia|]. exfalso. apply Nd, AJ; auto. }
          assert (VL : (l_vol s <= vol0)%Qc).
          { rewrite (co_vol _ _ _ _ _ _ _ _ _ _ C). enough (qsum (map wtd0 (l_aff s)) <= 0)%Qc by qlra.
            assert (GG : forall a, In a (l_aff s) -> (wtd0 a <= 0)%Qc) by (intros a Ha; apply Dry; left; apply (aff_R s C); auto).
            clear -GG. induction (l_aff s) as [|a l IH]; unfold qsum in *; cbn [map fold_right]; [apply Qcle_refl|].
            assert (wtd0 a <= 0)%Qc by (apply GG; left; auto). assert (fold_right Qcplus 0 (map wtd0 l) <= 0)%Qc by (apply IH; intros; apply GG; right; auto). qlra. }
          rewrite SE in NT. pose proof tol_pos. qlra. }
        rewrite (E1 NQ), DA. lia.
      + assert (LL : (length (l_aff s2) <= length R)%nat) by (apply NoDup_incl_length; [apply aff_nd; auto|apply aff_R; auto]).
        rewrite DA, app_length in *. cbn [length] in *.
        assert (mu0 w h s' <= S (mu0 w h s2))%nat; [|lia].
        destruct (l_q s2) as [|x q] eqn:Q2; [rewrite (E2 eq_refl)|rewrite (E1 ltac:(discriminate)); lia].
        unfold mu0. rewrite Q2. cbn [l_push l_q length]. rewrite ?Q2. cbn [length].
        enough (unseen w h (l_push (e out) out s2) <= unseen w h s2)%nat by lia.
        destruct (l_seen s2 out) eqn:SO2.
        * unfold unseen. apply Nat.eq_le_incl. f_equal. apply filter_ext. intros d. cbn [l_push l_seen]. unfold cset, kupd. destruct (ceqb_spec d out) as [->|]; [rewrite SO2|]; reflexivity.
        * pose proof (unseen_push w h s2 (e out) out b_out SO2). lia.
  Qed.

  Lemma R_cell d : in_dep w h lab labels d -> e d <= e out -> In d R.
  Proof. intros. apply R_iff. auto. Qed.
  Lemma R_below d level : in_dep w h lab labels d -> (zq (e d) < level)%Qc -> (level <= zq (e out))%Qc -> In d R /\ d <> out.
  Proof.
    intros D L1 L2. assert (L3 : (zq (e d) < zq (e out))%Qc) by qlra. apply (proj1 (zq_lt _ _)) in L3. split; [apply R_cell; [exact D|apply Z.lt_le_incl; exact L3]|intros X; subst; exact (Z.lt_irrefl _ L3)].
  Qed.

  Lemma coverage s c s1 level : linv2 s -> popped s c s1 ->
    (l_vol s < zq (DepressionVolume (e c) (length (l_aff s)) (l_total s)) - l_wtd s c + tolerance)%Qc ->
    (level <= zq (e c))%Qc -> forall d, In d R -> d <> out -> (zq (e d) < level)%Qc -> In d (l_aff s).
  Proof.
    intros I2 P TR LE d Hd Nd Ld. pose proof I2 as [I [SO VE]]. pose proof I as [C _].
    pose proof (not_early s c s1 I2 P TR) as SE. pose proof (fresh s c s1 I P) as NA.
    assert (Lc : (zq (e d) < zq (e c))%Qc) by qlra. apply (proj1 (zq_lt _ _)) in Lc.
    destruct (Z_le_gt_dec (e c) sad) as [ES|GS].
    2:{ eapply below_done; eauto. lia. }
    destruct (in_dec cell_dec d (l_aff s)) as [|ND]; auto. exfalso. assert (EC : e c = sad) by lia.
    assert (LA : forall a, In a (l_aff s) -> e a <= sad) by (intros a Ha; pose proof (aff_below s c s1 I2 P a Ha); lia).
    destruct flat_dec as [F|NF]; [specialize (F d Hd); lia|].
    rewrite (wtd_cur s c I (or_intror Logic.I) NA), (cur_sum s _ C) in TR.
    assert (IN : zsum (map (fun a => e c - e a) (l_aff s)) + 1 <= vs).
    { assert (A1 : zsum (map (fun a => e c - e a) (l_aff s)) <= zsum (map (fun a => Z.max 0 (sad - e a)) (l_aff s))) by (apply zsum_mono; intros; lia).
      assert (A2 : zsum (map (fun a => Z.max 0 (sad - e a)) (d :: l_aff s)) <= vs).
      { apply zsum_incl; [constructor; auto; apply aff_nd; auto| |apply R_nd|intros; lia]. intros x [<-|Hx]; auto. apply aff_R in Hx; auto. }
      unfold zsum in A2 at 1. cbn [map fold_right] in A2. fold (zsum (map (fun a => Z.max 0 (sad - e a)) (l_aff s))) in A2. lia. }
    apply zq_le in IN. rewrite zq_add, zq_1 in IN. pose proof tol_one as TS.
    destruct (ceqb_spec c out) as [->|Nc].
    - destruct Enough as [F|[_ [X|X]]]; [contradiction|lia|]. rewrite X in TR. qlra.
    - assert (HcR : In c R) by (apply good_R; auto; apply (po_good _ _ _ _ _ _ _ _ _ P)).
      pose proof (vol_enough (l_aff s) c Enough NF (aff_nd s C) (aff_R s C) LA HcR NA ltac:(lia)) as VN.
      rewrite (co_vol _ _ _ _ _ _ _ _ _ _ C) in TR. qlra.
  Qed.

  (** what a completed call has done *)
  Definition outcome (wt : cell -> Qc) : Prop :=
    exists A level, NoDup A /\ incl A R /\ (zq sad <= level)%Qc /\ (level <= zq (e out))%Qc /\
      filled w h dem lab labels out level wtd0 wt /\
      within (times (S (length A)) tolerance) (surface_total w h wtd0 + vol0) (surface_total w h wt).
  Lemma finish_outcome s c s1 wt : linv2 s -> popped s c s1 -> fill_body w h dem lab labels out c s1 = Ok (inl wt) -> outcome wt.
  Proof.
    intros I2 P B. pose proof I2 as [I [SO VE]]. pose proof I as [C _].
    destruct (finish_spec w h dem lab labels pit out wtd0 vol0 b_out b_low s c s1 wt I P B) as [level [LK [W [SW [LE [_ [TR LV]]]]]]].
    destruct (level_facts s c s1 level I2 P TR LV) as [LF1 LF2].
    destruct (po_good _ _ _ _ _ _ _ _ _ P) as [Ic [Mc Lc]]. pose proof (fresh s c s1 I P) as NA.
    assert (LO : (level <= zq (e out))%Qc) by (apply zq_le in Lc; qlra).
    assert (WC : (wtd0 c <= 0)%Qc).
    { apply Dry. destruct (ceqb_spec c out) as [->|Nc]; [auto|]. left. apply good_R; auto. apply (po_good _ _ _ _ _ _ _ _ _ P). }
    exists (l_aff s), level. split; [apply aff_nd; auto|]. split; [apply aff_R; auto|]. split; [exact LF1|]. split; [exact LO|]. split; [|exact W].
    destruct LK as [K1 K2 [K3 [K4 K5]] K6]. constructor.
    - intros d Hd Ld. destruct (R_below d level Hd Ld LO) as [HR HN].
      pose proof (coverage s c s1 level I2 P TR LE d HR HN Ld) as HA. rewrite (proj2 (K2 d HA)). qlra.
    - intros d Hd Ld. destruct (in_dec cell_dec d (l_aff s)) as [HA|HA].
      + destruct (K2 d HA) as [K7 K8]. rewrite K8. pose proof (LF2 d HA). split; qlra.
      + destruct (ceqb_spec d c) as [->|Nd].
        * split; [exact K5|]. rewrite (wtd_cur s c I (or_intror Logic.I) NA) in SW. destruct SW as [SW|SW]; [|rewrite SW]; qlra.
        * rewrite (K6 d HA Nd). split; qlra.
    - intros d Hd Nd. apply K6; [intros X; apply Hd; apply K1; auto|]. intros ->. destruct K4; auto.
  Qed.

  Lemma start_inv2 : linv2 (mkL [(e pit, pit)] (cset (fun _ => false) pit true) [] 0 vol0 wtd0).
  Proof.
    split; [apply start_inv; [apply b_pit|apply b_low]|]. split; [intros l1 a l2 E; destruct l1; discriminate E|]. cbn [l_vol].
    destruct flat_dec as [F|NF]; [rewrite (flat_vs F), zq_0; exact V0|].
    destruct Enough as [F|[E _]]; [contradiction|].
    enough (qsum (map wtd0 (filter (fun c => (e c <=? sad)) R)) <= 0)%Qc by qlra.
    assert (GG : forall a, In a (filter (fun c => (e c <=? sad)) R) -> (wtd0 a <= 0)%Qc) by (intros a Ha; apply filter_In in Ha; apply Dry; left; apply Ha).
    clear -GG. induction (filter (fun c => (e c <=? sad)) R) as [|a l IH]; unfold qsum in *; cbn [map fold_right]; [apply Qcle_refl|].
    assert (wtd0 a <= 0)%Qc by (apply GG; left; auto). assert (fold_right Qcplus 0 (map wtd0 l) <= 0)%Qc by (apply IH; intros; apply GG; right; auto). qlra.
  Qed.

  Lemma loop_complete tb : forall fuel i s, linv2 s -> (mu s <= fuel)%nat ->
    exists wt, fill_loop w h dem lab labels out tb fuel i s = Some (Ok wt) /\ outcome wt.
  Proof.
    induction fuel as [|f IH]; intros i s I2 M; cbn [fill_loop]; pose proof I2 as [[C [_ [_ NE]]] _].
    - exfalso. unfold mu, mu0 in M. destruct (l_q s); [congruence|cbn [length] in M; lia].
    - destruct (fill_pop tb i s) as [[kc s1]|] eqn:P; [|apply pop_none in P; contradiction].
      apply (pop_spec w h dem lab labels pit out wtd0 vol0 tb i s kc s1 C) in P.
      destruct (round_ok s (snd kc) s1 I2 P) as [[wt E]|[s2 [E [I3 M2]]]]; rewrite E.
      + exists wt. split; auto. eapply finish_outcome; eauto.
      + apply IH; auto. lia.
  Qed.

  Theorem fill_complete tb : exists wt, FillDepressions w h dem lab labels pit out tb (2 * Z.to_nat (w * h)) vol0 wtd0 = Some (Ok wt) /\ outcome wt.
  Proof.
    unfold FillDepressions. destruct (qeqP vol0 0) as [Z0|NZ].
    - exists wtd0. split; auto. exists [], (zq sad). split; [constructor|]. split; [intros x []|]. split; [apply Qcle_refl|].
      split; [apply zq_le; apply b_sad|]. split.
      + assert (VS : vs = 0).
        { destruct flat_dec as [F|NF]; [apply flat_vs; auto|]. pose proof start_inv2 as [_ [_ X]]. cbn [l_vol] in X. rewrite Z0 in X. rewrite <- zq_0 in X. apply (proj1 (zq_le _ _)) in X. pose proof vs_nonneg. lia. }
        constructor; auto.
        * intros d Hd Ld. exfalso. apply (proj1 (zq_lt _ _)) in Ld.
          assert (HR : In d R) by (apply R_cell; auto; pose proof b_sad; lia).
          assert (A1 : zsum (map (fun a => Z.max 0 (sad - e a)) [d]) <= vs).
          { apply zsum_incl; [repeat constructor; intros []|intros x [<-|[]]; auto|apply R_nd|intros; lia]. }
          unfold zsum in A1 at 1. cbn [map fold_right] in A1. lia.
        * intros d Hd Ld. split; [apply Qcle_refl|]. qlra.
      + rewrite Z0. pose proof tol_pos. pose proof (times_nonneg 1 tolerance ltac:(qlra)). change (S (@length cell [])) with 1%nat. unfold within. set (tt := times 1 tolerance) in *. split; qlra.
    - rewrite (gat_in w h dem pit (proj1 b_pit)). fold (e pit). apply loop_complete; [apply start_inv2|].
      unfold mu, mu0. cbn [l_q length l_aff]. rewrite Nat.sub_0_r.
      assert (LR : (length R <= length (cells w h))%nat).
      { apply NoDup_incl_length; [apply R_nd|]. intros c Hc. apply R_good in Hc. apply cells_inside. apply Hc. }
      assert (LU : (unseen w h (mkL [(e pit, pit)] (cset (fun _ => false) pit true) [] 0 vol0 wtd0) + 1 <= length (cells w h))%nat).
      { pose proof (unseen_push w h (mkL [] (fun _ => false) [] 0 vol0 wtd0) (e pit) pit (proj1 b_pit) eq_refl) as UP.
        unfold l_push in UP. cbn [l_q l_seen l_aff l_total l_vol l_wtd] in UP.
        assert (LF : (unseen w h (mkL [] (fun _ => false) [] 0 vol0 wtd0) <= length (cells w h))%nat) by (unfold unseen; apply filter_le).
        rewrite <- UP in LF. rewrite Nat.add_1_r. exact LF. }
      assert (LC : length (cells w h) = Z.to_nat (w * h)).
      { rewrite cells_length, Z2Nat.inj_mul; [reflexivity|pose proof (proj1 b_pit) as [? ?]; lia..]. }
      rewrite LC in *. set (N := Z.to_nat (w * h)) in *. rewrite Nat.add_1_r in LU.
      match goal with |- (?u + 1 + ?r <= _)%nat => assert (LU' : (u + 1 <= N)%nat) by (rewrite Nat.add_1_r; exact LU); assert (LR' : (r <= N)%nat) by exact LR; revert LU' LR'; generalize u, r end. intros; lia.
  Qed.
End Complete.
