From Coq Require Import ZArith List Lia Bool Permutation.
From Verif Require Import Base Res ArrModel ArrSpec ArrProofs CacheModel CacheSpec
  LRUModel LRUSpec LRUProofs A2Model A2Spec A2Proofs A2Proofs2 A2Proofs3 A2Proofs4.
Open Scope Z_scope.

Notation without i := (filter (fun b => negb (b =? i))).
Lemma without_In i j l : In j (without i l) <-> In j l /\ j <> i.
Proof. rewrite filter_In, negb_true_iff, Z.eqb_neq. tauto. Qed.
Lemma distinct_NoDup l : NoDup (distinct l).
Proof. induction l as [|a l IH]; cbn; constructor; [rewrite without_In; tauto|apply NoDup_filter; auto]. Qed.
Lemma firstn_NoDup {A} n (l : list A) : NoDup l -> NoDup (firstn n l).
Proof.
  intros H. revert n. induction H as [|a l Ha H IH]; intros [|n]; cbn; try constructor; auto.
  intros Hi. apply Ha. rewrite <- (firstn_skipn n l). apply in_app_iff. auto.
Qed.
Lemma firstn_without_out i F : forall n, ~ In i (firstn n F) -> firstn n (without i F) = firstn n F \/ In i F.
Proof.
  intros n H. destruct (in_dec Z.eq_dec i F); [auto|]. left. rewrite filter_id by auto. reflexivity.
Qed.
Lemma firstn_without i F : forall n, ~ In i (firstn n F) -> firstn n (without i F) = firstn n F.
Proof.
  induction F as [|a F IH]; intros n H; [reflexivity|]. destruct n as [|n]; [reflexivity|].
  cbn in H. cbn [filter]. destruct (Z.eqb_spec a i) as [->|]; [tauto|]. cbn [negb firstn]. f_equal. apply IH. tauto.
Qed.
Lemma firstn_without_in i F : NoDup F -> forall n, In i (firstn (S n) F) -> firstn n (without i F) = without i (firstn (S n) F).
Proof.
  induction 1 as [|a F Ha HF IH]; intros n H; [destruct n; reflexivity|].
  cbn [firstn] in H |- *. destruct H as [->|H].
  - cbn [filter]. rewrite Z.eqb_refl. cbn [negb]. rewrite (filter_id i F Ha). symmetry. apply filter_id.
    intros H. apply Ha. rewrite <- (firstn_skipn n F). apply in_app_iff. auto.
  - destruct n as [|n]; [destruct H|]. assert (a <> i). { intros ->. apply Ha. rewrite <- (firstn_skipn (S n) F). apply in_app_iff. auto. }
    cbn [filter]. destruct (Z.eqb_spec a i); [contradiction|]. cbn [negb]. cbn [firstn filter].
    f_equal. apply IH. exact H.
Qed.

Lemma recent_NoDup cap l : NoDup (recent cap l).
Proof. unfold recent. destruct (cap =? -1); [|apply firstn_NoDup]; apply distinct_NoDup. Qed.

Lemma recent_hit cap i l : cap = -1 \/ 1 <= cap -> In i (recent cap l) -> recent cap (i :: l) = i :: without i (recent cap l).
Proof.
  intros Hc. unfold recent. cbn [distinct]. destruct (Z.eqb_spec cap (-1)); [auto|].
  replace (Z.to_nat cap) with (S (Z.to_nat (cap - 1))) by lia. intros H. cbn [firstn]. f_equal.
  apply firstn_without_in; [apply distinct_NoDup|exact H].
Qed.
Lemma recent_room cap i l : cap = -1 \/ 1 <= cap -> ~ In i (recent cap l) -> Z.of_nat (length (recent cap l)) <> cap ->
  recent cap (i :: l) = i :: recent cap l.
Proof.
  intros Hc. unfold recent. cbn [distinct]. destruct (Z.eqb_spec cap (-1)).
  - intros H _. f_equal. apply filter_id; auto.
  - intros H HL. rewrite firstn_length in HL.
    assert (HF : firstn (Z.to_nat cap) (distinct l) = distinct l) by (apply firstn_all2; lia). rewrite HF in *.
    rewrite filter_id by auto. rewrite firstn_all2; [reflexivity|]. cbn. lia.
Qed.
Lemma recent_full cap i l : 1 <= cap -> ~ In i (recent cap l) -> Z.of_nat (length (recent cap l)) = cap ->
  recent cap (i :: l) = i :: removelast (recent cap l).
Proof.
  intros Hc. unfold recent. cbn [distinct]. destruct (Z.eqb_spec cap (-1)); [lia|]. intros H HL.
  replace (Z.to_nat cap) with (S (Z.to_nat (cap - 1))) in * by lia.
  rewrite firstn_length in HL. rewrite removelast_firstn by lia. cbn [firstn]. f_equal. apply firstn_without.
  intros HI. apply H. clear -HI. revert HI. generalize (distinct l), (Z.to_nat (cap - 1)). intros F n. revert F.
  induction n as [|n IH]; intros [|a F]; cbn; try tauto. intros [->|HI]; auto. right. apply (IH F). exact HI.
Qed.

(** The LRU list and the set of loaded tiles after the uses [l] (most recent first). *)
Record LR (last0 cap : Z) (l : list Z) (s : a2) : Prop := {
  R_cache : l_cache (d_lru s) = recent cap l;
  R_last : l_last (d_lru s) = hd last0 l;
  R_loaded : forall j, t_loaded (d_tiles s j) = existsb (Z.eqb j) (recent cap l);
  R_evict : d_evict s = misses cap l - Z.of_nat (length (recent cap l)) }.

Lemma existsb_eq (j : Z) (l l' : list Z) : (In j l <-> In j l') -> existsb (Z.eqb j) l = existsb (Z.eqb j) l'.
Proof. intros H. apply eq_true_iff_eq. rewrite !existsb_In. exact H. Qed.

Lemma without_length i l : NoDup l -> In i l -> S (length (without i l)) = length l.
Proof.
  intros ND H. rewrite <- (remove_first_filter i l ND).
  pose proof (Permutation_length (remove_first_perm i l H)) as P. cbn in P. lia.
Qed.

Lemma LR_touch last0 cap l s s' i : cap = -1 \/ 1 <= cap -> LInv (d_lru s) -> l_maxlen (d_lru s) = cap -> LR last0 cap l s -> i <> last0 ->
  touched s s' i -> LR last0 cap (i :: l) s'.
Proof.
  intros Hc HI Hm [R1 R2 R3 R4] Hi T. unfold touched in T. rewrite R3 in T.
  assert (HH : forall a m, l = a :: m -> exists m', recent cap l = a :: m').
  { intros a m ->. unfold recent. cbn [distinct]. destruct (Z.eqb_spec cap (-1)); [eauto|].
    replace (Z.to_nat cap) with (S (Z.to_nat (cap - 1))) by lia. cbn [firstn]. eauto. }
  destruct (existsb (Z.eqb i) (recent cap l)) eqn:Ex.
  - pose proof Ex as Ex'. apply existsb_In in Ex. destruct T as (T1 & T2 & T3).
    destruct (insert_ref (d_lru s) i HI) as (C1 & C2 & C3).
    { intros Hl. rewrite R2 in Hl. destruct l as [|a m]; [contradiction|]. cbn in Hl. subst a.
      destruct (HH i m eq_refl) as [m' Hm']. rewrite R1, Hm'. reflexivity. }
    constructor.
    + rewrite T1, C1, R1. symmetry. apply recent_hit; auto.
    + rewrite T1, C3. reflexivity.
    + intros j. rewrite T2, R3, recent_hit by auto. apply existsb_eq. cbn. rewrite without_In.
      destruct (Z.eq_dec j i); [subst; tauto|]. split; [tauto|]. intros [|]; [congruence|tauto].
    + rewrite T3, R4. cbn [misses]. rewrite Ex', recent_hit by auto. cbn [length].
      rewrite without_length; [lia|apply recent_NoDup|auto].
  - assert (Nx : ~ In i (recent cap l)) by (rewrite <- existsb_In, Ex; discriminate).
    assert (NL : i <> l_last (d_lru s)).
    { rewrite R2. destruct l as [|a m]; [exact Hi|]. cbn. intros ->. destruct (HH a m eq_refl) as [m' Hm']. apply Nx. rewrite Hm'. left; auto. }
    destruct (lru_full (d_lru s)) eqn:Hf; unfold lru_full in Hf; rewrite Hm, (L_len _ HI), R1 in Hf.
    + apply Z.eqb_eq in Hf. assert (Hc1 : 1 <= cap) by lia. destruct T as (v & l1 & V1 & V2 & V3 & V4 & V5).
      assert (Hne : l_cache (d_lru s) <> []). { rewrite R1. intros Z0. rewrite Z0 in Hf. cbn in Hf. lia. }
      destruct (LInv_pop _ HI Hne) as (l1' & P1 & P2 & P3 & P4 & P5 & _). assert (l1' = l1) by congruence. subst l1'.
      destruct (insert_ref l1 i P2) as (C1 & C2 & C3); [intros Q; rewrite P5 in Q; contradiction|].
      destruct (back_last _ Hne) as (v' & r & B1 & B2 & B3 & B4).
      assert (v' = v) by (unfold lru_back in V1; rewrite B1 in V1; congruence). subst v'.
      assert (RF : recent cap (i :: l) = i :: removelast (recent cap l)) by (apply recent_full; auto).
      assert (Nr : ~ In i (removelast (recent cap l))).
      { intros Q. apply Nx. rewrite R1 in B3, B4. rewrite B3 in Q. rewrite B4. apply in_app_iff. auto. }
      constructor.
      * rewrite V3, C1, P3, R1, RF. f_equal. apply filter_id. exact Nr.
      * rewrite V3, C3. reflexivity.
      * intros j. rewrite V4, R3, RF. cbn [existsb]. f_equal. rewrite R1 in B3, B4. rewrite B3.
        pose proof (recent_NoDup cap l) as ND. rewrite B4 in ND |- *. apply NoDup_remove_2 in ND. rewrite app_nil_r in ND.
        apply eq_true_iff_eq. rewrite andb_true_iff, negb_true_iff, Z.eqb_neq, !existsb_In, in_app_iff. cbn [In].
        split; [intros [Q1 [Q2|[Q2|[]]]]; congruence|]. intros Q. split; auto. intros ->. contradiction.
      * rewrite V5, R4. cbn [misses]. rewrite Ex, RF. cbn [length].
        rewrite R1 in B3, B4. rewrite B3. assert (LL : length (recent cap l) = S (length (rev r))) by (rewrite B4, app_length; cbn; lia). lia.
    + apply Z.eqb_neq in Hf. destruct T as (T1 & T2 & T3).
      destruct (insert_ref (d_lru s) i HI) as (C1 & C2 & C3); [intros Q; contradiction|].
      assert (RF : recent cap (i :: l) = i :: recent cap l) by (apply recent_room; auto).
      constructor.
      * rewrite T1, C1, R1, RF. f_equal. apply filter_id; auto.
      * rewrite T1, C3. reflexivity.
      * intros j. rewrite T2, R3, RF. reflexivity.
      * rewrite T3, R4. cbn [misses]. rewrite Ex, RF. cbn [length]. lia.
Qed.

(** Same LRU and same tiles in memory. *)
Definition like (s s' : a2) : Prop :=
  d_lru s' = d_lru s /\ d_evict s' = d_evict s /\ forall j, t_loaded (d_tiles s' j) = t_loaded (d_tiles s j).
Lemma LR_like last0 cap l s s' : LR last0 cap l s -> like s s' -> LR last0 cap l s'.
Proof. intros [R1 R2 R3 R4] (L1 & L2 & L3). constructor; rewrite ?L1, ?L2; auto. intros j. rewrite L3. auto. Qed.
Lemma like_refl s : like s s. Proof. unfold like; auto. Qed.

Section Touch.
Variable M : Z -> Z -> meta.
Definition touch_rel (G : geom) (tx ty : Z) (s s' : a2) : Prop :=
  if g_null G tx ty then like s s' else exists s1, touched s s1 (tid G tx ty) /\ like s1 s'.

Lemma load_touch E G cap b s tx ty s' : env_ok E -> dims (g_pw G) (g_ph G) -> Inv M E G cap b s -> cap <> 0 -> in_tile G tx ty ->
  loadTile E s tx ty = Ok s' -> touch_rel G tx ty s s'.
Proof.
  intros HE D I Hc Hin HL. destruct (loadTile_ok M E G cap b s tx ty HE D I Hc Hin) as (s1 & E1 & _ & _ & T).
  assert (s1 = s') by congruence. subst s1. unfold touch_rel. destruct (g_null G tx ty); [subst; apply like_refl|].
  exists s'. split; [apply T|apply like_refl].
Qed.

Lemma touch_like G tx ty s s1 s' : touch_rel G tx ty s s1 -> like s1 s' -> touch_rel G tx ty s s'.
Proof.
  unfold touch_rel. destruct (g_null G tx ty).
  - intros (A1 & A2 & A3) (B1 & B2 & B3). split; [congruence|]. split; [congruence|]. intros j. rewrite B3. auto.
  - intros (s2 & T & (A1 & A2 & A3)) (B1 & B2 & B3). exists s2. split; auto. split; [congruence|]. split; [congruence|]. intros j. rewrite B3. auto.
Qed.
Lemma null_touch G tx ty s s' : g_null G tx ty = true -> like s s' -> touch_rel G tx ty s s'.
Proof. intros H L. unfold touch_rel. rewrite H. exact L. Qed.

Ltac bnd H := match type of H with (bind ?m _ = Ok _) => let q := fresh "q" in let Q := fresh "Q" in destruct m as [q| |] eqn:Q; cbn [bind] in H; try discriminate end.

Lemma readQ_touch E G cap b s tx ty px py r s' : env_ok E -> dims (g_pw G) (g_ph G) -> Inv M E G cap b s -> cap <> 0 -> in_tile G tx ty ->
  readQ E s tx ty px py = Ok (r, s') -> touch_rel G tx ty s s'.
Proof.
  intros HE D I Hc Hin H. unfold readQ in H. rewrite (null_ok _ _ _ _ _ _ _ _ I Hin) in H. cbn [bind] in H. bnd H.
  destruct (g_null G tx ty) eqn:Hn.
  - inversion H. apply null_touch; auto. unfold like; cbn; auto.
  - bnd H. bnd H. inversion H; subst. eapply load_touch; eauto.
Qed.
Lemma writeQ_touch E G cap b s tx ty px py v s' : env_ok E -> dims (g_pw G) (g_ph G) -> Inv M E G cap b s -> cap <> 0 -> in_tile G tx ty ->
  writeQ E s tx ty px py v = Ok s' -> touch_rel G tx ty s s'.
Proof.
  intros HE D I Hc Hin H. unfold writeQ in H. rewrite (null_ok _ _ _ _ _ _ _ _ I Hin) in H. cbn [bind] in H. bnd H.
  destruct (g_null G tx ty) eqn:Hn.
  - inversion H. apply null_touch; auto. unfold like; cbn; auto.
  - bnd H. bnd H. inversion H; subst. eapply touch_like; [eapply load_touch; eauto|]. unfold like; cbn. split; [auto|]. split; [auto|].
    intros j. destruct (Z.eqb_spec j q) as [->|]; reflexivity.
Qed.
Lemma isNoDataQ_touch E G cap b s tx ty px py r s' : env_ok E -> dims (g_pw G) (g_ph G) -> Inv M E G cap b s -> cap <> 0 -> in_tile G tx ty ->
  isNoDataQ E s tx ty px py = Ok (r, s') -> touch_rel G tx ty s s'.
Proof.
  intros HE D I Hc Hin H. unfold isNoDataQ in H. rewrite (null_ok _ _ _ _ _ _ _ _ I Hin) in H. cbn [bind] in H.
  destruct (g_null G tx ty) eqn:Hn.
  - inversion H. subst. apply null_touch; auto using like_refl.
  - bnd H. bnd H. bnd H. inversion H; subst. eapply load_touch; eauto.
Qed.

Lemma step_touch E G cap b s o r s' : env_ok E -> dims (g_pw G) (g_ph G) -> Inv M E G cap b s -> cap <> 0 -> valid (e_k E) G o ->
  step E o s = Ok (r, s') ->
  match op_tile G o with Some (tx, ty) => in_tile G tx ty /\ touch_rel G tx ty s s' | None => like s s' end.
Proof.
  intros HE D I Hc HV H. destruct o; cbn [valid] in HV; cbn [op_tile]; cbn [step] in H.
  - destruct (quad_ok _ _ _ _ _ _ _ _ D I HV) as (Q1 & Q2 & Q3 & _). unfold read in H. rewrite Q1 in H. cbn [bind fst snd] in H.
    bnd H. inversion H; subst. destruct q as [v1 s1]. split; [auto|]. eapply readQ_touch; eauto.
  - destruct HV as [HV Hv]. destruct (quad_ok _ _ _ _ _ _ _ _ D I HV) as (Q1 & Q2 & Q3 & _). unfold write in H. rewrite Q1 in H. cbn [bind fst snd] in H.
    bnd H. inversion H; subst. split; [auto|]. eapply writeQ_touch; eauto.
  - destruct HV as [Q2 Q3]. bnd H. inversion H; subst. destruct q as [v1 s1]. split; [auto|]. eapply readQ_touch; eauto.
  - destruct HV as [Q2 Q3]. bnd H. inversion H; subst. split; [auto|]. eapply writeQ_touch; eauto.
  - destruct (quad_ok _ _ _ _ _ _ _ _ D I HV) as (Q1 & Q2 & Q3 & _). unfold isNoData in H. rewrite Q1 in H. cbn [bind fst snd] in H.
    bnd H. inversion H; subst. destruct q as [v1 s1]. split; [auto|]. eapply isNoDataQ_touch; eauto.
  - destruct HV as [Q2 Q3]. bnd H. inversion H; subst. destruct q as [v1 s1]. split; [auto|]. eapply isNoDataQ_touch; eauto.
  - bnd H. inversion H; subst. split; [auto|]. eapply load_touch; eauto.
  - inversion H. unfold like; cbn; auto.
  - inversion H. unfold like; cbn. split; [auto|]. split; [auto|]. intros j. destruct (t_null _); reflexivity.
Qed.

Lemma run_LR E G cap last0 ops : env_ok E -> dims (g_pw G) (g_ph G) -> cap = -1 \/ 1 <= cap ->
  (forall tx ty, in_tile G tx ty -> tid G tx ty <> last0) ->
  forall b s l r s', Inv M E G cap b s -> LR last0 cap l s -> Forall (valid (e_k E) G) ops ->
  (d_ro s = true -> Forall reads_only ops) ->
  (d_ro s = true \/ (d_evict s = 0 -> none_cached G s)) -> 0 <= d_evict s ->
  (d_ro s = false -> forall l1 v l2 outs s1, ops = l1 ++ OSetNoData v :: l2 -> run E l1 s = Ok (outs, s1) -> getEvictions s1 = 0) ->
  run E ops s = Ok (r, s') -> LR last0 cap (rev (flat_map (uses G) ops) ++ l) s'.
Proof.
  intros HE D Hc Hl0. assert (Hc0 : cap <> 0) by lia.
  induction ops as [|o ops IH]; intros b s l r s' I L HV HR HN H0 HS H; cbn [run flat_map rev app] in *.
  { inversion H; subst. exact L. }
  apply Forall_cons_iff in HV. destruct HV as [HV1 HV2]. bnd H. destruct q as [r1 s1]. cbn [fst snd] in H. bnd H. destruct q as [r2 s2]. cbn [fst snd] in H.
  inversion H; subst r s'. clear H.
  destruct (step_ok M E G cap b s o HE D I Hc0 HV1) as (s1' & E1 & I1 & (F1 & F2 & F3)).
  { intros Hr. specialize (HR Hr). inversion HR; auto. }
  { destruct HN as [HN|HN]; [auto|]. destruct (d_ro s) eqn:Hro; [auto|].
    destruct o; cbn; auto. right. right. apply HN. apply (HS eq_refl [] v ops [] s); reflexivity. }
  assert (s1' = s1) by congruence. subst s1'.
  assert (Er : d_ro s1 = d_ro s) by (unfold same_frame in F1; tauto).
  assert (L1 : LR last0 cap (rev (uses G o) ++ l) s1).
  { pose proof (step_touch E G cap b s o _ _ HE D I Hc0 HV1 Q) as T. unfold uses. destruct (op_tile G o) as [[tx ty]|].
    - destruct T as [Hin T]. unfold touch_rel in T. destruct (g_null G tx ty); [eapply LR_like; eauto|].
      destruct T as (s3 & T1 & T2). eapply LR_like; [|exact T2]. cbn [rev app].
      eapply LR_touch; try apply I; try assumption. apply (Hl0 tx ty Hin).
    - eapply LR_like; eauto. }
  rewrite rev_app_distr, <- app_assoc. eapply (IH _ s1 _ r2 s2 I1 L1); auto.
  { rewrite Er. intros Hr. specialize (HR Hr). inversion HR; auto. }
  { rewrite Er. destruct HN as [HN|HN]; [auto|]. right. intros Hz. apply F3; [lia|]. apply HN. lia. }
  { lia. }
  { rewrite Er. intros Hr l1 v l2 outs s3 El Ex. subst ops.
    eapply (HS Hr (o :: l1) v l2 _ s3); [reflexivity|]. cbn [run]. rewrite Q. cbn [bind fst snd]. rewrite Ex. cbn [bind fst snd]. reflexivity. }
Qed.
End Touch.
