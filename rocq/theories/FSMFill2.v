(** FillDepressions: the invariant of the loop, and what a completed call has done. *)
From Coq Require Import ZArith List Lia Bool Permutation QArith Qcanon Lqa.
From Verif Require Import Base Res QcTac Kahn RasterSpec RasterFacts FlowModel FlowSpec FlowProofs FlatsSpec FlatsProofs
  DHModel DHSpec FSMModel FSMSpec FSMPits FSMPits2 FSMFill.
Open Scope Z_scope.

Lemma mineP labels l : reflect (In l labels) (mine labels l).
Proof.
  unfold mine. destruct (existsb (Z.eqb l) labels) eqn:E; constructor.
  - apply existsb_exists in E. destruct E as [x [H1 H2]]. apply Z.eqb_eq in H2. subst. exact H1.
  - intros H. assert (existsb (Z.eqb l) labels = true) by (apply existsb_exists; exists l; split; [auto|apply Z.eqb_refl]). congruence.
Qed.

Lemma zsum_snoc l z : zsum (l ++ [z]) = zsum l + z.
Proof. unfold zsum. induction l as [|a l IH]; cbn [app fold_right]; lia. Qed.

(** ** the number of cells still to be put into the queue *)
Section Count.
  Variables (w h : Z) (dem lab : grid Z) (labels : list Z) (out : cell).
  Definition unseen (s : lstate) : nat := length (filter (fun c => negb (l_seen s c)) (cells w h)).
  Definition mu0 (s : lstate) : nat := (unseen s + length (l_q s))%nat.
  Lemma unseen_push s k c : inside w h c -> l_seen s c = false -> S (unseen (l_push k c s)) = unseen s.
  Proof.
    intros Ic Hc. unfold unseen. apply cells_inside in Ic. pose proof (cells_NoDup w h) as ND.
    assert (G : forall L, NoDup L -> (length (filter (fun d => negb (l_seen (l_push k c s) d)) L) + (if existsb (ceqb c) L then 1 else 0) = length (filter (fun d => negb (l_seen s d)) L))%nat).
    { induction L as [|a L IH]; intros N; [reflexivity|]. inversion N; subst. specialize (IH H2). cbn [filter existsb l_push l_seen] in *.
      unfold cset at 1, kupd at 1. destruct (ceqb_spec a c) as [->|Na].
      - destruct (ceqb_spec c c); [|congruence]. rewrite Hc. cbn [negb orb length].
        replace (existsb (ceqb c) L) with false in IH; [lia|]. symmetry. apply not_true_is_false. intros X. apply existsb_exists in X. destruct X as [y [Y1 Y2]]. destruct (ceqb_spec c y); congruence.
      - destruct (ceqb_spec c a); [congruence|]. cbn [orb]. destruct (l_seen s a); cbn [negb length]; lia. }
    specialize (G _ ND). replace (existsb (ceqb c) (cells w h)) with true in G; [lia|]. symmetry. apply existsb_exists. exists c. split; [exact Ic|]. destruct (ceqb_spec c c); congruence.
  Qed.
  Lemma visits_mu c : forall l s s', forM l (fill_visit w h dem lab labels out c) s = Ok s' -> (mu0 s' <= mu0 s)%nat.
  Proof.
    induction l as [|n l IH]; intros s s'; cbn [forM]; [intros K; injection K as <-; lia|].
    destruct (fill_visit w h dem lab labels out c n s) as [s1| |] eqn:E; try discriminate. cbn [bind]. intros K. apply IH in K.
    enough (mu0 s1 <= mu0 s)%nat by lia. clear K IH s'. unfold fill_visit in E. set (q := (fst c + dx D8 n, snd c + dy D8 n)) in *.
    destruct (inGrid w h (fst q) (snd q)) eqn:G; cbn [negb] in E; [|injection E as <-; lia].
    apply inside_grid in G. rewrite (gat_in w h lab q G) in E. cbn [bind] in E.
    destruct (negb (mine labels (lab (fst q) (snd q))) && negb (ceqb q out)); [injection E as <-; lia|].
    rewrite (gat_in w h dem q G) in E. cbn [bind] in E. destruct (gat w h dem (fst out) (snd out)) as [oe| |]; try discriminate. cbn [bind] in E.
    destruct (dem (fst q) (snd q) >? oe); [injection E as <-; lia|]. destruct (l_seen s q) eqn:S; [injection E as <-; lia|]. injection E as <-.
    unfold mu0. cbn [l_q l_push length]. match goal with |- (unseen (l_push ?k _ _) + _ <= _)%nat => pose proof (unseen_push s k q G S) end. lia.
  Qed.
End Count.

Section Loop.
  Variables (w h : Z) (dem lab : grid Z) (labels : list Z) (pit out : cell) (wtd0 : cell -> Qc) (vol0 : Qc).
  Notation e c := (elev_at dem c).
  Hypothesis Hpit : in_dep w h lab labels pit.
  Hypothesis Hout : inside w h out.
  Hypothesis Hlow : e pit <= e out.

  Definition good (c : cell) : Prop := inside w h c /\ (In (elev_at lab c) labels \/ c = out) /\ e c <= e out.
  Definition nout (c : cell) : bool := negb (ceqb c out).
  Lemma nout_iff c : nout c = true <-> c <> out.
  Proof. unfold nout. destruct (ceqb_spec c out); cbn; split; congruence. Qed.
  Definition qcells (s : lstate) : list cell := map snd (l_q s).

  Record core (s : lstate) : Prop := {
    co_q : forall k c, In (k, c) (l_q s) -> k = e c /\ good c /\ l_seen s c = true;
    co_nd : NoDup (l_aff s ++ filter nout (qcells s));
    co_aff : forall a, In a (l_aff s) -> good a /\ a <> out /\ l_seen s a = true;
    co_seen : forall c, l_seen s c = true -> In c (l_aff s) \/ In c (qcells s) \/ c = out;
    co_total : l_total s = zsum (map (elev_at dem) (l_aff s));
    co_vol : l_vol s = (vol0 + qsum (map wtd0 (l_aff s)))%Qc;
    co_wtd : (forall a, In a (l_aff s) -> l_wtd s a = 0%Qc /\ (wtd0 a <= 0)%Qc) /\ (forall c, ~ In c (l_aff s) -> l_wtd s c = wtd0 c);
    co_pit : l_seen s pit = true }.
  Definition closed_at (s : lstate) (a : cell) : Prop := forall r, neighbours D8 a r -> good r -> l_seen s r = true.
  Definition same (s s' : lstate) : Prop :=
    l_aff s' = l_aff s /\ l_total s' = l_total s /\ l_vol s' = l_vol s /\ l_wtd s' = l_wtd s /\
    (forall c, l_seen s c = true -> l_seen s' c = true) /\ incl (l_q s) (l_q s').

  Lemma core_push s c : core s -> good c -> (c = out \/ l_seen s c = false) -> core (l_push (e c) c s) /\ same s (l_push (e c) c s).
  Proof.
    intros C G U. assert (SM : forall d, l_seen s d = true -> l_seen (l_push (e c) c s) d = true).
    { intros d Hd. cbn. unfold cset, kupd. destruct (ceqb d c); auto. }
    assert (SC : l_seen (l_push (e c) c s) c = true) by (cbn; apply cset_same).
    assert (NI : c = out \/ ~ In c (l_aff s ++ filter nout (qcells s))).
    { destruct U as [->|U]; [left; auto|]. right. intros X. apply in_app_or in X. destruct X as [X|X].
      - apply (co_aff _ C) in X. destruct X as [_ [_ X]]. congruence.
      - apply filter_In in X. destruct X as [X _]. apply in_map_iff in X. destruct X as [[k d'] [E X]]. cbn in E. rewrite E in X. apply (co_q _ C) in X. destruct X as [_ [_ X]]. congruence. }
    split; [|split; [|split; [|split; [|split; [|split]]]]]; try reflexivity; [|exact SM|intros x Hx; right; exact Hx].
    constructor.
    - intros k d [E|X]; [injection E as <- <-; auto|]. destruct (co_q _ C k d X) as [E1 [E2 E3]]. auto.
    - cbn. destruct (nout c) eqn:N; [|apply (co_nd _ C)]. apply nout_iff in N. destruct NI as [|NI]; [contradiction|].
      apply (Permutation_NoDup (l := c :: l_aff s ++ filter nout (qcells s))); [apply Permutation_middle|]. constructor; [exact NI|apply (co_nd _ C)].
    - intros a Ha. destruct (co_aff _ C a Ha) as [A1 [A2 A3]]. auto.
    - intros d Hd. cbn [qcells l_push l_q map snd]. cbn in Hd. unfold cset, kupd in Hd. destruct (ceqb_spec d c) as [EQ|]; [right; left; left; symmetry; exact EQ|].
      destruct (co_seen _ C d Hd) as [|[|]]; auto. right; left; right; auto.
    - apply (co_total _ C).
    - apply (co_vol _ C).
    - apply (co_wtd _ C).
    - apply SM, (co_pit _ C).
  Qed.

  Lemma visits_ok c s : core s -> exists s', forM (dirs D8) (fill_visit w h dem lab labels out c) s = Ok s' /\
    core s' /\ same s s' /\ closed_at s' c.
  Proof.
    intros C.
    destruct (forM_inv (fun done s' => core s' /\ same s s' /\ forall n, In n done -> good (fst c + dx D8 n, snd c + dy D8 n) ->
       l_seen s' (fst c + dx D8 n, snd c + dy D8 n) = true) (fill_visit w h dem lab labels out c) (dirs D8)) with (s := s) as [s' [E [C' [S' V']]]].
    - intros done n rest s1 E [C1 [[S1 [S2 [S3 [S4 [S5 S6]]]]] V1]]. set (q := (fst c + dx D8 n, snd c + dy D8 n)).
      assert (Keep : ~ good q -> exists s', Ok s1 = Ok s' /\ core s' /\ same s s' /\ forall n0, In n0 (done ++ [n]) ->
         good (fst c + dx D8 n0, snd c + dy D8 n0) -> l_seen s' (fst c + dx D8 n0, snd c + dy D8 n0) = true).
      { intros NG. exists s1. split; auto. split; auto. split; [split; auto|]. intros m Hm. apply in_app_or in Hm. destruct Hm as [Hm|[<-|[]]]; [apply V1; auto|]. intros; contradiction. }
      unfold fill_visit. fold q. destruct (inGrid w h (fst q) (snd q)) eqn:G; cbn [negb].
      2:{ apply Keep. intros [X _]. apply inside_grid in X. congruence. }
      apply inside_grid in G. rewrite (gat_in w h lab q G). cbn [bind]. fold (elev_at lab q).
      destruct (negb (mine labels (elev_at lab q)) && negb (ceqb q out)) eqn:M.
      { apply Keep. intros [_ [[X|X] _]]; apply andb_true_iff in M; destruct M as [M1 M2].
        - destruct (mineP labels (elev_at lab q)); [discriminate|contradiction].
        - destruct (ceqb_spec q out); [discriminate|contradiction]. }
      assert (M' : In (elev_at lab q) labels \/ q = out).
      { destruct (mineP labels (elev_at lab q)); [left; auto|]. destruct (ceqb_spec q out); [right; auto|]. discriminate M. }
      rewrite (gat_in w h dem q G), (gat_in w h dem out Hout). cbn [bind]. fold (e q) (e out).
      destruct (e q >? e out) eqn:GT.
      { apply Keep. intros [_ [_ X]]. rewrite Z.gtb_ltb in GT. apply Z.ltb_lt in GT. lia. }
      rewrite Z.gtb_ltb in GT. apply Z.ltb_ge in GT.
      destruct (l_seen s1 q) eqn:SQ.
      { exists s1. split; auto. split; auto. split; [split; auto|]. intros m Hm. apply in_app_or in Hm. destruct Hm as [Hm|[<-|[]]]; auto. }
      destruct (core_push s1 q C1) as [C2 [T1 [T2 [T3 [T4 [T5 T6]]]]]]; [split; auto|right; auto|].
      exists (l_push (e q) q s1). split; auto. split; auto. split; [split; [congruence|split; [congruence|split; [congruence|split; [congruence|split; [auto|]]]]]|].
      + intros x Hx. apply T6, S6, Hx.
      + intros m Hm Gm. apply in_app_or in Hm. destruct Hm as [Hm|[<-|[]]]; [apply T5, V1; auto|]. cbn. apply cset_same.
    - split; auto. split; [split; auto; split; auto; split; auto; split; auto; split; auto; intros x Hx; auto|]. intros n [].
    - exists s'. split; auto. split; auto. split; auto. intros r Hr Gr. unfold neighbours in Hr. rewrite adjacent_iff in Hr.
      destruct Hr as [n [Hn [E1 E2]]]. specialize (V' n Hn). rewrite <- E1, <- E2 in V'. rewrite <- surjective_pairing in V'. auto.
  Qed.

  (** the cell taken off the queue *)
  Record popped (s : lstate) (c : cell) (s1 : lstate) : Prop := {
    po_fields : l_seen s1 = l_seen s /\ l_aff s1 = l_aff s /\ l_total s1 = l_total s /\ l_vol s1 = l_vol s /\ l_wtd s1 = l_wtd s;
    po_perm : Permutation (l_q s) ((e c, c) :: l_q s1);
    po_good : good c;
    po_min : forall d, In d (qcells s) -> e c <= e d;
    po_fresh : c <> out -> ~ In c (l_aff s) /\ ~ In c (qcells s1) }.
  Lemma pop_spec tb i s kc s1 : core s -> fill_pop tb i s = Some (kc, s1) -> popped s (snd kc) s1.
  Proof.
    intros C. unfold fill_pop. destruct (pq_pop key_gt (tb i) (l_q s)) as [[x q]|] eqn:P; [|discriminate]. intros K. injection K as <- <-.
    apply pq_pop_some in P. destruct P as [P M]. destruct x as [k c]. cbn [snd].
    assert (Hin : In (k, c) (l_q s)) by (rewrite P; left; auto). destruct (co_q _ C k c Hin) as [-> [G SN]].
    constructor; cbn; auto.
    - intros d Hd. apply in_map_iff in Hd. destruct Hd as [[k' d'] [E Hd]]. cbn in E. subst d'. specialize (M _ Hd). unfold key_gt in M. cbn in M.
      destruct (co_q _ C k' d Hd) as [-> _]. rewrite Z.gtb_ltb in M. apply Z.ltb_ge in M. exact M.
    - intros N. pose proof (co_nd _ C) as ND.
      assert (P2 : Permutation (l_aff s ++ filter nout (qcells s)) (c :: l_aff s ++ filter nout (map snd q))).
      { rewrite Permutation_middle. apply Permutation_app_head. unfold qcells.
        rewrite (filter_perm nout _ _ (Permutation_map snd P)). cbn [map snd filter]. rewrite (proj2 (nout_iff c) N). reflexivity. }
      apply (Permutation_NoDup P2) in ND. inversion ND as [|c0 l0 NI ND']; subst. rewrite in_app_iff in NI. split; [tauto|].
      intros X. apply NI. right. apply filter_In. split; [exact X|apply nout_iff; auto].
  Qed.
  Lemma pop_none tb i s : fill_pop tb i s = None -> l_q s = [].
  Proof.
    unfold fill_pop. destruct (pq_pop key_gt (tb i) (l_q s)) as [[x q]|] eqn:Q; [discriminate|]. intros _. apply pq_pop_none in Q; auto.
    intros Hne. destruct (min_by_key fst (l_q s)) as [a [Ha Hm]]; [exact Hne|]. exists a. split; auto.
  Qed.

  Lemma absorb_core s c s1 s2 : core s -> popped s c s1 -> fill_absorb out c (e c) s1 = Ok s2 -> core s2 /\
    l_seen s2 = l_seen s /\ l_q s2 = l_q s1 /\
    ((c = out /\ l_aff s2 = l_aff s /\ l_vol s2 = l_vol s) \/
     (c <> out /\ l_aff s2 = l_aff s ++ [c] /\ l_vol s2 = (l_vol s + l_wtd s c)%Qc /\ (wtd0 c <= 0)%Qc)).
  Proof.
    intros C P. destruct (po_fields _ _ _ P) as [F1 [F2 [F3 [F4 F5]]]].
    assert (QI : forall x, In x (l_q s1) -> In x (l_q s)) by (intros x Hx; rewrite (po_perm _ _ _ P); right; auto).
    assert (QC : forall d, In d (qcells s) <-> d = c \/ In d (qcells s1)).
    { intros d. unfold qcells. split.
      - intros X. apply in_map_iff in X. destruct X as [[k d'] [E X]]. cbn in E. subst d'. rewrite (po_perm _ _ _ P) in X.
        destruct X as [X|X]; [injection X as _ ->; auto|]. right. apply in_map_iff. exists (k, d). auto.
      - intros [->|X]; [apply in_map_iff; exists (e c, c); split; auto; rewrite (po_perm _ _ _ P); left; auto|].
        apply in_map_iff in X. destruct X as [x [E X]]. apply in_map_iff. exists x. auto. }
    unfold fill_absorb. destruct (ceqb_spec c out) as [->|N].
    - intros K. injection K as <-. split; [|split; [exact F1|split; [reflexivity|left; auto]]].
      constructor; rewrite ?F1, ?F2, ?F3, ?F4, ?F5; try first [exact (co_aff _ C)|exact (co_total _ C)|exact (co_vol _ C)|exact (co_wtd _ C)|exact (co_pit _ C)].
      + intros k d Hd. apply (co_q _ C). auto.
      + pose proof (co_nd _ C) as ND. pose proof (filter_perm nout _ _ (Permutation_map snd (po_perm _ _ _ P))) as PF. cbn [map snd filter] in PF.
        unfold nout in PF at 2. destruct (ceqb_spec out out); [|congruence]. cbn in PF. unfold qcells in *. fold nout in PF. eapply Permutation_NoDup; [|exact ND]. apply Permutation_app_head. exact PF.
      + intros d Hd. destruct (co_seen _ C d Hd) as [X|[X|X]]; auto. apply QC in X. destruct X; auto.
    - destruct (qleP (l_wtd s1 c) 0) as [W|]; [|discriminate]. cbn [assert_ bind]. intros K. injection K as <-. cbn.
      destruct (po_fresh _ _ _ P N) as [FA FQ].
      assert (W0 : l_wtd s c = wtd0 c) by (apply (co_wtd _ C); auto). rewrite F5, W0 in W. rewrite F1, F2, F3, F4, F5.
      split; [|split; [reflexivity|split; [reflexivity|right; auto]]].
      assert (SC : l_seen s c = true).
      { apply (co_q _ C (e c) c). rewrite (po_perm _ _ _ P). left; auto. }
      constructor; cbn.
      + intros k d Hd. apply (co_q _ C). auto.
      + rewrite <- app_assoc. cbn [app]. eapply Permutation_NoDup; [|apply (co_nd _ C)]. apply Permutation_app_head.
        unfold qcells. rewrite (filter_perm nout _ _ (Permutation_map snd (po_perm _ _ _ P))). cbn [map snd filter]. rewrite (proj2 (nout_iff c) N). reflexivity.
      + intros a Ha. apply in_app_or in Ha. destruct Ha as [Ha|[<-|[]]]; [apply (co_aff _ C); auto|]. split; [apply (po_good _ _ _ P)|]. auto.
      + intros d Hd. destruct (co_seen _ C d Hd) as [X|[X|X]]; auto; [left; apply in_or_app; auto|]. apply QC in X.
        destruct X as [->|X]; [left; apply in_or_app; right; left; auto|auto].
      + rewrite map_app. cbn [map]. rewrite zsum_snoc, (co_total _ C). reflexivity.
      + rewrite map_app, qsum_app, (co_vol _ C), W0. transitivity (vol0 + (qsum (map wtd0 (l_aff s)) + (wtd0 c + 0)))%Qc; [ring|reflexivity].
      + split.
        * intros a Ha. apply in_app_or in Ha. destruct (ceqb_spec a c) as [->|Na].
          { split; [apply cset_same|exact W]. }
          destruct Ha as [Ha|[|[]]]; [|congruence]. rewrite cset_other by auto. apply (co_wtd _ C); auto.
        * intros d Hd. rewrite in_app_iff in Hd. rewrite cset_other by (intros ->; apply Hd; right; left; auto). apply (co_wtd _ C). tauto.
      + apply (co_pit _ C).
  Qed.

  Definition closed (s : lstate) : Prop := forall a, In a (l_aff s) -> closed_at s a.
  (** the last flooded cell lies under water *)
  Definition last_under (s : lstate) : Prop := forall l b, l_aff s = l ++ [b] ->
    (zq (DepressionVolume (e b) (length (l_aff s)) (l_total s)) + tolerance <= l_vol s)%Qc.
  Definition linv (s : lstate) : Prop := core s /\ closed s /\ last_under s /\ l_q s <> [].

  Lemma start_inv : linv (mkL [(e pit, pit)] (cset (fun _ => false) pit true) [] 0 vol0 wtd0).
  Proof.
    assert (G : good pit) by (split; [apply Hpit|split; [left; apply Hpit|exact Hlow]]).
    split; [|split; [intros a []|split; [intros l b E; destruct l; discriminate E|discriminate]]]. constructor; cbn.
    - intros k c [E|[]]. injection E as <- <-. split; auto. split; auto. apply cset_same.
    - destruct (nout pit); repeat constructor; auto.
    - intros a [].
    - intros c Hc. unfold cset, kupd in Hc. destruct (ceqb_spec c pit); [subst; auto|discriminate].
    - reflexivity.
    - unfold qsum. cbn. ring.
    - split; [intros a []|reflexivity].
    - apply cset_same.
  Qed.

  (** a round that does not finish *)
  Lemma body_step s c s1 s' : linv s -> popped s c s1 -> fill_body w h dem lab labels out c s1 = Ok (inr s') ->
    linv s' /\
    (0 <= l_vol s)%Qc /\
    (zq (DepressionVolume (e c) (length (l_aff s)) (l_total s)) - l_wtd s c + tolerance <= l_vol s)%Qc /\
    exists s2, core s2 /\ closed s2 /\ l_aff s' = l_aff s2 /\ l_vol s' = l_vol s2 /\ closed_at s2 c /\
      (forall d, l_seen s d = true -> l_seen s2 d = true) /\ incl (l_q s1) (l_q s2) /\
      (l_q s2 <> [] -> s' = s2) /\ (l_q s2 = [] -> s' = l_push (e out) out s2) /\ (mu0 w h s2 <= mu0 w h s1)%nat /\
      ((c = out /\ l_aff s2 = l_aff s /\ l_vol s2 = l_vol s) \/
       (c <> out /\ l_aff s2 = l_aff s ++ [c] /\ l_vol s2 = (l_vol s + l_wtd s c)%Qc /\ (wtd0 c <= 0)%Qc)).
  Proof.
    intros [C [CL [LA NE]]] P. destruct (po_fields _ _ _ P) as [F1 [F2 [F3 [F4 F5]]]].
    unfold fill_body. destruct (po_good _ _ _ P) as [Ic [Mc Lc]].
    rewrite (gat_in w h dem c Ic). cbn [bind]. fold (e c). rewrite F2, F3, F4, F5.
    destruct (qleP 0 (l_vol s)) as [V0|]; [|discriminate]. cbn [assert_ bind]. rewrite (gat_in w h lab c Ic). cbn [bind].
    destruct (mine labels (lab (fst c) (snd c)) && qlt 0 (l_wtd s c)); [discriminate|].
    destruct (fp_leP (l_vol s) (zq (DepressionVolume (e c) (length (l_aff s)) (l_total s)) - l_wtd s c)) as [|NT].
    { destruct (fill_finish w h dem out c (e c) s1); discriminate. }
    destruct (fill_absorb out c (e c) s1) as [sa| |] eqn:EA; try discriminate. cbn [bind].
    destruct (absorb_core s c s1 sa C P EA) as [Ca [SA [QA DA]]].
    destruct (visits_ok c sa Ca) as [s2 [EV [C2 [[T1 [T2 [T3 [T4 [T5 T6]]]]] CC]]]]. rewrite EV. cbn [bind].
    intros K.
    assert (M2 : (mu0 w h s2 <= mu0 w h s1)%nat).
    { apply visits_mu in EV. unfold mu0, unseen in *. rewrite SA, QA in EV. rewrite F1. exact EV. }
    assert (CL2 : closed s2).
    { intros a Ha r Hr Gr. rewrite T1 in Ha. destruct DA as [[_ [DA _]]|[_ [DA _]]]; rewrite DA in Ha.
      - apply T5. rewrite SA. exact (CL a Ha r Hr Gr).
      - apply in_app_or in Ha. destruct Ha as [Ha|[<-|[]]]; [apply T5; rewrite SA; exact (CL a Ha r Hr Gr)|]. exact (CC r Hr Gr). }
    assert (LA2 : last_under s2).
    { intros l b E. destruct DA as [[Ec [DA DV]]|[Nc [DA [DV DW]]]].
      - rewrite T1, DA in E |- *. rewrite T3, DV. assert (TT : l_total s2 = l_total s) by (rewrite T2, (co_total _ Ca), DA, <- (co_total _ C); reflexivity). rewrite TT. apply (LA l b E).
      - rewrite T1, DA in E |- *. apply app_inj_tail in E. destruct E as [_ <-]. rewrite T3, DV, T2, (co_total _ Ca), DA, app_length, Nat.add_1_r.
        rewrite <- under_zq. replace (zsum (map (elev_at dem) (l_aff s ++ [c]))) with (l_total s + e c).
        2:{ rewrite (co_total _ C), map_app. cbn [map]. rewrite zsum_snoc. reflexivity. }
        unfold under_level. rewrite times_S, zq_add. rewrite <- under_zq in NT. unfold under_level in NT. qlra. }
    split; [|split; [exact V0|split; [qlra|]]].
    - destruct (l_q s2) as [|x q] eqn:Q2.
      + rewrite (gat_in w h dem out Hout) in K. cbn [bind] in K. injection K as <-. fold (e out).
        destruct (core_push s2 out C2) as [C3 [U1 [U2 [U3 [U4 [U5 U6]]]]]]; [split; [auto|split; [right; auto|lia]]|left; auto|].
        split; [exact C3|]. split; [|split; [|discriminate]].
        * intros a Ha r Hr Gr. rewrite U1 in Ha. apply U5. exact (CL2 a Ha r Hr Gr).
        * intros l b E. rewrite U1 in E |- *. rewrite U2, U3. apply (LA2 l b E).
      + injection K as <-. split; auto. split; auto. split; auto. rewrite Q2. discriminate.
    - exists s2. split; auto. split; auto.
      assert (Es : (l_q s2 <> [] -> s' = s2) /\ (l_q s2 = [] -> s' = l_push (e out) out s2)).
      { destruct (l_q s2) as [|x q] eqn:Q2.
        - rewrite (gat_in w h dem out Hout) in K. cbn [bind] in K. injection K as <-. split; [congruence|reflexivity].
        - injection K as <-. split; [reflexivity|discriminate]. }
      destruct Es as [Es1 Es2].
      assert (Ef : l_aff s' = l_aff s2 /\ l_vol s' = l_vol s2).
      { destruct (l_q s2) as [|x q] eqn:Q2; [rewrite Es2 by auto; auto|rewrite Es1 by discriminate; auto]. }
      destruct Ef. split; auto. split; auto. split; auto. split; [intros d Hd; apply T5; rewrite SA; auto|].
      split; [rewrite <- QA; exact T6|]. split; auto. split; auto. split; [exact M2|]. rewrite T1, T3. exact DA.
  Qed.

  (** the round that finishes *)
  Lemma max_sum level : forall A, (forall a, In a A -> (zq (e a) < level + tolerance)%Qc) ->
    (under_level (length A) (zsum (map (elev_at dem) A)) level <= qsum (map (fun a => qmax 0 (level - zq (e a))) A))%Qc /\
    (qsum (map (fun a => qmax 0 (level - zq (e a))) A) <= under_level (length A) (zsum (map (elev_at dem) A)) level + times (length A) tolerance)%Qc /\
    (forall z, level = zq z -> qsum (map (fun a => qmax 0 (level - zq (e a))) A) = under_level (length A) (zsum (map (elev_at dem) A)) level).
  Proof.
    intros A HA. rewrite under_sum. pose proof tol_pos.
    destruct (qsum_between (fun a => level - zq (e a))%Qc (fun a => qmax 0 (level - zq (e a))) tolerance A) as [B1 B2].
    - intros a Ha. specialize (HA a Ha). split; qlra.
    - split; [exact B1|]. split; [exact B2|]. intros z ->. apply qsum_ext_in. intros a Ha. specialize (HA a Ha). apply zq_near in HA. apply zq_le in HA. qlra.
  Qed.

  Lemma finish_spec s c s1 wt : linv s -> popped s c s1 -> fill_body w h dem lab labels out c s1 = Ok (inl wt) ->
    exists level, lake w h dem lab labels out (l_aff s) c level wtd0 wt /\
      within (times (S (length (l_aff s))) tolerance) (surface_total w h wtd0 + vol0) (surface_total w h wt) /\
      (wt c <= 0 \/ wt c = l_wtd s c)%Qc /\ (level <= zq (e c))%Qc /\ (0 <= l_vol s)%Qc /\
      (l_vol s < zq (DepressionVolume (e c) (length (l_aff s)) (l_total s)) - l_wtd s c + tolerance)%Qc /\
      (level = zq (e c) \/ (under_level (length (l_aff s)) (l_total s) level = l_vol s /\ l_aff s <> [])).
  Proof.
    intros [C [CL [LA NE]]] P. destruct (po_fields _ _ _ P) as [F1 [F2 [F3 [F4 F5]]]].
    unfold fill_body. destruct (po_good _ _ _ P) as [Ic [Mc Lc]].
    rewrite (gat_in w h dem c Ic). cbn [bind]. fold (e c). rewrite F2, F3, F4, F5.
    destruct (qleP 0 (l_vol s)) as [V0|]; [|discriminate]. cbn [assert_ bind]. rewrite (gat_in w h lab c Ic). cbn [bind].
    destruct (mine labels (lab (fst c) (snd c)) && qlt 0 (l_wtd s c)); [discriminate|].
    destruct (fp_leP (l_vol s) (zq (DepressionVolume (e c) (length (l_aff s)) (l_total s)) - l_wtd s c)) as [TR|NT].
    2:{ destruct (fill_absorb out c (e c) s1) as [sa| |] eqn:EA; try discriminate. cbn [bind].
        destruct (forM (dirs D8) (fill_visit w h dem lab labels out c) sa) as [s2| |]; try discriminate. cbn [bind].
        destruct (l_q s2); [|discriminate]. destruct (gat w h dem (fst out) (snd out)); discriminate. }
    destruct (fill_finish w h dem out c (e c) s1) as [wt1| |] eqn:EF; try discriminate. cbn [bind]. intros K. injection K as ->.
    unfold fill_finish in EF. rewrite F2, F3, F4, F5 in EF.
    destruct (DetermineWaterLevel (l_wtd s c) (l_vol s) (e c) (length (l_aff s)) (l_total s)) as [[sw lev]| |] eqn:ED; try discriminate. cbn [bind] in EF.
    rewrite (gat_in w h dem out Hout) in EF. cbn [bind] in EF. fold (e out) in EF.
    destruct (dwl_spec _ _ _ _ _ _ _ V0 ED) as [D1 [D2 [D3 D4]]].
    set (level := if fp_eq lev (zq (e out)) then zq (e out) else lev) in *.
    destruct (match rev (l_aff s) with [] => Ok tt | b :: _ => do eb <- gat w h dem (fst b) (snd b); assert_ (fp_le (zq eb) level) end) as [u| |]; try discriminate.
    cbn [bind] in EF. destruct (assert_ (qlt level (zq (e c)) || fp_eq (zq (e c)) level)) as [u'| |]; try discriminate. cbn [bind] in EF.
    assert (NDA : NoDup (l_aff s)).
    { pose proof (co_nd _ C) as ND. revert ND. generalize (filter (nout) (qcells s)). clear. induction (l_aff s) as [|a A IH]; intros f H; [constructor|].
      inversion H; subst. constructor; [|eapply IH; eauto]. intros X. apply H2. apply in_or_app. auto. }
    assert (NC : ~ In c (l_aff s)).
    { destruct (ceqb_spec c out) as [->|N]; [intros X; apply (co_aff _ C) in X; destruct X as [_ [X _]]; congruence|].
      apply (po_fresh _ _ _ P N). }
    assert (IA : forall a, In a (l_aff s) -> inside w h a) by (intros a Ha; apply (co_aff _ C a Ha)).
    destruct (backfill_spec w h dem level _ _ _ NDA IA EF) as [B1 B2].
    assert (LE : (level <= zq (e c))%Qc /\ ((level = zq (e c) /\ lev = level) \/ (level = zq (e out) /\ level = zq (e c) /\ (lev <= level)%Qc /\ (level - lev < tolerance)%Qc) \/ level = lev)).
    { unfold level. destruct (fp_eqP lev (zq (e out))) as [[X Y]|X]; [|split; auto].
      assert (OC : e out = e c). { apply Z.le_antisymm; [apply zq_near; qlra|exact Lc]. }
      rewrite OC in *. split; [apply Qcle_refl|]. right; left. split; [reflexivity|]. split; [reflexivity|]. split; [exact D3|]. exact Y. }
    destruct LE as [LE1 LE2]. exists level.
    split; [|split; [|split; [|split; [exact LE1|split; [exact V0|split; [exact TR|]]]]]].
    - constructor.
      + split; [exact NDA|]. intros a Ha. destruct (co_aff _ C a Ha) as [[G1 [G2 G3]] [N _]]. split; [|exact N]. split; [exact G1|]. destruct G2; [auto|contradiction].
      + intros a Ha. split; [apply (co_wtd _ C); auto|]. apply (B1 a Ha).
      + split; [exact NC|]. split; [destruct Mc; [left; split; auto|right; auto]|].
        rewrite (B2 c NC), cset_same. rewrite <- (proj2 (co_wtd _ C) c NC). exact D1.
      + intros d Hd Nd. rewrite (B2 d Hd), cset_other by auto. apply (co_wtd _ C). exact Hd.
    - destruct (split_incl (c :: l_aff s) (cells w h)) as [rest PR].
      { constructor; auto. }
      { intros x [<-|Hx]; apply cells_inside; auto. }
      assert (RS : forall d, In d rest -> wt d = wtd0 d).
      { intros d Hd. apply (split_rest _ _ _ (cells_NoDup w h) PR) in Hd. destruct Hd as [_ Hd]. rewrite B2 by (intros X; apply Hd; right; auto).
        rewrite cset_other by (intros ->; apply Hd; left; auto). apply (co_wtd _ C). intros X; apply Hd; right; auto. }
      assert (SUM : forall f, surface_total w h f = (f c + (qsum (map f (l_aff s)) + qsum (map f rest)))%Qc).
      { intros f. unfold surface_total. rewrite (qsum_perm _ _ (Permutation_map f PR)). rewrite map_app, qsum_app. cbn [map]. unfold qsum at 1. cbn [fold_right]. fold (qsum (map f (l_aff s))). ring. }
      rewrite !SUM. rewrite (qsum_ext_in wt wtd0 rest RS).
      rewrite (qsum_ext_in wt (fun a => qmax 0 (level - zq (e a))) (l_aff s)) by (intros a Ha; apply (B1 a Ha)).
      rewrite (B2 c NC), cset_same. rewrite <- (proj2 (co_wtd _ C) c NC).
      pose proof (co_vol _ C) as VV.
      destruct (max_sum level (l_aff s) ltac:(intros a Ha; apply (B1 a Ha))) as [M1 [M2 M3]]. rewrite <- (co_total _ C) in M1, M2, M3.
      set (U := under_level (length (l_aff s)) (l_total s) level) in *. set (S0 := qsum (map wtd0 (l_aff s))) in *. change (qsum (map wtd0 (l_aff s))) with S0 in VV. set (T := qsum (map (fun a => qmax 0 (level - zq (e a))) (l_aff s))) in *.
      set (R0 := qsum (map wtd0 rest)).
      assert (GOAL : within (times (S (length (l_aff s))) tolerance) (l_vol s) (T + (sw - l_wtd s c))).
      { destruct D4 as [[-> D4]|[-> [D4 [N0 D5]]]].
        - assert (LV : level = zq (e c)) by (destruct LE2 as [[X _]|[[_ [X _]]|X]]; auto). rewrite (M3 _ LV). unfold U. rewrite LV. exact D4.
        - rewrite times_S. pose proof tol_pos. pose proof (times_nonneg (length (l_aff s)) tolerance ltac:(qlra)).
          destruct LE2 as [[X Y]|[[X [Y [Z1 Z2]]]|X]].
          + assert (TU : T = l_vol s) by (etransitivity; [exact (M3 _ X)|]; etransitivity; [|exact D4]; rewrite Y; reflexivity). rewrite TU. split; qlra.
          + assert (TU : T = (times (length (l_aff s)) level - zq (l_total s))%Qc) by exact (M3 _ Y). rewrite TU.
            assert (Q1 : (times (length (l_aff s)) lev <= times (length (l_aff s)) level)%Qc) by (apply times_mono; auto).
            assert (Q2 : (times (length (l_aff s)) level - times (length (l_aff s)) lev <= times (length (l_aff s)) tolerance)%Qc) by (rewrite <- times_sub; apply times_mono; qlra).
            unfold under_level in D4. split; qlra.
          + assert (UV : under_level (length (l_aff s)) (l_total s) level = l_vol s) by (rewrite X; exact D4).
            assert (M1' : (l_vol s <= T)%Qc) by (rewrite <- UV; exact M1).
            assert (M2' : (T <= l_vol s + times (length (l_aff s)) tolerance)%Qc) by (rewrite <- UV; exact M2). split; qlra. }
      destruct GOAL as [G1 G2]. unfold within. rewrite VV in G1, G2. split; qlra.
    - rewrite (B2 c NC), cset_same. destruct D2 as [D2| ->]; auto.
    - destruct LE2 as [[X _]|[[_ [X _]]|X]]; auto. destruct D4 as [[D4 _]|[_ [D4 [N0 _]]]]; [left; congruence|]. right. rewrite X. split; [exact D4|]. intros E. rewrite E in N0. apply N0. reflexivity.
  Qed.

  Lemma loop_partial tb : forall fuel i s wt, linv s -> fill_loop w h dem lab labels out tb fuel i s = Some (Ok wt) ->
    exists A sill level, lake w h dem lab labels out A sill level wtd0 wt /\
      within (times (S (length A)) tolerance) (surface_total w h wtd0 + vol0) (surface_total w h wt).
  Proof.
    induction fuel as [|f IH]; intros i s wt H; cbn [fill_loop]; destruct (fill_pop tb i s) as [[kc s1]|] eqn:P; try discriminate.
    pose proof (pop_spec tb i s kc s1 (proj1 H) P) as PP.
    destruct (fill_body w h dem lab labels out (snd kc) s1) as [[wt1|s2]| |] eqn:B; try discriminate.
    - intros K. injection K as ->. destruct (finish_spec _ _ _ _ H PP B) as [level [L1 [L2 _]]]. eauto.
    - intros K. destruct (body_step _ _ _ _ H PP B) as [H2 _]. eapply IH; eauto.
  Qed.
End Loop.
