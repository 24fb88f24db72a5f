(** C78: flat resolution for D-infinity directions. *)
From Coq Require Import ZArith Reals List Bool Permutation Lra Lia Psatz FunctionalExtensionality.
From Verif Require Import Base Res BFS RasterSpec RasterFacts FlowModel FlowSpec FlowProofs FlatsModel FlatsSpec FlatsProofs FlatsProofs2 FlatsProofs3
  TAModel TAProofs DinfModel DinfSpec DinfProofs DinfProofs2 DinfProofs3 DinfArea DinfArea2 PropertiesDinf DinfFlatsModel DinfFlatsSpec DinfFlatsProofs.
Import ListNotations.
Open Scope R_scope.

Definition at_ {A} (g : grid A) (p : Z * Z) : A := g (fst p) (snd p).
(** elevations (or increments) as real numbers *)
Definition reals (e : grid Z) : grid R := fun x y => IZR (e x y).
(** a data cell to which dinf_flow_directions gave no direction *)
Definition undirected (e : grid Z) (nd w h : Z) (fd0 : grid R) (p : Z * Z) : Prop := has_data e nd w h p /\ at_ fd0 p = 0.

Lemma gset_at {A} (g : grid A) p v q : at_ (gset g (fst p) (snd p) v) q = if ceqb q p then v else at_ g q.
Proof.
  destruct p as [a b], q as [c d]. unfold at_. cbn [fst snd]. destruct (ceqb_spec (c, d) (a, b)) as [E|E].
  - injection E as -> ->. apply gset_same.
  - apply gset_other. intros Q. apply E. congruence.
Qed.

(** dinf_flow_flats: every cell of [order] without a direction gets the masked one, the others keep theirs *)
Lemma flow_flats_ok w h mask groups order fd : NoDup order ->
  (forall c, In c order -> inside w h c /\ ~ on_edge w h (fst c) (snd c)) ->
  (forall c, In c order -> (0 <= at_ mask c)%Z) ->
  exists fd', dinf_flow_flats w h mask groups order fd = Ok fd' /\
    forall p, (In p order -> at_ fd p = 0 -> dinf_masked_FlowDir w h mask groups (fst p) (snd p) = Ok (at_ fd' p)) /\
              (~ In p order \/ at_ fd p <> 0 -> at_ fd' p = at_ fd p).
Proof.
  unfold dinf_flow_flats. revert fd. induction order as [|c l IH]; intros fd ND HI HM.
  - exists fd. split; [reflexivity|]. intros p. split; [intros []|reflexivity].
  - inversion ND as [|? ? Nc NDl]; subst. destruct (HI c (or_introl eq_refl)) as [Ic Ec]. assert (Mc := HM c (or_introl eq_refl)).
    cbn [forM]. rewrite !(gat_ok w h _ _ _ Ic). cbn [bind]. fold (at_ mask c). fold (at_ fd c).
    destruct (Z.eqb_spec (at_ mask c) (-1)); [lia|].
    assert (K : exists v, (if Req_EM_T (at_ fd c) 0 then do d' <- dinf_masked_FlowDir w h mask groups (fst c) (snd c); Ok (gset fd (fst c) (snd c) d') else Ok fd)
       = Ok (if Req_EM_T (at_ fd c) 0 then gset fd (fst c) (snd c) v else fd) /\
       (at_ fd c = 0 -> dinf_masked_FlowDir w h mask groups (fst c) (snd c) = Ok v)).
    { destruct (masked_dir w h mask groups (fst c) (snd c) (inner_nbrs w h _ _ Ic Ec)) as [th [E _]]. exists th.
      rewrite E. destruct (Req_EM_T (at_ fd c) 0); auto. }
    destruct K as [v [-> Hv]]. cbn [bind].
    destruct (IH (if Req_EM_T (at_ fd c) 0 then gset fd (fst c) (snd c) v else fd) NDl) as [fd' [E H]].
    { intros d Hd. apply HI. right. exact Hd. }
    { intros d Hd. apply HM. right. exact Hd. }
    exists fd'. split; [exact E|]. intros p. destruct (H p) as [H1 H2].
    assert (O : p <> c -> at_ (if Req_EM_T (at_ fd c) 0 then gset fd (fst c) (snd c) v else fd) p = at_ fd p).
    { intros N. destruct (Req_EM_T (at_ fd c) 0); [|reflexivity]. rewrite gset_at. destruct (ceqb_spec p c); [contradiction|reflexivity]. }
    destruct (ceqb_spec p c) as [Q|N].
    + subst p. clear O. rewrite (H2 (or_introl Nc)).
      destruct (Req_EM_T (at_ fd c) 0) as [Z0|Z0].
      * rewrite gset_at. destruct (ceqb_spec c c); [|congruence].
        split; [intros _ _; apply Hv; exact Z0|]. intros [N|N]; [destruct N; left; reflexivity|contradiction].
      * split; [contradiction|reflexivity].
    + rewrite (O N) in H1, H2. split.
      * intros [Q'|Hp]; [congruence|]. exact (H1 Hp).
      * intros [Hp|Hp]; apply H2; [left; intros X; apply Hp; right; exact X|right; exact Hp].
Qed.

(** the whole run, in terms of the mask and the groups *)
Lemma resolve_ok w h e nd o1 o2 : Permutation o1 (scan w h) -> Permutation o2 (interior_cells w h) ->
  exists fd0 fd mask groups,
    dinf_flow_directions w h (reals e) (IZR nd) o1 = Ok fd0 /\
    resolve_flats_barnes e (status fd0) w h = Some (Ok (mask, groups)) /\
    resolve_flats_barnes_dinf w h e nd o1 o2 = Some (Ok fd) /\
    good_mask e nd w h (undirected e nd w h fd0) mask groups /\
    (forall p, inside w h p -> (at_ fd0 p = -1 <-> ~ has_data e nd w h p)) /\
    (forall p, inside w h p -> 0 <= at_ fd0 p <= 2 * PI \/ at_ fd0 p = -1) /\
    forall p, (inside w h p -> ~ on_edge w h (fst p) (snd p) -> at_ fd0 p = 0 -> dinf_masked_FlowDir w h mask groups (fst p) (snd p) = Ok (at_ fd p)) /\
              (~ inside w h p \/ on_edge w h (fst p) (snd p) \/ at_ fd0 p <> 0 -> at_ fd p = at_ fd0 p).
Proof.
  intros H1 H2. destruct (C76_directions w h (reals e) (IZR nd) o1 H1) as [fd0 [E0 D0]].
  assert (P := PI_RGT_0).
  assert (R : forall p, inside w h p -> (elev_at e p = nd /\ at_ fd0 p = -1) \/ (elev_at e p <> nd /\ 0 <= at_ fd0 p <= 2 * PI)).
  { intros [x y] I. destruct (D0 x y I) as [A [B C]]. unfold elev_at, at_. cbn [fst snd] in *. unfold reals in A, B, C.
    destruct (Z.eq_dec (e x y) nd) as [Q|Q]; [left; split; [exact Q|apply A; congruence]|right; split; [exact Q|]].
    assert (Q' : IZR (e x y) <> IZR nd) by (intros K; apply Q; apply eq_IZR; exact K).
    destruct (isEdgeCell w h x y) eqn:Ed.
    - apply (on_edge_iff w h x y I) in Ed. destruct (B Q' Ed) as [k [K [-> _]]].
      assert (K0 : 0 <= IZR k) by (apply IZR_le; lia). assert (K8 : IZR k <= 8) by (apply IZR_le; lia). nra.
    - assert (Nd : ~ on_edge w h x y) by (rewrite on_edge_iff by exact I; congruence).
      destruct (C Q' Nd) as [[-> _]|[s [_ [_ K]]]]; lra. }
  assert (ND : forall p, inside w h p -> (at_ fd0 p = -1 <-> ~ has_data e nd w h p)).
  { intros p I. destruct (R p I) as [[A B]|[A B]]; unfold has_data; split; intros K; try tauto; try lra. }
  destruct (flat_mask_ok dirs_codes w h nd e (status fd0) (undirected e nd w h fd0)) with (order := cells w h) as [mask [groups [Em G]]].
  - intros p I. cbn. rewrite Z.eqb_eq, <- (ND p I). unfold status, at_, dinf_NO_DATA, FLOWDIR_NO_DATA, FlowModel.NO_FLOW.
    destruct (Req_EM_T _ _); [tauto|]. destruct (Req_EM_T _ _); split; intros; try lia; lra.
  - intros p I. cbn. rewrite Z.eqb_eq. unfold undirected. destruct (R p I) as [[A B]|[A B]];
      unfold status, at_, dinf_NO_DATA, FLOWDIR_NO_DATA, FlowModel.NO_FLOW, has_data in *.
    + destruct (Req_EM_T _ _); [|contradiction]. split; [discriminate|]. intros [_ K]. lra.
    + destruct (Req_EM_T (fd0 (fst p) (snd p)) (-1)); [lra|]. destruct (Req_EM_T _ _); split; intros; try discriminate; try tauto.
  - intros p F. apply F.
  - intros p _. reflexivity.
  - left. reflexivity.
  - intros c. apply cells_inside.
  - assert (HI : forall c, In c o2 <-> inside w h c /\ ~ on_edge w h (fst c) (snd c)).
    { intros c. rewrite <- interior_cells_In. split; intros K; [exact (Permutation_in c H2 K)|exact (Permutation_in c (Permutation_sym H2) K)]. }
    destruct (flow_flats_ok w h mask groups o2 fd0) as [fd [Ef H]].
    { eapply Permutation_NoDup; [symmetry; eauto|apply interior_cells_NoDup]. }
    { intros c Hc. apply HI. exact Hc. }
    { intros c Hc. apply HI in Hc. apply (mask_value_nonneg e nd w h (undirected e nd w h fd0) (fun p F => proj1 F) c).
      apply (proj1 G). apply Hc. }
    exists fd0, fd, mask, groups. split; [exact E0|]. split; [exact Em|].
    split. { unfold resolve_flats_barnes_dinf. change (fun x y : Z => IZR (e x y)) with (reals e). rewrite E0. cbn [bindF]. unfold resolve_flats_barnes. rewrite Em. cbn [bindF fst snd]. rewrite Ef. reflexivity. }
    split; [exact G|]. split; [exact ND|]. split; [intros p I; destruct (R p I); tauto|].
    intros p. destruct (H p) as [K1 K2]. split.
    + intros I Ne Z0. apply K1; [apply HI; auto|exact Z0].
    + intros [K|[K|K]]; apply K2; [left|left|right; exact K]; rewrite HI; tauto.
Qed.

Lemma lower_nbr (w h : Z) mask groups c k : lower mask groups (fst c) (snd c) k <->
  at_ groups (step c k) = at_ groups c /\ (at_ mask (step c k) < at_ mask c)%Z.
Proof. reflexivity. Qed.
Lemma touching_step p q : touching p q -> exists k, (0 <= k < 8)%Z /\ q = step p k.
Proof.
  intros T. apply touching_iff in T. destruct T as [n [Hn ->]].
  assert (B : (1 <= n <= 8)%nat) by (cbn in Hn; lia). destruct (code_ok n B) as [_ [C1 C2]]. exists (code n). split; [exact C1|].
  unfold step, step8. rewrite C2. reflexivity.
Qed.
Lemma step_touching p k : touching p (step p k).
Proof.
  assert (X : exists n, In n (dirs D8) /\ compass k = (dx D8 n, dy D8 n)).
  { unfold compass. assert (R := Z.mod_pos_bound k 8 ltac:(lia)). revert R. generalize (k mod 8)%Z. intros j R.
    assert (J : (j = 0 \/ j = 1 \/ j = 2 \/ j = 3 \/ j = 4 \/ j = 5 \/ j = 6 \/ j = 7)%Z) by lia.
    destruct J as [->|[->|[->|[->|[->|[->|[->| ->]]]]]]];
      [exists 5%nat|exists 4%nat|exists 3%nat|exists 2%nat|exists 1%nat|exists 8%nat|exists 7%nat|exists 6%nat]; (split; [cbn; tauto|reflexivity]). }
  destruct X as [n [Hn E]]. apply touching_iff. exists n. split; [exact Hn|]. unfold step, step8. rewrite E. reflexivity.
Qed.

(** For every raster and all schedules the run completes; [mask] holds the increments of C24 for the cells without a
    D-infinity direction. *)
Theorem C78_flat_directions : forall w h e nd o1 o2, Permutation o1 (scan w h) -> Permutation o2 (interior_cells w h) ->
  exists fd0 fd mask,
    dinf_flow_directions w h (reals e) (IZR nd) o1 = Ok fd0 /\
    resolve_flats_barnes_dinf w h e nd o1 o2 = Some (Ok fd) /\
    let flat := undirected e nd w h fd0 in
    (forall p, inside w h p -> mask_value e nd w h flat p (at_ mask p)) /\
    forall p, inside w h p ->
      (* cells with a direction, border cells, NoData cells and cells of flats without an outlet keep what they had *)
      (~ flat p \/ on_edge w h (fst p) (snd p) \/ ~ drainable e nd w h flat p -> at_ fd p = at_ fd0 p) /\
      (flat p -> ~ on_edge w h (fst p) (snd p) -> drainable e nd w h flat p ->
         0 <= at_ fd p <= 2 * PI /\
         (* whatever the angle hands water to lies in the same flat and has a strictly smaller increment *)
         (forall k s, share (at_ fd p) k s -> level_step e nd w h p (step p k) /\ (at_ mask (step p k) < at_ mask p)%Z) /\
         (* it is the steepest descent of the increments over the triangles inside the flat; if they do not fall in any of
            them, the direction of one of the eight neighbours *)
         ((exists s, 0 < s /\ steepest_within (level_step e nd w h p) (reals mask) p (at_ fd p) s) \/
          (no_descent_within (level_step e nd w h p) (reals mask) p /\ exists k, (0 <= k < 8)%Z /\ at_ fd p = IZR k * PI / 4))).
Proof.
  intros w h e nd o1 o2 H1 H2. destruct (resolve_ok w h e nd o1 o2 H1 H2) as [fd0 [fd [mask [groups [E0 [Em [E [G [ND [RG H]]]]]]]]]].
  exists fd0, fd, mask. split; [exact E0|]. split; [exact E|]. intros flat. fold flat in G. destruct G as [G1 [G2 [G3 G4]]].
  split; [exact G1|]. intros p Hp. destruct (H p) as [HH1 HH2].
  assert (FD : forall p, flat p -> has_data e nd w h p) by (intros q F; apply F).
  assert (DEC : forall p, flat p \/ ~ flat p).
  { intros q. unfold flat, undirected. destruct (inside_dec w h q) as [Hq|Hq]; [|right; intros F; apply Hq; apply F].
    destruct (Req_EM_T (at_ fd0 q) 0) as [Z0|Z0]; [|right; tauto]. left. split; [|exact Z0].
    unfold has_data. split; [exact Hq|]. intros En. assert (N : at_ fd0 q = -1) by (apply ND; [exact Hq|]; intros [_ K]; contradiction). lra. }
  split.
  - intros K. destruct (DEC p) as [F|F].
    + destruct K as [K|[K|K]]; [contradiction|apply HH2; auto|].
      destruct (isEdgeCell w h (fst p) (snd p)) eqn:Ed; [apply HH2; right; left; apply on_edge_iff; assumption|].
      assert (Ne : ~ on_edge w h (fst p) (snd p)) by (rewrite on_edge_iff by exact Hp; congruence).
      assert (Z0 : at_ fd0 p = 0) by apply F. rewrite Z0.
      apply (masked_none w h mask groups (fst p) (snd p)).
      * apply inner_nbrs; assumption.
      * apply HH1; assumption.
      * intros k L. destruct (proj1 (lower_nbr w h mask groups p k) L) as [L1 L2].
        assert (M0 : at_ mask p = 0%Z).
        { destruct (G1 p Hp) as [[t [T _]]|[_ Z1]]; [|exact Z1]. exfalso. apply K. eapply from_outlet_drainable. apply T. }
        assert (Iq : inside w h (step p k)) by (eapply interior_touching; [exact Hp|exact Ne|apply step_touching]).
        assert (Q := mask_value_nonneg e nd w h flat FD _ _ (G1 _ Iq)). assert (Q2 : (0 <= at_ mask (step p k))%Z) by exact Q. rewrite M0 in L2. exact (Zle_not_lt _ _ Q2 L2).
    + apply HH2. right. right. intros Z0. apply F. split; [|exact Z0]. split; [exact Hp|]. intros En.
      assert (N : at_ fd0 p = -1) by (apply ND; [exact Hp|]; intros [_ K']; contradiction). lra.
  - intros F Ne D. assert (Z0 : at_ fd0 p = 0) by apply F. specialize (HH1 Hp Ne Z0).
    assert (Hd := FD p F).
    assert (LS : forall q, touching p q -> (at_ groups q = at_ groups p <-> level_step e nd w h p q)).
    { intros q T. unfold at_. rewrite (G4 p q D). split; intros K.
      - destruct (sflat_data _ _ _ _ _ _ K) as [A B]. split; auto. split; auto. split; auto. eapply sflat_elev; eauto.
      - apply sflat_step. exact K. }
    assert (EX : exists k, lower mask groups (fst p) (snd p) k).
    { destruct (mask_descends e nd w h flat DEC FD (fun q => at_ mask q) G1 p F D) as [q [Hs Hm]].
      assert (T : touching p q) by apply Hs. destruct (touching_step p q T) as [k [_ ->]]. exists k. apply (proj2 (lower_nbr w h mask groups p k)).
      split; [apply LS; assumption|exact Hm]. }
    assert (IN := inner_nbrs w h _ _ Hp Ne).
    split; [exact (masked_range w h mask groups _ _ IN _ HH1)|]. split.
    + intros k s Sh. assert (L := masked_share w h mask groups _ _ IN _ k s HH1 EX Sh). destruct (proj1 (lower_nbr w h mask groups p k) L) as [L1 L2].
      split; [apply LS; [apply step_touching|exact L1]|exact L2].
    + assert (W : forall a b, within (fun q => groups (fst q) (snd q) = groups (fst p) (snd p)) p a b <-> within (level_step e nd w h p) p a b).
      { assert (TT : forall a b, triangle a b -> touching p (plus p a) /\ touching p (plus p b)).
        { intros a b T. destruct (triangle_facet a b T) as [n [Hn [-> ->]]].
          assert (C : exists k, compass k = off1 n) by (clear - Hn; each Hn; offs; [exists 0%Z|exists 2%Z|exists 2%Z|exists 4%Z|exists 4%Z|exists 6%Z|exists 6%Z|exists 0%Z]; reflexivity).
          assert (C' : exists k, compass k = off2 n) by (clear - Hn; each Hn; offs; [exists 1%Z|exists 1%Z|exists 3%Z|exists 3%Z|exists 5%Z|exists 5%Z|exists 7%Z|exists 7%Z]; reflexivity).
          destruct C as [k <-], C' as [k' <-]. split; apply step_touching. }
        intros a b. unfold within. split; intros [T [A B]]; destruct (TT a b T) as [TA TB]; (split; [exact T|]); (split; [apply (LS _ TA); exact A|apply (LS _ TB); exact B]). }
      destruct (masked_steep w h mask groups _ _ IN _ HH1) as [[s [S1 [S2 S3]]]|[N1 N2]].
      * left. exists s. split; [exact S1|]. destruct p as [px py]. cbn [fst snd] in *. split.
        -- destruct S2 as [a [b [u [v [X Y]]]]]. exists a, b, u, v. split; [apply W; exact X|exact Y].
        -- intros a b u v X. apply S3. apply W. exact X.
      * right. split.
        -- destruct p as [px py]. intros a b u v X. apply N1. apply W. exact X.
        -- destruct N2 as [[k [K1 [K2 _]]]|[_ N]]; [exists k; auto|]. exfalso. destruct EX as [k K]. exact (N k K).
Qed.
Print Assumptions C78_flat_directions.

Lemma directions_outside w h e nd order fd : (forall c, In c order -> inside w h c) ->
  dinf_flow_directions w h e nd order = Ok fd -> forall p, ~ inside w h p -> at_ fd p = 0.
Proof.
  unfold dinf_flow_directions. intros HI E p Np.
  assert (G : forall l g g', (forall c, In c l -> inside w h c) -> forM l (fun p fd =>
    let '(x, y) := p in
    do e0 <- gat w h e x y;
    if Req_EM_T e0 nd then Ok (gset fd x y dinf_NO_DATA)
    else do d <- dinf_FlowDir w h e x y; Ok (gset fd x y d)) g = Ok g' -> at_ g' p = at_ g p).
  { induction l as [|[a b] l IH]; intros g g' Hl E'; [injection E' as <-; reflexivity|].
    assert (Iab := Hl (a, b) (or_introl eq_refl)). cbn [forM] in E'. rewrite (gat_ok w h e a b Iab) in E'. cbn [bind] in E'.
    destruct (dir_total w h e a b Iab) as [th Et]. rewrite Et in E'. cbn [bind] in E'.
    assert (K : forall v, at_ (gset g a b v) p = at_ g p).
    { intros v. assert (X := gset_at g (a, b) v p). cbn [fst snd] in X. rewrite X.
      destruct (ceqb_spec p (a, b)) as [->|]; [contradiction|reflexivity]. }
    destruct (Req_EM_T (e a b) nd); cbn [bind] in E'; apply IH in E'; try (intros c Hc; apply Hl; right; exact Hc); rewrite E'; apply K. }
  apply G in E; [exact E|exact HI].
Qed.

(** the result does not depend on the schedules *)
Theorem C78_any_schedule : forall w h e nd o1 o2 o1' o2' fd fd',
  Permutation o1 (scan w h) -> Permutation o2 (interior_cells w h) -> Permutation o1' (scan w h) -> Permutation o2' (interior_cells w h) ->
  resolve_flats_barnes_dinf w h e nd o1 o2 = Some (Ok fd) -> resolve_flats_barnes_dinf w h e nd o1' o2' = Some (Ok fd') ->
  forall p, inside w h p -> at_ fd p = at_ fd' p.
Proof.
  intros w h e nd o1 o2 o1' o2' fd fd' A1 A2 B1 B2 E E' p Hp.
  destruct (resolve_ok w h e nd o1 o2 A1 A2) as [g0 [g [mask [groups [E1 [Em [Eg [_ [_ [_ H]]]]]]]]]].
  destruct (resolve_ok w h e nd o1' o2' B1 B2) as [g0' [g' [mask' [groups' [E1' [Em' [Eg' [_ [_ [_ H']]]]]]]]]].
  rewrite E in Eg. injection Eg as <-. rewrite E' in Eg'. injection Eg' as <-.
  assert (IO : forall o, Permutation o (scan w h) -> forall c : Z * Z, In c o -> inside w h c).
  { intros o Po [cx cy] Hc. apply (Permutation_in _ Po) in Hc. apply scan_In in Hc. exact Hc. }
  assert (S0 : g0 = g0').
  { apply functional_extensionality. intros x. apply functional_extensionality. intros y.
    destruct (inside_dec w h (x, y)) as [Hq|Hq].
    - exact (C76_any_schedule w h (reals e) (IZR nd) o1 o1' g0 g0' A1 B1 E1 E1' x y Hq).
    - assert (X := directions_outside w h _ _ o1 g0 (IO o1 A1) E1 (x, y) Hq).
      assert (Y := directions_outside w h _ _ o1' g0' (IO o1' B1) E1' (x, y) Hq). unfold at_ in X, Y. cbn [fst snd] in X, Y. congruence. }
  subst g0'. rewrite Em in Em'. injection Em' as <- <-.
  destruct (H p) as [P1 P2], (H' p) as [Q1 Q2].
  destruct (isEdgeCell w h (fst p) (snd p)) eqn:Ed.
  - apply on_edge_iff in Ed; [|exact Hp]. rewrite P2, Q2; auto.
  - assert (Ne : ~ on_edge w h (fst p) (snd p)) by (rewrite on_edge_iff by exact Hp; congruence).
    destruct (Req_EM_T (at_ g0 p) 0) as [Z0|Z0]; [|rewrite P2, Q2; auto].
    specialize (P1 Hp Ne Z0). specialize (Q1 Hp Ne Z0). rewrite P1 in Q1. congruence.
Qed.
Print Assumptions C78_any_schedule.

(** every neighbour that receives water is lower, or is level with a smaller increment *)
Lemma resolved_down w h e nd o1 o2 fd : Permutation o1 (scan w h) -> Permutation o2 (interior_cells w h) ->
  resolve_flats_barnes_dinf w h e nd o1 o2 = Some (Ok fd) ->
  exists mask : grid Z, forall d c s, sends w h fd (-1) d c s ->
    (elev_at e c < elev_at e d \/ elev_at e c = elev_at e d /\ at_ mask c < at_ mask d)%Z.
Proof.
  intros H1 H2 E. destruct (C78_flat_directions w h e nd o1 o2 H1 H2) as [fd0 [fd' [mask [E0 [E' [HM H]]]]]].
  rewrite E in E'. injection E' as <-. exists mask. set (flat := undirected e nd w h fd0) in *.
  intros d c s Hs. assert (Hs' := Hs). destruct Hs as [[Id Nd] [[Ic Nc] [NZ [k [Sh ->]]]]].
  destruct (H d Id) as [K1 K2]. fold (at_ fd d) in *.
  assert (DEC : (at_ fd d = at_ fd0 d) \/ (flat d /\ ~ on_edge w h (fst d) (snd d) /\ drainable e nd w h flat d)).
  { destruct (isEdgeCell w h (fst d) (snd d)) eqn:Ed; [left; apply K1; right; left; apply on_edge_iff; assumption|].
    assert (Ne : ~ on_edge w h (fst d) (snd d)) by (rewrite on_edge_iff by exact Id; congruence).
    destruct (HM d Id) as [[t [T _]]|[T _]].
    - destruct (Req_EM_T (at_ fd0 d) 0) as [Z0|Z0].
      + right. split; [|split; [exact Ne|]].
        * split; [|exact Z0]. destruct (from_outlet_cases _ _ _ _ _ _ _ (proj1 T)) as [[O _]|[F _]]; [apply O|apply F].
        * eapply from_outlet_drainable. apply T.
      + left. apply K1. left. intros F. apply Z0. apply F.
    - left. destruct (Req_EM_T (at_ fd0 d) 0) as [Z0|Z0].
      + apply K1. right. right. intros D.
        assert (F : flat d).
        { split; [|exact Z0]. destruct D as [o [_ S]]. apply (sflat_data _ _ _ _ _ _ S). }
        destruct (drainable_reached e nd w h flat) with (p := d) as [n Hn]; [|exact F|exact D|exact (T n Hn)].
        intros q. destruct (inside_dec w h q) as [Hq|Hq]; [|right; intros X; apply Hq; apply X].
        destruct (Z.eq_dec (elev_at e q) nd) as [En|En]; [right; intros [[_ X] _]; contradiction|].
        destruct (Req_EM_T (at_ fd0 q) 0); [left; split; [split|]; assumption|right; intros [_ X]; contradiction].
      + apply K1. left. intros F. apply Z0. apply F. }
  destruct DEC as [Same|[F [Ne D]]].
  - left. assert (S0 : exists s', sends w h fd0 (-1) d (step d k) s').
    { exists s. split; [split; [exact Id|]|split; [split; [exact Ic|]|split]].
      - unfold at_ in Same. rewrite <- Same. exact Nd.
      - intros X. destruct (H (step d k) Ic) as [J1 J2]. apply Nc. rewrite <- X. apply J1. left. intros [_ Y]. unfold at_ in Y. lra.
      - unfold at_ in Same. rewrite <- Same. exact NZ.
      - exists k. split; [|reflexivity]. fold (at_ fd0 d). rewrite <- Same. exact Sh. }
    destruct S0 as [s' S0]. assert (X := C76_downhill w h (reals e) (IZR nd) o1 fd0 H1 E0 d (step d k) s' S0).
    apply lt_IZR. exact X.
  - destruct (K2 F Ne D) as [_ [K3 _]]. destruct (K3 k s Sh) as [L M]. right. split; [|exact M].
    symmetry. apply L.
Qed.

(** the directions never form a loop *)
Theorem C78_no_loops : forall w h e nd o1 o2 fd, Permutation o1 (scan w h) -> Permutation o2 (interior_cells w h) ->
  resolve_flats_barnes_dinf w h e nd o1 o2 = Some (Ok fd) -> forall c, ~ after_loop w h fd (-1) c.
Proof.
  intros w h e nd o1 o2 fd H1 H2 E c [v [C _]].
  destruct (resolved_down w h e nd o1 o2 fd H1 H2 E) as [mask D].
  assert (G : forall a b, below w h fd (-1) a b -> (elev_at e b < elev_at e a \/ elev_at e b = elev_at e a /\ at_ mask b < at_ mask a)%Z).
  { induction 1 as [d c' s H|d m c' s H IH Hs]; [exact (D d c' s H)|]. specialize (D m c' s Hs). lia. }
  specialize (G v v C). lia.
Qed.
Print Assumptions C78_no_loops.

(** the upslope areas of the resolved directions: every data cell with a direction or a donor has its full area *)
Theorem C78_upslope_area : forall w h e nd o1 o2 o3 fd, Permutation o1 (scan w h) -> Permutation o2 (interior_cells w h) -> Permutation o3 (scan w h) ->
  resolve_flats_barnes_dinf w h e nd o1 o2 = Some (Ok fd) ->
  exists area, dinf_upslope_area w h fd (-1) o3 = Some (Ok area) /\
    forall p, inside w h p ->
      (elev_at e p = nd -> area p = -1) /\
      (elev_at e p <> nd -> (at_ fd p <> 0 \/ exists d s, sends w h fd (-1) d p s) ->
         exists a, received w h fd (-1) area p (scan w h) a /\ area p = 1 + a).
Proof.
  intros w h e nd o1 o2 o3 fd H1 H2 H3 E.
  destruct (resolve_ok w h e nd o1 o2 H1 H2) as [g0 [g [mask [groups [E1 [Em [Eg [G [ND [RG H]]]]]]]]]].
  rewrite E in Eg. injection Eg as <-.
  assert (R : forall p, inside w h p -> (at_ fd p = -1 <-> ~ has_data e nd w h p) /\ (at_ fd p = -1 \/ 0 <= at_ fd p <= 2 * PI)).
  { intros p Hp. destruct (H p) as [P1 P2]. destruct (isEdgeCell w h (fst p) (snd p)) eqn:Ed.
    - apply on_edge_iff in Ed; [|exact Hp]. rewrite P2 by auto. split; [apply ND; exact Hp|]. destruct (RG p Hp); auto.
    - assert (Ne : ~ on_edge w h (fst p) (snd p)) by (rewrite on_edge_iff by exact Hp; congruence).
      destruct (Req_EM_T (at_ g0 p) 0) as [Z0|Z0]; [|rewrite P2 by auto; split; [apply ND; exact Hp|]; destruct (RG p Hp); auto].
      specialize (P1 Hp Ne Z0). assert (X := masked_range w h mask groups _ _ (inner_nbrs w h _ _ Hp Ne) _ P1).
      split; [|auto]. rewrite <- (ND p Hp). split; intros; lra. }
  destruct (C77_upslope_area w h fd (-1) o3 H3) as [area [EA HA]].
  { intros x y I. apply (R (x, y) I). }
  exists area. split; [exact EA|]. intros p Hp. destruct (HA p Hp) as [A1 [A2 _]]. split.
  - intros En. apply A1. apply (R p Hp). intros [_ K]. contradiction.
  - intros En K. apply A2; [|exact K|].
    + split; [exact Hp|]. intros X. apply (R p Hp) in X. apply X. split; [exact Hp|exact En].
    + apply (C78_no_loops w h e nd o1 o2 fd H1 H2 E).
Qed.
Print Assumptions C78_upslope_area.

(** Which inner cells count as having no direction: those without a lower neighbour, and some of those whose east
    neighbour is lower (the angle of due east is 0). *)
Lemma zero_dir w h e x y : (forall i j, (-1 <= i <= 1)%Z -> (-1 <= j <= 1)%Z -> in_raster w h (x + i) (y + j)) ->
  dinf_FlowDir w h e x y = Ok 0 ->
  (forall k, e x y <= e (fst (step (x, y) k)) (snd (step (x, y) k))) \/ e (x + 1)%Z y < e x y.
Proof.
  intros I E. destruct (flowdir_inner w h e x y I) as [th [E' H]]. rewrite E in E'. injection E' as <-.
  assert (P := PI_RGT_0).
  destruct H as [[_ H]|[n [r [s [Hn [Hs [F [Ea _]]]]]]]].
  - left. intros k. destruct (Rle_lt_dec (e x y) (e (fst (step (x, y) k)) (snd (step (x, y) k)))) as [L|L]; [exact L|exfalso].
    assert (T : exists n u v, (0 <= n < 8)%Z /\ 0 <= u /\ 0 <= v /\ drop e x y (off1 n) (off2 n) u v = e x y - e (fst (step (x, y) k)) (snd (step (x, y) k))).
    { unfold step. cbn [fst snd].
      assert (C : exists n, (0 <= n < 8)%Z /\ (compass k = off1 n \/ compass k = off2 n)).
      { unfold compass. assert (R := Z.mod_pos_bound k 8 ltac:(lia)). revert R. generalize (k mod 8)%Z. intros j R.
        assert (J : (j = 0 \/ j = 1 \/ j = 2 \/ j = 3 \/ j = 4 \/ j = 5 \/ j = 6 \/ j = 7)%Z) by lia.
        destruct J as [->|[->|[->|[->|[->|[->|[->| ->]]]]]]];
          [exists 0%Z|exists 0%Z|exists 1%Z|exists 2%Z|exists 3%Z|exists 4%Z|exists 5%Z|exists 6%Z]; (split; [lia|]); first [left; reflexivity|right; reflexivity]. }
      destruct C as [n [Hn [-> | ->]]]; [exists n, 1, 0|exists n, 0, 1]; (split; [exact Hn|]); (split; [lra|]); (split; [lra|]); unfold drop; ring. }
    destruct T as [n [u [v [Hn [Hu [Hv D]]]]]]. assert (X := drop_le e x y n u v Hn Hu Hv). rewrite Rmax_right in X by (apply H; exact Hn). lra.
  - right. destruct (facet_ok _ _ _ _ _ F) as [Hr _]. destruct (facet_down _ _ _ _ _ F Hs) as [D1 D2].
    assert (Sh : share (angle n r) 0 1).
    { rewrite <- Ea. exists 0%Z. cbv zeta. left. replace (4 * 0 / PI) with 0 by (field; lra). split; [lra|auto]. }
    destruct (share_facet n r 0 1 Hn Hr Sh) as [[C L]|[C L]].
    + specialize (D1 L). unfold e1of in D1. rewrite <- C in D1. cbn in D1. rewrite Z.add_0_r in D1. exact D1.
    + exfalso. clear - Hn C. revert C. each Hn; discriminate.
Qed.
(** conversely *)
Lemma zero_dir' w h e x y : (forall i j, (-1 <= i <= 1)%Z -> (-1 <= j <= 1)%Z -> in_raster w h (x + i) (y + j)) ->
  (forall k, (0 < k < 8)%Z -> e x y <= e (fst (step (x, y) k)) (snd (step (x, y) k))) -> dinf_FlowDir w h e x y = Ok 0.
Proof.
  intros I N. destruct (flowdir_inner w h e x y I) as [th [E H]]. rewrite E. f_equal.
  assert (P := PI_RGT_0).
  destruct H as [[-> _]|[n [r [s [Hn [Hs [F [-> [HM HL]]]]]]]]]; [reflexivity|].
  destruct (facet_ok _ _ _ _ _ F) as [Hr [Es _]]. destruct (facet_down _ _ _ _ _ F Hs) as [D1 D2].
  assert (K2 : e x y <= e2of e x y n).
  { clear - N Hn. unfold e2of. assert (C : exists k, (0 < k < 8)%Z /\ compass k = off2 n)
      by (each Hn; offs; [exists 1%Z|exists 1%Z|exists 3%Z|exists 3%Z|exists 5%Z|exists 5%Z|exists 7%Z|exists 7%Z]; split; try lia; reflexivity).
    destruct C as [k [Hk <-]]. exact (N k Hk). }
  destruct (Rlt_le_dec 0 r) as [R0|R0]; [specialize (D2 R0); lra|]. assert (r = 0) by lra. subst r.
  specialize (D1 ltac:(lra)).
  assert (K1 : n = 0%Z \/ n = 7%Z).
  { assert (C : (n = 0 \/ n = 7)%Z \/ exists k, (0 < k < 8)%Z /\ compass k = off1 n)
      by (clear - Hn; each Hn; offs; [left; lia|right; exists 2%Z|right; exists 2%Z|right; exists 4%Z|right; exists 4%Z|right; exists 6%Z|right; exists 6%Z|left; lia]; split; try lia; reflexivity).
    destruct C as [C|[k [Hk C]]]; [exact C|]. exfalso. unfold e1of in D1. rewrite <- C in D1. assert (X := N k Hk). unfold step in X. cbn [fst snd] in X. lra. }
  destruct K1 as [-> | ->].
  - unfold angle. offa. lra.
  - exfalso. specialize (HL 0%Z ltac:(lia)). destruct (Fc e x y 0) as [r0 s0] eqn:F0. cbn [snd] in HL.
    destruct (facet_ok _ _ _ _ _ F0) as [_ [_ H0]]. specialize (H0 1 0 ltac:(lra) ltac:(lra)).
    replace (1 * 1 + 0 * 0) with 1 in H0 by ring. rewrite sqrt_1 in H0.
    rewrite cos_0, sin_0 in Es. change (e1of e x y 7) with (e1of e x y 0) in Es.
    assert (M : Rmax s0 0 < s) by (apply Rmax_lub_lt; lra). lra.
Qed.

(** water from an inner cell of a drainable flat reaches an outlet of the flat, or is stuck in a cell of the flat whose
    resolved direction is due east, which reads as no direction, or in a cell of the border *)
Theorem C78_drains : forall w h e nd o1 o2 fd0 fd, Permutation o1 (scan w h) -> Permutation o2 (interior_cells w h) ->
  dinf_flow_directions w h (reals e) (IZR nd) o1 = Ok fd0 ->
  resolve_flats_barnes_dinf w h e nd o1 o2 = Some (Ok fd) ->
  let flat := undirected e nd w h fd0 in
  forall p, flat p -> drainable e nd w h flat p ->
  exists q, (p = q \/ below w h fd (-1) p q) /\ same_flat e nd w h p q /\
    (outlet e nd w h flat q \/
     (flat q /\ at_ fd q = 0 /\ (on_edge w h (fst q) (snd q) \/ level_step e nd w h q (fst q + 1, snd q)%Z))).
Proof.
  intros w h e nd o1 o2 fd0 fd H1 H2 E0 E flat.
  destruct (C78_flat_directions w h e nd o1 o2 H1 H2) as [fd0' [fd' [mask [E0' [E' [HM H]]]]]].
  rewrite E in E'. injection E' as <-. rewrite E0 in E0'. injection E0' as <-. fold flat in HM, H.
  assert (FD : forall p, flat p -> has_data e nd w h p) by (intros q F; apply F).
  assert (PI0 := PI_RGT_0).
  assert (DN : forall q, has_data e nd w h q -> at_ fd q <> -1).
  { intros q Hq X. destruct (C76_directions w h (reals e) (IZR nd) o1 H1) as [g [Eg Hg]]. rewrite E0 in Eg. injection Eg as <-.
    destruct (H q (proj1 Hq)) as [J1 J2].
    assert (F0 : at_ fd0 q <> -1).
    { intros Y. destruct (Hg (fst q) (snd q) (proj1 Hq)) as [_ [B C]].
      assert (Ne : reals e (fst q) (snd q) <> IZR nd) by (intros K; apply (proj2 Hq); apply eq_IZR; exact K).
      destruct (isEdgeCell w h (fst q) (snd q)) eqn:Ed.
      - apply on_edge_iff in Ed; [|apply Hq]. destruct (B Ne Ed) as [k [K [K2 _]]]. unfold at_ in Y. rewrite K2 in Y.
        assert (K0 : 0 <= IZR k) by (apply IZR_le; lia). nra.
      - assert (Nd : ~ on_edge w h (fst q) (snd q)) by (rewrite on_edge_iff by apply Hq; congruence).
        unfold at_ in Y. destruct (C Ne Nd) as [[K _]|[s [_ [_ K]]]]; lra. }
    destruct (isEdgeCell w h (fst q) (snd q)) eqn:Ed.
    - apply on_edge_iff in Ed; [|apply Hq]. apply F0. rewrite <- X. symmetry. apply J1. auto.
    - assert (Nd : ~ on_edge w h (fst q) (snd q)) by (rewrite on_edge_iff by apply Hq; congruence).
      destruct (Req_EM_T (at_ fd0 q) 0) as [Z0|Z0]; [|apply F0; rewrite <- X; symmetry; apply J1; left; intros [_ K]; contradiction].
      destruct (HM q (proj1 Hq)) as [[t [T _]]|[T _]].
      + assert (D : drainable e nd w h flat q) by (eapply from_outlet_drainable; apply T).
        destruct (J2 (conj Hq Z0) Nd D) as [K _]. lra.
      + assert (D : ~ drainable e nd w h flat q).
        { intros D. assert (F : flat q) by exact (conj Hq Z0).
          destruct (drainable_reached e nd w h flat) with (p := q) as [n Hn]; [|exact F|exact D|exact (T n Hn)].
          intros r. destruct (inside_dec w h r) as [Hr|Hr]; [|right; intros Y; apply Hr; apply Y].
          destruct (Z.eq_dec (elev_at e r) nd) as [En|En]; [right; intros [[_ Y] _]; contradiction|].
          destruct (Req_EM_T (at_ fd0 r) 0); [left; split; [split|]; assumption|right; intros [_ Y]; contradiction]. }
        rewrite J1 in X by auto. contradiction. }
  assert (IND : forall (n : nat) p, (at_ mask p <= Z.of_nat n)%Z -> flat p -> drainable e nd w h flat p ->
    exists q, (p = q \/ below w h fd (-1) p q) /\ same_flat e nd w h p q /\
    (outlet e nd w h flat q \/
     (flat q /\ at_ fd q = 0 /\ (on_edge w h (fst q) (snd q) \/ level_step e nd w h q (fst q + 1, snd q)%Z)))).
  { induction n as [|n IH]; intros p Hn F D; assert (Hd := FD p F); destruct (H p (proj1 Hd)) as [J1 J2];
    (destruct (isEdgeCell w h (fst p) (snd p)) eqn:Ed;
     [ apply on_edge_iff in Ed; [|apply Hd]; exists p; split; [left; reflexivity|]; split; [apply same_flat_here; exact Hd|];
       right; split; [exact F|]; split; [rewrite J1 by auto; apply F|auto]
     | assert (Nd : ~ on_edge w h (fst p) (snd p)) by (rewrite on_edge_iff by apply Hd; congruence);
       destruct (J2 F Nd D) as [RG [SH _]]; destruct (C77_shares (at_ fd p)) as [k Hk];
       assert (Sk : exists s, share (at_ fd p) k s)
         by (destruct Hk as [Hk|[f [_ Hk]]]; [exists 1; apply Hk; auto|exists f; apply Hk; auto]);
       destruct Sk as [s Sk]; destruct (SH k s Sk) as [LS LM] ]).
    - exfalso. assert (0 <= at_ mask (step p k))%Z; [|lia]. eapply (mask_value_nonneg e nd w h flat FD). apply HM. apply LS.
    - destruct (Req_EM_T (at_ fd p) 0) as [Z0|Z0].
      + exists p. split; [left; reflexivity|]. split; [apply same_flat_here; exact Hd|]. right. split; [exact F|]. split; [exact Z0|]. right.
        assert (S0 : share (at_ fd p) 0 1).
        { rewrite Z0. exists 0%Z. cbv zeta. left. replace (4 * 0 / PI) with 0 by (field; lra). split; [lra|auto]. }
        destruct (SH 0%Z 1 S0) as [L _]. unfold step in L. cbn in L. rewrite Z.add_0_r in L. exact L.
      + assert (Snd : sends w h fd (-1) p (step p k) s).
        { assert (Hq : has_data e nd w h (step p k)) by apply LS.
          split; [split; [apply Hd|apply (DN p Hd)]|]. split; [split; [apply Hq|apply (DN _ Hq)]|]. split; [exact Z0|].
          exists k. split; [exact Sk|reflexivity]. }
        assert (BL : below w h fd (-1) p (step p k)) by (eapply below_one; exact Snd).
        destruct (Req_EM_T (at_ fd0 (step p k)) 0) as [Zq|Zq].
        * assert (Fq : flat (step p k)) by (split; [apply LS|exact Zq]).
          destruct (IH (step p k)) as [q [B [S O]]]; [lia|exact Fq|eapply drainable_flat; [exact D|apply sflat_step; exact LS]|].
          exists q. split; [|split; [eapply sflat_left; [exact LS|exact S]|exact O]]. right.
          destruct B as [<-|B]; [exact BL|]. clear - BL B. induction B as [d c s' Hs|d m c s' _ IHB Hs].
          -- eapply below_more; [exact BL|exact Hs].
          -- eapply below_more; [apply IHB; exact BL|exact Hs].
        * exists (step p k). split; [right; exact BL|]. split; [apply sflat_step; exact LS|]. left.
          split; [apply LS|]. split; [intros [_ K]; contradiction|]. exists p. split; [exact F|apply lstep_sym; exact LS]. }
  intros p F D. apply (IND (Z.to_nat (at_ mask p))); auto.
  assert (0 <= at_ mask p)%Z; [|lia]. eapply (mask_value_nonneg e nd w h flat FD). apply HM. apply (FD p F).
Qed.
Print Assumptions C78_drains.

Definition dem78 (west : bool) : grid Z := fun x y =>
  if (y =? 1)%Z then
    if west then (if x =? 0 then 3 else if x =? 3 then 9 else 7)%Z else (if x =? 0 then 9 else if x =? 3 then 3 else 7)%Z
  else 9%Z.
Lemma dem78_cell a x y : in_raster 4 3 x y -> dem78 a x y = 7%Z -> (y = 1 /\ (x = 1 \/ x = 2))%Z.
Proof.
  unfold in_raster, dem78. intros I. destruct (Z.eqb_spec y 1); [|lia].
  destruct a, (Z.eqb_spec x 0), (Z.eqb_spec x 3); lia.
Qed.
Lemma dem78_inner x y : (y = 1 /\ (x = 1 \/ x = 2))%Z -> forall i j, (-1 <= i <= 1)%Z -> (-1 <= j <= 1)%Z -> in_raster 4 3 (x + i) (y + j).
Proof. unfold in_raster. lia. Qed.
Lemma dem78_dir a nd o1 fd0 x y : Permutation o1 (scan 4 3) -> nd <> 7%Z -> dinf_flow_directions 4 3 (reals (dem78 a)) (IZR nd) o1 = Ok fd0 ->
  (y = 1 /\ (x = 1 \/ x = 2))%Z -> dinf_FlowDir 4 3 (reals (dem78 a)) x y = Ok (fd0 x y).
Proof.
  intros HP Hn E C. destruct (dirs_ok 4 3 (reals (dem78 a)) (IZR nd) o1 HP) as [f [F H]]. rewrite E in F. injection F as <-.
  apply (H x y); [unfold in_raster; lia|]. unfold reals. intros Q. apply eq_IZR in Q. apply Hn. rewrite <- Q.
  destruct C as [-> [-> | ->]]; destruct a; reflexivity.
Qed.

(** A valley that falls due east: the flat cell (1,1) is level with (2,1), which has the lower neighbour (3,1); yet both
    keep the value 0, "no flow". *)
Theorem C78_east_outlet_refuted : forall nd o1 o2 fd, (nd <> 7)%Z -> Permutation o1 (scan 4 3) -> Permutation o2 (interior_cells 4 3) ->
  resolve_flats_barnes_dinf 4 3 (dem78 false) nd o1 o2 = Some (Ok fd) ->
  (dem78 false 1 1 = dem78 false 2 1 /\ dem78 false 3 1 < dem78 false 2 1)%Z /\ fd 1%Z 1%Z = 0 /\ fd 2%Z 1%Z = 0.
Proof.
  intros nd o1 o2 fd Hn H1 H2 E. split; [vm_compute; auto|].
  destruct (C78_flat_directions 4 3 (dem78 false) nd o1 o2 H1 H2) as [fd0 [fd' [mask [E0 [E' [HM H]]]]]].
  rewrite E in E'. injection E' as <-.
  assert (Z0 : forall x, (x = 1 \/ x = 2)%Z -> fd0 x 1%Z = 0).
  { intros x Hx. assert (D := dem78_dir false nd o1 fd0 x 1 H1 Hn E0 ltac:(lia)).
    rewrite zero_dir' in D; [injection D as D; congruence|apply dem78_inner; lia|].
    intros k Hk. unfold reals. apply IZR_le.
    assert (J : (k = 1 \/ k = 2 \/ k = 3 \/ k = 4 \/ k = 5 \/ k = 6 \/ k = 7)%Z) by lia.
    destruct Hx as [-> | ->], J as [->|[->|[->|[->|[->|[->| ->]]]]]]; vm_compute; congruence. }
  assert (K : forall x, (x = 1 \/ x = 2)%Z -> fd x 1%Z = 0).
  { intros x Hx. rewrite <- (Z0 x Hx). destruct (H (x, 1%Z) ltac:(unfold inside, in_raster; cbn; lia)) as [J1 _]. change (at_ fd (x, 1%Z) = at_ fd0 (x, 1%Z)). apply J1.
    right. right. intros [q [[Hd [Nf _]] S]]. apply Nf. split; [exact Hd|].
    assert (Eq := sflat_elev _ _ _ _ _ _ S). destruct q as [qx qy]. unfold elev_at in Eq. cbn [fst snd] in Eq.
    assert (E7 : (dem78 false x 1 = 7)%Z) by (destruct Hx as [-> | ->]; reflexivity). rewrite E7 in Eq.
    destruct (dem78_cell false qx qy (proj1 Hd) Eq) as [Qy Hq]. unfold at_. cbn [fst snd]. rewrite Qy. exact (Z0 qx Hq). }
  split; apply K; auto.
Qed.
Print Assumptions C78_east_outlet_refuted.

(** the mirror image, falling due west: (2,1) is a flat cell inside the raster, and (1,1) its outlet *)
Example C78_not_vacuous : forall o1 fd0, Permutation o1 (scan 4 3) ->
  dinf_flow_directions 4 3 (reals (dem78 true)) (IZR (-1)) o1 = Ok fd0 ->
  let flat := undirected (dem78 true) (-1) 4 3 fd0 in
  flat (2, 1)%Z /\ ~ on_edge 4 3 2 1 /\ outlet (dem78 true) (-1) 4 3 flat (1, 1)%Z /\ drainable (dem78 true) (-1) 4 3 flat (2, 1)%Z.
Proof.
  intros o1 fd0 H1 E0 flat.
  assert (D1 : has_data (dem78 true) (-1) 4 3 (1, 1)%Z) by (split; [unfold inside, in_raster; cbn; lia|vm_compute; congruence]).
  assert (D2 : has_data (dem78 true) (-1) 4 3 (2, 1)%Z) by (split; [unfold inside, in_raster; cbn; lia|vm_compute; congruence]).
  assert (F2 : flat (2, 1)%Z).
  { split; [exact D2|]. unfold at_. cbn [fst snd]. assert (D := dem78_dir true (-1) o1 fd0 2 1 H1 ltac:(lia) E0 ltac:(lia)).
    rewrite zero_dir' in D; [injection D as D; congruence|apply dem78_inner; lia|].
    intros k Hk. unfold reals. apply IZR_le.
    assert (J : (k = 1 \/ k = 2 \/ k = 3 \/ k = 4 \/ k = 5 \/ k = 6 \/ k = 7)%Z) by lia.
    destruct J as [->|[->|[->|[->|[->|[->| ->]]]]]]; vm_compute; congruence. }
  assert (LS : level_step (dem78 true) (-1) 4 3 (1, 1)%Z (2, 1)%Z).
  { split; [exact D1|]. split; [exact D2|]. split; [|reflexivity]. exact (step_touching (1, 1)%Z 0). }
  assert (O : outlet (dem78 true) (-1) 4 3 flat (1, 1)%Z).
  { split; [exact D1|]. split; [|exists (2, 1)%Z; auto]. intros [_ Z1]. unfold at_ in Z1. cbn [fst snd] in Z1.
    assert (D := dem78_dir true (-1) o1 fd0 1 1 H1 ltac:(lia) E0 ltac:(lia)). rewrite Z1 in D.
    destruct (zero_dir 4 3 (reals (dem78 true)) 1 1 (dem78_inner 1 1 ltac:(lia)) D) as [K|K].
    - specialize (K 4%Z). unfold reals in K. apply le_IZR in K. vm_compute in K. congruence.
    - unfold reals in K. apply lt_IZR in K. vm_compute in K. congruence. }
  split; [exact F2|]. split; [unfold on_edge; lia|]. split; [exact O|]. exists (1, 1)%Z. split; [exact O|]. apply sflat_step. exact LS.
Qed.
