From Coq Require Import ZArith List Lia Bool Permutation.
From Verif Require Import Base Res BFS RasterSpec RasterFacts FlowModel FlowProofs FlatsModel FlatsSpec FlatsProofs.
Open Scope Z_scope.

Section Algo.
  Variable K : codes.
  Variables (w h nd : Z) (e st : grid Z) (flat : cell -> Prop).
  Notation data := (has_data e nd w h).
  Notation ins := (inside w h).
  Notation lstep := (level_step e nd w h).
  Notation sflat := (same_flat e nd w h).
  Notation outlet := (outlet e nd w h flat).
  Notation drainable := (drainable e nd w h flat).
  Notation high_edge := (high_edge e nd w h flat).
  Notation from_outlet := (from_outlet e nd w h flat).
  Notation from_high := (from_high e nd w h flat).
  Notation "g @ c" := (g (fst c) (snd c)) (at level 9, no associativity).

  Hypothesis H_nd : forall p, ins p -> (q_nd K (st @ p) = true <-> ~ data p).
  Hypothesis H_flat : forall p, ins p -> (q_flat K (st @ p) = true <-> flat p).
  Hypothesis flat_data : forall p, flat p -> data p.
  Hypothesis H_flow : forall p, data p -> q_flow K (st @ p) = negb (q_flat K (st @ p)).
  Hypothesis H_skip : q_skip K = true \/ forall p q, flat p -> touching p q -> data q.

  Lemma flat_dec p : flat p \/ ~ flat p.
  Proof.
    destruct (inside_dec w h p) as [Hp|Hp].
    - rewrite <- (H_flat p Hp). destruct (q_flat K (st @ p)); auto.
    - right. intros Hf. apply Hp. apply (flat_data p Hf).
  Qed.
  Lemma nd_false p : data p -> q_nd K (st @ p) = false.
  Proof.
    intros Hp. pose proof (H_nd p (proj1 Hp)) as H. destruct (q_nd K (st @ p)); auto.
    exfalso. apply H; auto.
  Qed.
  Lemma nflat_false p : ins p -> ~ flat p -> q_flat K (st @ p) = false.
  Proof. intros Hp Hf. pose proof (H_flat p Hp) as H. destruct (q_flat K (st @ p)); auto. exfalso. apply Hf. apply H; auto. Qed.
  Lemma data_dec p : ins p -> data p \/ ~ data p.
  Proof. intros Hp. unfold has_data. destruct (Z.eq_dec (elev_at e p) nd); tauto. Qed.

  (** ** The edge queues *)
  Definition probe (c : cell) (n : nat) : option edge_kind :=
    let d := step8 c n in
    if negb (inGrid w h (fst d) (snd d)) then None
    else if q_skip K && q_nd K (st @ d) then None
    else if q_flow K (st @ c) && q_flat K (st @ d) && (e @ d =? e @ c) then Some LowEdge
    else if q_flat K (st @ c) && (e @ c <? e @ d) then Some HighEdge
    else None.

  Lemma edge_probe_ok c n : ins c -> edge_probe K w h st e c (st @ c) n = Ok (probe c n).
  Proof.
    intros Hc. unfold edge_probe, probe. destruct (step8 c n) as [nx ny] eqn:E. cbn [fst snd].
    destruct (inGrid w h nx ny) eqn:G; cbn [negb]; [|reflexivity].
    assert (Hn : in_raster w h nx ny) by (apply in_raster_iff; auto).
    rewrite !gat_ok by auto. cbn [bind]. destruct (q_skip K && q_nd K (st nx ny)); [reflexivity|].
    cbn [bind].
    destruct (_ && _); [reflexivity|]. destruct (_ && _); reflexivity.
  Qed.

  Lemma probe_low c n : data c -> In n (dirs D8) -> probe c n = Some LowEdge -> outlet c.
  Proof.
    intros Hc Hn. unfold probe. destruct (inGrid w h _ _) eqn:G; cbn [negb]; [|discriminate].
    apply inside_grid in G. destruct (_ && _); [discriminate|].
    rewrite H_flow by auto.
    destruct (q_flat K (st @ c)) eqn:F; cbn [negb andb].
    - destruct (e @ c <? _); discriminate.
    - destruct (q_flat K (st @ (step8 c n))) eqn:Fd; cbn [andb]; [|discriminate].
      destruct (Z.eqb_spec (e @ (step8 c n)) (e @ c)); [|discriminate].
      intros _. apply H_flat in Fd; auto.
      assert (Fc : ~ flat c) by (rewrite <- H_flat by apply Hc; congruence).
      split; auto. split; auto. exists (step8 c n). split; auto.
      split; auto. split; auto. unfold elev_at. split; auto. apply touching_iff. eauto.
  Qed.

  Lemma probe_high c n : data c -> In n (dirs D8) -> probe c n = Some HighEdge -> high_edge c.
  Proof.
    intros Hc Hn. unfold probe. destruct (inGrid w h _ _) eqn:G; cbn [negb]; [|discriminate].
    apply inside_grid in G. destruct (q_skip K && q_nd K (st @ (step8 c n))) eqn:Sk; [discriminate|].
    rewrite H_flow by auto.
    destruct (q_flat K (st @ c)) eqn:F; cbn [negb andb].
    - destruct (Z.ltb_spec (e @ c) (e @ (step8 c n))); [|discriminate]. intros _.
      assert (Fc : flat c) by (apply H_flat; auto; apply Hc).
      assert (T : touching c (step8 c n)) by (apply touching_iff; eauto).
      split; auto. exists (step8 c n). split; [|auto].
      destruct H_skip as [Hs|Hs]; [|apply (Hs c); auto].
      rewrite Hs in Sk. cbn [andb] in Sk. destruct (data_dec (step8 c n) G) as [?|Hd]; auto.
      apply H_nd in Hd; auto. congruence.
    - destruct (q_flat K (st @ (step8 c n)) && _); intros; discriminate.
  Qed.

  Lemma probe_outlet c : outlet c -> exists n, In n (dirs D8) /\ probe c n = Some LowEdge.
  Proof.
    intros [Hc [Hf [d [Fd [_ [Hd [T E]]]]]]]. apply touching_iff in T. destruct T as [n [Hn ->]].
    exists n. split; auto. unfold probe. rewrite (proj1 (inside_grid w h _) (proj1 Hd)). cbn [negb].
    rewrite (nd_false _ Hd), andb_false_r. rewrite H_flow by auto. rewrite (nflat_false c (proj1 Hc) Hf). cbn [negb andb].
    rewrite (proj2 (H_flat _ (proj1 Hd)) Fd). cbn [andb]. unfold elev_at in E. rewrite E, Z.eqb_refl. reflexivity.
  Qed.
  Lemma probe_highedge c : high_edge c -> exists n, In n (dirs D8) /\ probe c n = Some HighEdge.
  Proof.
    intros [Hf [d [Hd [T E]]]]. pose proof (flat_data _ Hf) as Hc. apply touching_iff in T. destruct T as [n [Hn ->]].
    exists n. split; auto. unfold probe. rewrite (proj1 (inside_grid w h _) (proj1 Hd)). cbn [negb].
    rewrite (nd_false _ Hd), andb_false_r. rewrite H_flow by auto. rewrite (proj2 (H_flat c (proj1 Hc)) Hf). cbn [negb andb].
    unfold elev_at in E. destruct (Z.ltb_spec (e @ c) (e @ (step8 c n))); [reflexivity|lia].
  Qed.

  Lemma find_edges_ok order : (forall c, In c order -> ins c) ->
    exists low high, find_edges K w h st e order = Ok (low, high) /\
      (forall c, In c low <-> In c order /\ outlet c) /\ (forall c, In c high <-> In c order /\ high_edge c).
  Proof.
    intros Hin. unfold find_edges.
    match goal with |- context [forM order ?b _] => set (body := b) end.
    destruct (forM_inv (fun done (q : list cell * list cell) =>
        (forall c, In c (fst q) <-> In c done /\ outlet c) /\ (forall c, In c (snd q) <-> In c done /\ high_edge c)) body order) with (s := (@nil cell, @nil cell)) as [[low high] [E [HL HH]]].
    - intros done c rest [low high] Eo [HL HH]. cbn [fst snd] in HL, HH.
      assert (Hc : ins c) by (apply Hin; rewrite Eo; apply in_or_app; right; left; auto).
      unfold body. rewrite gat_in by auto. cbn [bind].
      destruct (data_dec c Hc) as [Hd|Hd].
      + rewrite (nd_false c Hd).
        destruct (firstM_ok (dirs D8) (edge_probe K w h st e c (st @ c)) (probe c)) as [r [Er Hr]];
          [intros; apply edge_probe_ok; auto|]. rewrite Er. cbn [bind].
        eexists. split; [reflexivity|].
        assert (NL : outlet c -> r = Some LowEdge).
        { intros Ho. destruct (probe_outlet c Ho) as [n [Hn Pn]]. destruct r as [[|]|]; auto.
          - destruct Hr as [m [Hm Pm]]. apply probe_high in Pm; auto. destruct Pm as [Pm _]. destruct Ho as [_ [Ho _]]. contradiction.
          - rewrite Hr in Pn by auto. discriminate. }
        assert (NH : high_edge c -> r = Some HighEdge).
        { intros Ho. destruct (probe_highedge c Ho) as [n [Hn Pn]]. destruct r as [[|]|]; auto.
          - destruct Hr as [m [Hm Pm]]. apply probe_low in Pm; auto. destruct Pm as [_ [Pm _]]. destruct Ho as [Ho _]. contradiction.
          - rewrite Hr in Pn by auto. discriminate. }
        assert (A : forall (P : cell -> Prop) l, (forall x, In x l <-> In x done /\ P x) -> ~ P c -> forall x, In x l <-> In x (done ++ [c]) /\ P x).
        { intros P l HP Hn x. rewrite HP, in_app_iff. cbn [In]. split; [tauto|]. intros [[?|[<-|[]]] ?]; tauto. }
        assert (B : forall (P : cell -> Prop) l, (forall x, In x l <-> In x done /\ P x) -> P c -> forall x, In x (l ++ [c]) <-> In x (done ++ [c]) /\ P x).
        { intros P l HP Hn x. rewrite !in_app_iff, HP. cbn [In]. split; [|tauto]. intros [?|[<-|[]]]; tauto. }
        destruct r as [[|]|]; cbn [fst snd].
        * destruct Hr as [n [Hn Pn]]. split; [apply B; auto; eapply probe_low; eauto|]. apply A; auto.
          intros X. apply NH in X. discriminate.
        * destruct Hr as [n [Hn Pn]]. split; [|apply B; auto; eapply probe_high; eauto]. apply A; auto.
          intros X. apply NL in X. discriminate.
        * split; apply A; auto; intros X; [apply NL in X|apply NH in X]; discriminate.
      + rewrite (proj2 (H_nd c Hc) Hd). exists (low, high). split; [reflexivity|]. cbn [fst snd].
        assert (N1 : ~ outlet c) by (intros [X _]; contradiction).
        assert (N2 : ~ high_edge c) by (intros [X _]; apply flat_data in X; contradiction).
        split; intros x; [rewrite HL|rewrite HH]; rewrite in_app_iff; cbn [In];
          (split; [tauto|]; intros [[?|[<-|[]]] ?]; tauto).
    - split; intros c; cbn; tauto.
    - exists low, high. auto.
  Qed.

  (** ** Labels *)
  Definition gadj (c : cell) : list cell := filter (fun d => inGrid w h (fst d) (snd d)) (map (step8 c) (dirs D8)).
  Lemma gadj_In c d : In d (gadj c) <-> ins d /\ touching c d.
  Proof.
    unfold gadj. rewrite filter_In, in_map_iff, <- inside_grid, touching_iff. split.
    - intros [[n [<- Hn]] Hi]. eauto.
    - intros [Hi [n [Hn ->]]]. eauto.
  Qed.
  Lemma filter_le {A} (f : A -> bool) l : (length (filter f l) <= length l)%nat.
  Proof. induction l as [|a l IH]; cbn [filter length]; [lia|]. destruct (f a); cbn [length]; lia. Qed.
  Lemma gadj_8 c : (length (gadj c) <= 8)%nat.
  Proof. unfold gadj. etransitivity; [apply filter_le|]. rewrite map_length. cbn. lia. Qed.

  (** the label raster after labelling the flats of the seeds in [done]; [g] is the next label *)
  Definition good_labels (done : list cell) (labels : grid Z) (g : Z) : Prop :=
    1 <= g /\ (forall p, 0 <= labels @ p < g) /\
    (forall p, 0 < labels @ p <-> exists i, In i done /\ sflat i p) /\
    (forall p q, 0 < labels @ p -> (labels @ q = labels @ p <-> sflat p q)).

  Lemma LabelFlat_ok done labels g c : good_labels done labels g -> data c -> labels @ c = 0 ->
    exists labels', LabelFlat w h e c g labels = Some (Ok labels') /\ good_labels (done ++ [c]) labels' (g + 1).
  Proof.
    intros [Hg [Hr [Hd Hs]]] Hc H0. unfold LabelFlat. rewrite gat_in by apply Hc. cbn [bindF].
    set (ok := fun p : cell => (e @ p =? e @ c) && (labels @ p =? 0)).
    assert (okt : forall p, ok p = true <-> e @ p = e @ c /\ labels @ p = 0).
    { intros p. unfold ok. rewrite andb_true_iff, !Z.eqb_eq. tauto. }
    destruct (@flood_spec cell (grid Z) ceqb ceqb_spec (cells w h) (cells_NoDup w h) gadj) with
      (ok := ok) (visit := label_visit w h e (e @ c) g) (start := [c]) (s := labels)
      (fuel := (1 + 9 * (Z.to_nat w * Z.to_nat h))%nat)
      (R := fun (lev : cell -> Z) (lb : grid Z) => forall p, lb @ p = if lev p =? 0 then labels @ p else g)
      as [lb [lev [E [HR HF]]]].
    - intros a d Ha Hin. apply gadj_In in Hin. apply cells_inside. apply Hin.
    - apply gadj_8.
    - intros lev lb p HR Hp Hk. apply cells_inside in Hp. unfold label_visit. rewrite gat_in by auto. cbn [bind].
      destruct (Z.eqb_spec (e @ p) (e @ c)) as [Ee|Ee]; cbn [negb]; [|reflexivity].
      rewrite gat_in by auto. cbn [bind]. rewrite HR.
      destruct (Z.eqb_spec (lev p) 0) as [L0|L0].
      + destruct Hk as [Hk|]; [|contradiction]. assert (labels @ p <> 0).
        { intros X. assert (ok p = true) by (apply okt; auto). congruence. }
        specialize (Hr p). destruct (Z.gtb_spec (labels @ p) 0); [reflexivity|lia].
      + destruct (Z.gtb_spec g 0); [reflexivity|lia].
    - intros lev lb p HR Hp Hk Hl. apply cells_inside in Hp. apply okt in Hk. destruct Hk as [Ee L0].
      unfold label_visit. rewrite gat_in by auto. cbn [bind]. rewrite Ee, Z.eqb_refl. cbn [negb].
      rewrite gat_in by auto. cbn [bind]. rewrite HR, Hl, Z.eqb_refl, L0. cbn [Z.gtb Z.compare].
      eexists. split; [reflexivity|]. intros q. rewrite gset_cell. unfold bupd.
      destruct (ceqb q p); [reflexivity|apply HR].
    - intros a [<-|[]]. apply cells_inside. apply Hc.
    - intros p. reflexivity.
    - cbn [length]. rewrite cells_length. lia.
    - exists lb. split; [exact E|].
      assert (FS : forall p, floods gadj ok [c] p <-> sflat c p).
      { intros p. split.
        - induction 1 as [p [<-|[]] Hk|p q Hp IH Hq Hk]; [apply same_flat_here; auto|].
          apply gadj_In in Hq. destruct Hq as [Hq T]. apply okt in Hk. destruct Hk as [Ee _].
          apply same_flat_step with p; auto. destruct (sflat_data _ _ _ _ _ _ IH) as [_ Hpd].
          split; auto. assert (Ep := sflat_elev _ _ _ _ _ _ IH). unfold elev_at in Ep.
          assert (Eq : e @ q = e @ p) by congruence.
          split; [|split; [auto|unfold elev_at; auto]].
          split; auto. unfold elev_at. rewrite Eq. apply Hpd.
        - intros S. assert (L : forall q, sflat c q -> labels @ q = 0).
          { intros q Sq. destruct (Z.eq_dec (labels @ q) 0); auto. exfalso.
            assert (P : 0 < labels @ q) by (specialize (Hr q); lia).
            assert (labels @ c = labels @ q); [|lia]. apply Hs; auto. apply sflat_sym; auto. }
          remember c as c0 eqn:Ec. induction S as [p Hp|p q r S IH Hs']; subst.
          + apply floods_start; [left; auto|]. apply okt. auto.
          + apply floods_step with q; auto.
            * apply gadj_In. destruct Hs' as [_ [Hd' [T _]]]. split; auto. apply Hd'.
            * apply okt. split; [|apply L; eapply same_flat_step; eauto].
              assert (X := sflat_elev _ _ _ _ _ _ (same_flat_step _ _ _ _ _ _ _ S Hs')). unfold elev_at in X. auto. }
      assert (LB : forall p, (sflat c p /\ lb @ p = g) \/ (~ sflat c p /\ lb @ p = labels @ p)).
      { intros p. rewrite <- FS, <- HF, HR. destruct (Z.eqb_spec (lev p) 0); auto. }
      assert (CL : forall p, sflat c p -> labels @ p = 0).
      { intros q Sq. destruct (Z.eq_dec (labels @ q) 0); auto. exfalso.
        assert (P : 0 < labels @ q) by (specialize (Hr q); lia).
        assert (labels @ c = labels @ q); [|lia]. apply Hs; auto. apply sflat_sym; auto. }
      split; [lia|]. split; [|split].
      + intros p. specialize (Hr p). destruct (LB p) as [[_ ->]|[_ ->]]; lia.
      + intros p. destruct (LB p) as [[S ->]|[S ->]].
        * split; [intros _|lia]. exists c. split; auto. apply in_or_app; right; left; auto.
        * rewrite Hd. split; intros [i [Hi Si]].
          -- exists i. split; auto. apply in_or_app; auto.
          -- apply in_app_or in Hi. destruct Hi as [Hi|[<-|[]]]; [eauto|contradiction].
      + intros p q. destruct (LB p) as [[Sp ->]|[Sp ->]]; destruct (LB q) as [[Sq ->]|[Sq ->]]; intros P.
        * split; [|reflexivity]. intros _. apply sflat_trans with c; auto. apply sflat_sym; auto.
        * specialize (Hr q). split; [lia|]. intros S. exfalso. apply Sq. apply sflat_trans with p; auto.
        * specialize (Hr p). split; [lia|]. intros S. exfalso. apply Sp. apply sflat_trans with q; auto. apply sflat_sym; auto.
        * apply Hs; auto.
  Qed.

  Lemma label_all_ok low : (forall c, In c low -> data c) ->
    exists labels g, label_all w h e low = Some (Ok (labels, g)) /\ good_labels low labels g.
  Proof.
    intros Hin. unfold label_all.
    match goal with |- context [forF low ?b _] => set (body := b) end.
    assert (G : forall rest done labels g, low = done ++ rest -> good_labels done labels g ->
      exists labels' g', forF rest body (labels, g) = Some (Ok (labels', g')) /\ good_labels low labels' g').
    { induction rest as [|c rest IH]; intros done labels g E HG.
      - rewrite app_nil_r in E. subst. cbn. eauto.
      - assert (Hc : data c) by (apply Hin; rewrite E; apply in_or_app; right; left; auto).
        cbn [forF]. assert (X : exists l' g', body c (labels, g) = Some (Ok (l', g')) /\ good_labels (done ++ [c]) l' g').
        { unfold body. cbn [fst snd]. rewrite gat_in by apply Hc. cbn [bindF].
          destruct (Z.eqb_spec (labels @ c) 0) as [H0|H0].
          - destruct (LabelFlat_ok done labels g c HG Hc H0) as [l' [El HG']]. rewrite El. cbn [bindF].
            exists l', (g + 1). auto.
          - exists labels, g. split; [reflexivity|]. destruct HG as [Hg [Hr [Hd Hs]]].
            split; [auto|]. split; [auto|]. split; [|auto]. intros p. rewrite Hd. split; intros [i [Hi Si]].
            + exists i. split; auto. apply in_or_app; auto.
            + apply in_app_or in Hi. destruct Hi as [Hi|[<-|[]]]; [eauto|].
              assert (P : 0 < labels @ c) by (specialize (Hr c); lia).
              apply Hd in P. destruct P as [j [Hj Sj]]. exists j. split; auto. apply sflat_trans with c; auto. }
        destruct X as [l' [g' [-> HG']]]. cbn [bindF]. apply (IH (done ++ [c])); auto. rewrite <- app_assoc. exact E. }
    apply (G low []); auto. split; [lia|]. split; [intros; lia|]. split.
    - intros p. split; [lia|]. intros [i [[] _]].
    - intros p q H. lia.
  Qed.

  Lemma keep_labelled_ok labels high : (forall c, In c high -> ins c) ->
    exists high', keep_labelled w h labels high = Ok high' /\ forall c, In c high' <-> In c high /\ labels @ c <> 0.
  Proof.
    intros Hin. unfold keep_labelled.
    rewrite (collectM_ok high _ (fun c => if labels @ c =? 0 then None else Some c)).
    - eexists. split; [reflexivity|]. intros c. rewrite keep_In. split.
      + intros [i [Hi E]]. destruct (Z.eqb_spec (labels @ i) 0); [discriminate|]. inversion E; subst. auto.
      + intros [Hi Hn]. exists c. split; auto. destruct (Z.eqb_spec (labels @ c) 0); [contradiction|auto].
    - intros c Hc. rewrite gat_in by auto. reflexivity.
  Qed.

  (** ** Gradients *)
  Section Grad.
    Variables (labels : grid Z) (g : Z).
    Variable low : list cell.
    Hypothesis low_outlet : forall c, In c low <-> outlet c.
    Hypothesis HG : good_labels low labels g.

    Lemma lab_range p : 0 <= labels @ p < g. Proof. apply HG. Qed.
    Lemma lab_drain p : 0 < labels @ p <-> drainable p.
    Proof.
      destruct HG as [_ [_ [H _]]]. rewrite H. split; intros [i [Hi S]]; exists i; split; auto; apply low_outlet; auto.
    Qed.
    Lemma lab_same p q : drainable p -> (labels @ q = labels @ p <-> sflat p q).
    Proof. intros Hp. apply HG. apply lab_drain; auto. Qed.

    Definition nadj1 (c : cell) (n : nat) : option cell :=
      let d := step8 c n in
      if negb (inGrid w h (fst d) (snd d)) then None
      else if labels @ d =? labels @ c then (if q_flat K (st @ d) then Some d else None) else None.
    Definition nadj (c : cell) : list cell := keep (nadj1 c) (dirs D8).

    Lemma grad_nbrs_ok c : ins c -> grad_nbrs K w h st labels c = Ok (nadj c).
    Proof.
      intros Hc. unfold grad_nbrs, nadj. apply collectM_ok. intros n Hn. unfold nadj1.
      destruct (step8 c n) as [nx ny]. cbn [fst snd]. destruct (inGrid w h nx ny) eqn:G; cbn [negb]; [|reflexivity].
      assert (Hr : in_raster w h nx ny) by (apply in_raster_iff; auto).
      rewrite gat_ok by auto. cbn [bind]. rewrite gat_in by auto. cbn [bind].
      destruct (labels nx ny =? labels @ c); [|reflexivity]. rewrite gat_ok by auto. reflexivity.
    Qed.
    Lemma nadj_In c d : In d (nadj c) <-> ins d /\ touching c d /\ labels @ d = labels @ c /\ flat d.
    Proof.
      unfold nadj. rewrite keep_In. unfold nadj1. split.
      - intros [n [Hn E]]. destruct (inGrid w h _ _) eqn:G; cbn [negb] in E; [|discriminate].
        apply inside_grid in G. destruct (Z.eqb_spec (labels @ (step8 c n)) (labels @ c)); [|discriminate].
        destruct (q_flat K (st @ (step8 c n))) eqn:F; [|discriminate]. inversion E; subst.
        split; auto. split; [apply touching_iff; eauto|]. split; auto. apply H_flat; auto.
      - intros [Hi [T [L F]]]. apply touching_iff in T. destruct T as [n [Hn ->]]. exists n. split; auto.
        rewrite (proj1 (inside_grid w h _) Hi). cbn [negb]. rewrite L, Z.eqb_refl.
        rewrite (proj2 (H_flat _ Hi) F). reflexivity.
    Qed.
    Lemma nadj_8 c : (length (nadj c) <= 8)%nat.
    Proof. unfold nadj. etransitivity; [apply keep_length|]. cbn. lia. Qed.
    Lemma nadj_V c d : In c (cells w h) -> In d (nadj c) -> In d (cells w h).
    Proof. intros _ H. apply nadj_In in H. apply cells_inside. apply H. Qed.
    Lemma nadj_step c d : drainable c -> (In d (nadj c) <-> lstep c d /\ flat d).
    Proof.
      intros Hc. rewrite nadj_In. split.
      - intros [Hi [T [L F]]]. apply lab_same in L; auto. split; auto.
        destruct (sflat_data _ _ _ _ _ _ L) as [A B]. split; auto. split; auto. split; auto. eapply sflat_elev; eauto.
      - intros [Hs F]. destruct Hs as [A [B [T E]]]. split; [apply B|]. split; auto. split; auto.
        apply lab_same; auto. apply sflat_step. split; auto.
    Qed.

    Variable high : list cell.
    Hypothesis high_edges : forall c, In c high <-> high_edge c /\ labels @ c <> 0.

    Lemma high_steps n c : steps high nadj n c <-> from_high n c /\ drainable c.
    Proof.
      split.
      - induction 1 as [c Hc|n c d Hs [IH1 IH2] Hd].
        + apply high_edges in Hc. destruct Hc as [Hc L]. split; [apply fh_0; auto|].
          apply lab_drain. pose proof (lab_range c). lia.
        + apply nadj_step in Hd; auto. destruct Hd as [Hl Hf]. split; [eapply fh_S; eauto|].
          apply drainable_flat with c; auto. apply sflat_step; auto.
      - intros [H D]. induction H as [c Hc|n c d Hs IH Hl Hf].
        + apply steps_0. apply high_edges. split; auto. apply lab_drain in D. lia.
        + assert (Dc : drainable c) by (apply drainable_flat with d; auto; apply sflat_step; apply lstep_sym; auto).
          apply steps_S with c; auto. apply nadj_step; auto.
    Qed.
    Lemma low_steps n c : steps low nadj n c <-> from_outlet n c.
    Proof.
      split.
      - induction 1 as [c Hc|n c d Hs IH Hd].
        + apply fo_0. apply low_outlet; auto.
        + apply nadj_step in Hd; [|eapply from_outlet_drainable; eauto]. eapply fo_S; [eauto|apply Hd..].
      - induction 1 as [c Hc|n c d Hs IH Hl Hf].
        + apply steps_0. apply low_outlet; auto.
        + apply steps_S with c; auto. apply nadj_step; auto. eapply from_outlet_drainable; eauto.
    Qed.

    (** state of the away loop for levels [lev] *)
    Definition away_R (lev : cell -> Z) (loops : Z) (s : grid Z * list Z) : Prop :=
      (forall p, (fst s) @ p = lev p) /\ Z.of_nat (length (snd s)) = g /\
      forall l, 0 <= l < g -> exists H, ix (snd s) l = Some H /\
        (forall p, labels @ p = l -> lev p <= H) /\ (H = 0 \/ exists p, labels @ p = l /\ lev p = H).

    Lemma repeat_ix (n : nat) l : 0 <= l < Z.of_nat n -> ix (repeat 0 n) l = Some 0.
    Proof.
      intros Hl. unfold ix. destruct (Z.ltb_spec l 0); [lia|].
      rewrite nth_error_repeat; [reflexivity|lia].
    Qed.

    Lemma away_ok : exists mask height lev,
      BuildAwayGradient K w h st labels high (fun _ _ => 0, repeat 0 (Z.to_nat g)) = Some (Ok (mask, height)) /\
      away_R lev 0 (mask, height) /\
      forall c, (0 < lev c /\ isdist high nadj c (Z.to_nat (lev c - 1))) \/ (lev c = 0 /\ forall n, ~ steps high nadj n c).
    Proof.
      unfold BuildAwayGradient.
      destruct (@level_spec cell (grid Z * list Z) ceqb ceqb_spec (cells w h) (cells_NoDup w h) high nadj) with
        (visit := away_visit K w h st labels) (R := away_R) (fuel := grad_fuel w h (length high))
        (s := ((fun _ _ => 0) : grid Z, repeat 0 (Z.to_nat g))) as [[mask height] [lev [loops [E [HR HD]]]]].
      - intros c Hc. apply cells_inside. apply high_edges in Hc. destruct Hc as [[Hf _] _]. apply flat_data in Hf. apply Hf.
      - apply nadj_V.
      - apply nadj_8.
      - intros lev loops s c HR Hc Hl. apply cells_inside in Hc. unfold away_visit. rewrite gat_in by auto. cbn [bind].
        rewrite (proj1 HR c). destruct (Z.gtb_spec (lev c) 0); [reflexivity|lia].
      - intros lev loops [mask height] c [HM [HL HH]] Hc Hl H1 Hrng. apply cells_inside in Hc. unfold away_visit.
        cbn [fst snd] in *. rewrite gat_in by auto. cbn [bind]. rewrite HM, Hl. cbn [Z.gtb Z.compare].
        rewrite gat_in by auto. cbn [bind]. pose proof (lab_range c) as Lc.
        destruct (wr_in height (labels @ c) loops) as [height' [Ew [Lw Xw]]]; [lia|]. rewrite Ew. cbn [bind].
        rewrite grad_nbrs_ok by auto. cbn [bind]. eexists. split; [reflexivity|].
        split; [|split].
        + intros p. cbn [fst]. rewrite gset_cell. unfold bupd. destruct (ceqb p c); auto.
        + cbn [snd]. lia.
        + intros l Hl'. cbn [snd]. rewrite Xw. destruct (Z.eqb_spec l (labels @ c)) as [->|Hn].
          * exists loops. split; [reflexivity|]. split.
            -- intros p _. unfold bupd. destruct (ceqb p c); [lia|]. specialize (Hrng p). lia.
            -- right. exists c. split; auto. apply bupd_same. apply ceqb_spec.
          * destruct (HH l Hl') as [H [EH [B1 B2]]]. exists H. split; [exact EH|]. split.
            -- intros p Hp. rewrite bupd_other; [auto|apply ceqb_spec|]. intros ->. congruence.
            -- destruct B2 as [?|[p [Hp Lp]]]; [auto|]. right. exists p. split; auto.
               rewrite bupd_other; [auto|apply ceqb_spec|]. intros ->. congruence.
      - intros lev loops s HR. exact HR.
      - split; [|split].
        + intros p. reflexivity.
        + cbn [snd]. rewrite repeat_length. pose proof (proj1 HG). lia.
        + intros l Hl. exists 0. cbn [snd]. rewrite repeat_ix by lia. split; [reflexivity|]. split; [intros; lia|auto].
      - unfold grad_fuel. rewrite cells_length. lia.
      - exists mask, height, lev. auto.
    Qed.

    (** the combined mask value for away level [a], height [H] and towards level [t] *)
    Definition comb (a H t : Z) : Z := if t =? 0 then - a else if a =? 0 then 2 * t else (H + - a) + 2 * t.

    Lemma towards_ok mask height leva : away_R leva 0 (mask, height) -> (forall c, 0 <= leva c) ->
      exists mask' height' lev Hf,
        BuildTowardsCombinedGradient K w h st labels low (mask, height) = Some (Ok (mask', height')) /\
        (forall l, 0 <= l < g -> ix height l = Some (Hf l)) /\
        (forall p, ins p -> mask' @ p = comb (leva p) (Hf (labels @ p)) (lev p)) /\
        forall c, (0 < lev c /\ isdist low nadj c (Z.to_nat (lev c - 1))) \/ (lev c = 0 /\ forall n, ~ steps low nadj n c).
    Proof.
      intros [HM [HL HH]] Hpos. cbn [fst snd] in *.
      set (Hf := fun l => match ix height l with Some H => H | None => 0 end).
      assert (HfE : forall l, 0 <= l < g -> ix height l = Some (Hf l)).
      { intros l Hl. unfold Hf. destruct (HH l Hl) as [H [-> _]]. reflexivity. }
      assert (HfB : forall p, leva p <= Hf (labels @ p)).
      { intros p. destruct (HH (labels @ p) (lab_range p)) as [H [EH [B _]]].
        rewrite (HfE _ (lab_range p)) in EH. injection EH as ->. apply B. reflexivity. }
      unfold BuildTowardsCombinedGradient. cbn [fst snd].
      destruct (@level_spec cell (grid Z * list Z) ceqb ceqb_spec (cells w h) (cells_NoDup w h) low nadj) with
        (visit := towards_visit K w h st labels) (fuel := grad_fuel w h (length low))
        (R := fun (lev : cell -> Z) (loops : Z) (s : grid Z * list Z) =>
          snd s = height /\ (forall p, 0 <= lev p) /\
          forall p, ins p -> (fst s) @ p = comb (leva p) (Hf (labels @ p)) (lev p))
        (s := ((fun x y => if inGrid w h x y then - mask x y else mask x y) : grid Z, height))
        as [[mask' height'] [lev [loops [E [HR HD]]]]].
      - intros c Hc. apply cells_inside. apply low_outlet in Hc. apply Hc.
      - apply nadj_V.
      - apply nadj_8.
      - intros lev loops s c [Eh [_ HR]] Hc Hl. apply cells_inside in Hc. unfold towards_visit. rewrite gat_in by auto. cbn [bind].
        rewrite (HR c Hc). pose proof (HfB c). pose proof (Hpos c). unfold comb.
        destruct (Z.eqb_spec (lev c) 0); [lia|].
        destruct (Z.eqb_spec (leva c) 0); [destruct (Z.gtb_spec (2 * lev c) 0); [reflexivity|lia]|].
        destruct (Z.gtb_spec (Hf (labels @ c) + - leva c + 2 * lev c) 0); [reflexivity|lia].
      - intros lev loops [mk ht] c [Eh [Hn HR]] Hc Hl H1 Hrng. apply cells_inside in Hc. cbn [fst snd] in *. subst ht.
        unfold towards_visit. cbn [fst snd]. rewrite gat_in by auto. cbn [bind]. rewrite (HR c Hc), Hl.
        pose proof (HfB c) as HB. pose proof (Hpos c) as HP. pose proof (lab_range c) as Lc.
        unfold comb at 1. cbn [Z.eqb]. destruct (Z.gtb_spec (- leva c) 0); [lia|].
        assert (M : (if negb (comb (leva c) (Hf (labels @ c)) 0 =? 0)
             then do l <- gat w h labels (fst c) (snd c); do H <- rd height l; Ok (H + comb (leva c) (Hf (labels @ c)) 0 + 2 * loops)
             else Ok (2 * loops)) = Ok (comb (leva c) (Hf (labels @ c)) loops)).
        { unfold comb. cbn [Z.eqb]. destruct (Z.eqb_spec loops 0); [lia|].
          destruct (Z.eqb_spec (- leva c) 0); cbn [negb]; destruct (Z.eqb_spec (leva c) 0); try lia; [reflexivity|].
          rewrite gat_in by auto. cbn [bind]. rewrite (proj2 (rd_Ok height (labels @ c) _) (HfE _ Lc)). reflexivity. }
        rewrite M. cbn [bind]. rewrite grad_nbrs_ok by auto. cbn [bind]. eexists. split; [reflexivity|]. cbn [fst snd].
        split; [reflexivity|]. split.
        + intros p. unfold bupd. destruct (ceqb p c); [lia|auto].
        + intros p Hp. rewrite gset_cell. unfold bupd. destruct (ceqb_spec p c) as [->|_]; auto.
      - intros lev loops s H. exact H.
      - split; [reflexivity|]. split; [intros; lia|]. intros p Hp. cbn [fst]. rewrite (proj1 (inside_grid w h p) Hp).
        unfold comb. cbn [Z.eqb]. rewrite HM. reflexivity.
      - unfold grad_fuel. rewrite cells_length. lia.
      - exists mask', height', lev, Hf. destruct HR as [_ [Hn HR]]. auto.
    Qed.
  End Grad.

  (** ** The whole computation *)
  Notation mask_value := (mask_value e nd w h flat).
  Theorem flat_mask_ok order : (forall c, In c order <-> ins c) ->
    exists mask labels, flat_mask_of K w h st e order = Some (Ok (mask, labels)) /\
      (forall p, ins p -> mask_value p (mask @ p)) /\
      (forall p, 0 <= labels @ p) /\
      (forall p, 0 < labels @ p <-> drainable p) /\
      (forall p q, drainable p -> (labels @ q = labels @ p <-> sflat p q)).
  Proof.
    intros Ho. unfold flat_mask_of.
    destruct (find_edges_ok order) as [low [high [E [HL HH]]]]; [intros; apply Ho; auto|].
    rewrite E. cbn [bindF fst snd].
    assert (HL' : forall c, In c low <-> outlet c).
    { intros c. rewrite HL, Ho. split; [tauto|]. intros H. split; auto. apply H. }
    assert (HH' : forall c, In c high <-> high_edge c).
    { intros c. rewrite HH, Ho. split; [tauto|]. intros H. split; auto. exact (proj1 (flat_data c (proj1 H))). }
    destruct (Nat.eqb_spec (length low) 0) as [L0|L0].
    - assert (N : forall p, ~ outlet p).
      { intros p Hp. apply HL' in Hp. destruct low; [destruct Hp|discriminate]. }
      assert (ND : forall p, ~ drainable p) by (intros p [o [Hp _]]; eapply N; eauto).
      exists (fun _ _ => 0), (fun _ _ => 0). split; [reflexivity|]. split; [|split; [intros; lia|split]].
      + intros p Hp. right. split; [|reflexivity]. intros t Ht. apply from_outlet_drainable in Ht. eapply ND; eauto.
      + intros p. split; [lia|]. intros X. exfalso. eapply ND; eauto.
      + intros p q X. exfalso. eapply ND; eauto.
    - destruct (label_all_ok low) as [labels [g [El HG]]]; [intros c Hc; apply HL' in Hc; apply Hc|].
      rewrite El. cbn [bindF fst snd].
      destruct (keep_labelled_ok labels high) as [high' [Eh Hh]].
      { intros c Hc. apply HH' in Hc. exact (proj1 (flat_data c (proj1 Hc))). }
      rewrite Eh. cbn [bindF].
      assert (Hh' : forall c, In c high' <-> high_edge c /\ labels @ c <> 0) by (intros c; rewrite Hh, HH'; tauto).
      destruct (away_ok labels g low HG high' Hh') as [mask [height [leva [Ea [HRa HDa]]]]].
      rewrite Ea. cbn [bindF].
      assert (Hpos : forall c, 0 <= leva c) by (intros c; destruct (HDa c) as [[? _]|[? _]]; lia).
      destruct (towards_ok labels g low HL' HG mask height leva HRa Hpos) as [mask' [height' [lev [Hf [Et [EH [HM HD]]]]]]].
      rewrite Et. cbn [bindF fst snd]. exists mask', labels. split; [reflexivity|].
      assert (Hlab : forall p, 0 < labels @ p <-> drainable p) by (apply (lab_drain labels g low HL' HG)).
      assert (Hsame : forall p q, drainable p -> (labels @ q = labels @ p <-> sflat p q)) by (apply (lab_same labels g low HL' HG)).
      split; [|split; [intros p; apply HG|split; auto]].
      assert (AS : forall n c, steps high' (nadj labels) n c <-> from_high n c /\ drainable c)
        by (apply (high_steps labels g low HL' HG high' Hh')).
      assert (TS : forall n c, steps low (nadj labels) n c <-> from_outlet n c)
        by (apply (low_steps labels g low HL' HG)).
      assert (AD : forall c, drainable c -> (0 < leva c /\ high_dist e nd w h flat c (Z.to_nat (leva c - 1))) \/ (leva c = 0 /\ forall n, ~ from_high n c)).
      { intros c Dc. destruct (HDa c) as [[P [D1 D2]]|[P D]].
        - left. split; auto. split; [apply AS; auto|]. intros m Hm. apply D2. apply AS. auto.
        - right. split; auto. intros n Hn. apply (D n). apply AS. auto. }
      intros p Hp. destruct (HD p) as [[P [D1 D2]]|[P D]].
      + left. exists (Z.to_nat (lev p - 1)). split.
        { split; [apply TS; auto|]. intros m Hm. apply D2. apply TS; auto. }
        assert (Dp : drainable p) by (eapply from_outlet_drainable; apply TS; eauto).
        rewrite (HM p Hp). unfold comb. destruct (Z.eqb_spec (lev p) 0); [lia|].
        destruct (AD p Dp) as [[Pa Da]|[Pa Da]].
        * left. destruct (Z.eqb_spec (leva p) 0); [lia|].
          destruct (proj2 (proj2 HRa) (labels @ p)) as [H [EH1 [B1 B2]]]; [apply HG|]. cbn [snd] in EH1.
          rewrite EH in EH1 by apply HG. inversion EH1 as [EH2]. rewrite EH2.
          assert (PH : leva p <= H) by auto.
          exists (Z.to_nat (leva p - 1)), (Z.to_nat (H - 1)). split; auto. split; [|lia].
          split.
          -- destruct B2 as [B2|[q [Lq Eq]]]; [lia|]. exists q.
             assert (Sq : sflat p q) by (apply Hsame; auto).
             split; auto. assert (Dq : drainable q) by (eapply drainable_flat; eauto).
             destruct (AD q Dq) as [[_ Dq']|[Pq _]]; [|lia]. rewrite Eq in Dq'. exact Dq'.
          -- intros q m Sq Hm. assert (Dq : drainable q) by (eapply drainable_flat; eauto).
             assert (Lq : leva q <= H) by (apply B1; apply Hsame; auto).
             destruct (AD q Dq) as [[Pq Dq']|[Pq Dq']]; [|exfalso; apply (Dq' m); apply Hm].
             rewrite (least_unique _ _ _ Hm Dq'). lia.
        * right. split; auto. rewrite Pa. cbn [Z.eqb]. lia.
      + right. split; [intros t Ht; apply (D t); apply TS; auto|].
        rewrite (HM p Hp). unfold comb. rewrite P. cbn [Z.eqb].
        destruct (HDa p) as [[Pa [D1 _]]|[Pa _]]; [|lia]. exfalso.
        apply AS in D1. destruct D1 as [D1 D1'].
        destruct (drainable_reached e nd w h flat flat_dec p (from_high_flat _ _ _ _ _ _ _ D1) D1') as [n Hn].
        apply (D n). apply TS; auto.
  Qed.
End Algo.
