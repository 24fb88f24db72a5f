(** Watershed labels, flow directions and epsilon filling. *)
From Coq Require Import ZArith List Lia Bool Permutation.
From Verif Require Import Base RasterSpec RasterFacts PFModel PFSpec PFInv PFProofs.
Open Scope Z_scope.

(** ** PriorityFloodWatersheds_Barnes2014 *)
Lemma label_path_ext t w h lab lv lab' lv' k sx sy x y :
  (forall x y, in_raster w h x y -> lab x y = k -> lab' x y = k /\ lv' x y = lv x y) ->
  label_path t w h lab lv k sx sy x y -> label_path t w h lab' lv' k sx sy x y.
Proof.
  intros E H. induction H as [Hr Hl|x y x' y' Hr Hl Ha Hle Hp IH].
  - constructor; auto. apply E; auto.
  - apply lp_step with (x' := x') (y' := y'); auto; [apply E; auto|].
    destruct (E _ _ Hr Hl) as [_ ->].
    assert (Hx' : in_raster w h x' y' /\ lab x' y' = k) by (destruct Hp; auto).
    destruct (E _ _ (proj1 Hx') (proj2 Hx')) as [_ ->]. auto.
Qed.

Section Watershed.
  Variables (tb : nat -> nat) (alter : bool) (t : topology) (w h : Z) (e0 : grid Z) (nd : Z).
  Hypothesis Hnd : alter = true -> forall x y, in_raster w h x y -> e0 x y <> nd -> nd < e0 x y.

  Definition wmu (s : wstate) : nat := msr w h (w_closed s) (length (w_pit s) + length (w_open s)).

  Definition WE (cl : grid bool) (lv el : grid Z) : Prop :=
    forall x y, el x y = if alter && cl x y then lv x y else e0 x y.

  Definition WL (cl : grid bool) (lv lab : grid Z) (K : Z) (pend : list item) : Prop :=
    1 <= K /\
    (forall x y, cl x y = false -> lab x y = -1) /\
    exists seed : Z -> Z * Z,
    (forall x y, cl x y = true ->
       (lab x y = -1 /\ (on_edge w h x y \/ exists x' y', adjacent t x y x' y' /\ in_raster w h x' y' /\ e0 x' y' = nd) /\
         (e0 x y = nd -> lv x y = nd) /\
         (e0 x y <> nd -> exists it, In it pend /\ ix it = x /\ iy it = y)) \/
       (1 <= lab x y < K /\ label_path t w h lab lv (lab x y) (fst (seed (lab x y))) (snd (seed (lab x y))) x y)) /\
    (forall k, 1 <= k < K -> let (sx, sy) := seed k in
       in_raster w h sx sy /\ cl sx sy = true /\ lab sx sy = k /\ e0 sx sy <> nd /\
       (on_edge w h sx sy \/ exists x' y', adjacent t sx sy x' y' /\ in_raster w h x' y' /\ e0 x' y' = nd)).

  Definition WJ (s : wstate) : Prop := exists lv,
    PInv t w h e0 (w_closed s) lv (w_open s) (w_pit s) /\ WE (w_closed s) lv (w_elev s) /\
    WL (w_closed s) lv (w_labels s) (w_clabel s) (w_pit s ++ w_open s).

  (** inside the neighbour loop: the current cell has been offered a label *)
  Definition WI (c : item) (m : nat) (s : wstate) : Prop := exists lv,
    CInv t w h e0 c (w_closed s) lv (w_open s) (w_pit s) /\ WE (w_closed s) lv (w_elev s) /\
    WL (w_closed s) lv (w_labels s) (w_clabel s) (w_pit s ++ w_open s) /\
    (w_labels s (ix c) (iy c) = -1 -> e0 (ix c) (iy c) = nd) /\ wmu s = m.

  Lemma WL_equiv cl lv lab K P P' : (forall it, In it P -> In it P') -> WL cl lv lab K P -> WL cl lv lab K P'.
  Proof.
    intros E [H1 [H2 [seed [H3 H4]]]]. split; [auto|]. split; [auto|]. exists seed. split; [|auto].
    intros x y Hc. destruct (H3 x y Hc) as [[A [B [B' C]]]|A]; [left|right; auto].
    split; [auto|]. split; [auto|]. split; [auto|]. intros D. destruct (C D) as [it [Hi Hr]]. eauto.
  Qed.

  Lemma ws_pop_inv i s c s1 : WJ s -> ws_pop tb i s = Some (c, s1) ->
    (wmu s1 < wmu s)%nat /\ exists lv,
    CInv t w h e0 c (w_closed s1) lv (w_open s1) (w_pit s1) /\ WE (w_closed s1) lv (w_elev s1) /\
    WL (w_closed s1) lv (w_labels s1) (w_clabel s1) (c :: w_pit s1 ++ w_open s1).
  Proof.
    intros [lv [HP [HE HL]]] Hp. unfold ws_pop in Hp.
    destruct s as [cl el lab K op pt]; cbn in *. destruct pt as [|p pt].
    - destruct (pq_pop item_gt (tb i) op) as [[c' q]|] eqn:Hq; [|discriminate].
      inversion Hp; subst c' s1; clear Hp.
      pose proof (pq_pop_item _ _ _ _ Hq) as [HPm _]. split.
      + unfold wmu, msr; cbn. rewrite (Permutation_length HPm). simpl. lia.
      + exists lv. split; [|split]; cbn [w_closed w_open w_pit w_elev w_labels w_clabel]; auto; [eapply PInv_pop_open; eauto|].
        eapply WL_equiv; [|exact HL]. cbn [app]. intros it. apply Permutation_in, HPm.
    - inversion Hp; subst p s1; clear Hp. split.
      + unfold wmu, msr; cbn. lia.
      + exists lv. split; [|split]; cbn; auto. apply PInv_pop_pit; auto.
  Qed.

  Lemma CInv_cur c cl lv op pt : CInv t w h e0 c cl lv op pt -> cl (ix c) (iy c) = true /\ lv (ix c) (iy c) = iz c.
  Proof. intros [HF _]. apply (fi_item _ _ _ _ _ _ _ HF c). simpl; auto. Qed.

  Lemma ws_label_inv c s1 lv :
    CInv t w h e0 c (w_closed s1) lv (w_open s1) (w_pit s1) -> WE (w_closed s1) lv (w_elev s1) ->
    WL (w_closed s1) lv (w_labels s1) (w_clabel s1) (c :: w_pit s1 ++ w_open s1) ->
    WI c (wmu s1) (ws_label nd c s1).
  Proof.
    intros HC HE HL. destruct s1 as [cl el lab K op pt]; cbn in *.
    destruct (CInv_cur _ _ _ _ _ HC) as [Hcc Hlv]. pose proof HC as [HF _].
    assert (Hr : in_raster w h (ix c) (iy c)) by (eapply fi_raster; eauto).
    destruct HL as [HK [HU [seed [H3 H4]]]].
    (* dropping c from the pending list is justified once c is labelled or NoData *)
    assert (Hdrop : forall lab', (forall x y, (x, y) <> (ix c, iy c) -> lab' x y = lab x y) ->
      forall x y, (x, y) <> (ix c, iy c) -> lab' x y = -1 ->
      (e0 x y <> nd -> exists it, In it (c :: pt ++ op) /\ ix it = x /\ iy it = y) ->
      (e0 x y <> nd -> exists it, In it (pt ++ op) /\ ix it = x /\ iy it = y)).
    { intros lab' _ x y Hne _ HA Hd. destruct (HA Hd) as [it [[<-|Hi] [Ex Ey]]]; [|eauto].
      exfalso. apply Hne. congruence. }
    unfold ws_label. cbn [w_labels w_elev w_closed w_clabel w_open w_pit].
    destruct (Z.eqb_spec (lab (ix c) (iy c)) (-1)) as [Hl|Hl]; cbn [andb].
    - destruct (H3 _ _ Hcc) as [[_ [HB [HB' _]]]|[HB _]]; [|lia].
      assert (Hel : el (ix c) (iy c) = nd <-> e0 (ix c) (iy c) = nd).
      { rewrite HE, Hcc. destruct alter eqn:Ha; cbn; [|tauto].
        pose proof (fi_level _ _ _ _ _ _ _ HF _ _ Hcc) as HLv. apply drainage_level_ge in HLv.
        split; intros E; auto.
        destruct (Z.eq_dec (e0 (ix c) (iy c)) nd) as [|n]; auto. specialize (Hnd eq_refl _ _ Hr n). lia. }
      destruct (Z.eqb_spec (el (ix c) (iy c)) nd) as [Hn|Hn]; cbn [negb].
      + (* NoData: stays unlabelled *)
        exists lv. cbn. split; [auto|]. split; [auto|]. split; [|tauto].
        split; [auto|]. split; [auto|]. exists seed. split; [|auto].
        intros x y Hc. destruct (H3 x y Hc) as [[A [B [B' C]]]|A]; [left|right; auto].
        split; [auto|]. split; [auto|]. split; [auto|]. intros D.
        destruct (C D) as [it [[<-|Hi] [Ex Ey]]]; [|eauto].
        subst x y. exfalso. apply D, Hel, Hn.
      + (* new label *)
        assert (Hed : e0 (ix c) (iy c) <> nd) by (intros E; apply Hn, Hel, E).
        exists lv. cbn. split; [auto|]. split; [auto|]. split.
        * split; [lia|]. split.
          { intros x y Hc. rewrite gset_other; auto. intros E; inversion E; subst; congruence. }
          exists (fun k => if k =? K then (ix c, iy c) else seed k). split.
          { intros x y Hc. destruct (gset_cases lab (ix c) (iy c) K x y) as [[E ->]|[Hne ->]].
            - inversion E; subst x y. right. split; [lia|]. rewrite Z.eqb_refl. cbn.
              apply lp_here; auto. apply gset_same.
            - destruct (H3 x y Hc) as [[A [B [B' C]]]|[A B]]; [left|right].
              + split; [auto|]. split; [auto|]. split; [auto|]. intros D.
                destruct (C D) as [it [[<-|Hi] [Ex Ey]]]; [|eauto]. exfalso; apply Hne; congruence.
              + split; [lia|]. destruct (Z.eqb_spec (lab x y) K); [lia|].
                eapply label_path_ext; [|exact B]. intros u v _ Hu. split; auto.
                rewrite gset_other; auto. intros E; inversion E; subst. lia. }
          { intros k Hk. destruct (Z.eqb_spec k K) as [->|HkK].
            - split; [auto|]. split; [auto|]. split; [apply gset_same|]. auto.
            - specialize (H4 k ltac:(lia)). destruct (seed k) as [sx sy].
              destruct H4 as [A [B [C D]]]. split; [auto|]. split; [auto|].
              split; [|auto]. rewrite gset_other; auto. intros E; inversion E; subst. lia. }
        * split; [|reflexivity]. rewrite gset_same. lia.
    - (* already labelled *)
      exists lv. cbn. split; [auto|]. split; [auto|]. split; [|split; [tauto|reflexivity]].
      split; [auto|]. split; [auto|]. exists seed. split; [|auto].
      intros x y Hc. destruct (H3 x y Hc) as [[A [B [B' C]]]|A]; [left|right; auto].
      split; [auto|]. split; [auto|]. split; [auto|]. intros D.
      destruct (C D) as [it [[<-|Hi] [Ex Ey]]]; [|eauto]. subst x y. contradiction.
  Qed.

  (** one neighbour; [z] is its level *)
  Lemma WL_visit cl lv lab K P c nx ny z :
    WL cl lv lab K P -> cl (ix c) (iy c) = true -> cl nx ny = false -> in_raster w h (ix c) (iy c) ->
    in_raster w h nx ny -> adjacent t (ix c) (iy c) nx ny ->
    (lab (ix c) (iy c) = -1 -> e0 (ix c) (iy c) = nd) ->
    lv (ix c) (iy c) = iz c -> z = Z.max (e0 nx ny) (iz c) ->
    WL (gset cl nx ny true) (gset lv nx ny z) (gset lab nx ny (lab (ix c) (iy c))) K (mkItem nx ny z :: P).
  Proof.
    intros [HK [HU [seed [H3 H4]]]] Hcc Hn Hrc Hrn Ha Hcl Hlv Hz.
    assert (Hne : (ix c, iy c) <> (nx, ny)) by (eapply adjacent_neq; eauto).
    split; [auto|]. split.
    { intros x y Hxy. destruct (gset_cases cl nx ny true x y) as [[_ E]|[Hne' E]]; rewrite E in Hxy; [discriminate|].
      rewrite gset_other by auto. auto. }
    exists seed.
    assert (Hext : forall k u v, 1 <= k -> in_raster w h u v -> lab u v = k ->
        gset lab nx ny (lab (ix c) (iy c)) u v = k /\ gset lv nx ny z u v = lv u v).
    { intros k u v Hk _ Hu. assert (Hne' : (u, v) <> (nx, ny)).
      { intros E; inversion E; subst. rewrite (HU _ _ Hn) in Hk. lia. }
      rewrite !gset_other by auto. auto. }
    split.
    { intros x y Hxy. destruct (gset_cases cl nx ny true x y) as [[E _]|[Hne' E]].
      - inversion E; subst x y. rewrite !gset_same.
        destruct (H3 _ _ Hcc) as [[A [B [B' C]]]|[A B]]; [left|right].
        + rewrite A. split; [auto|]. split.
          * right. exists (ix c), (iy c). split; [apply adjacent_sym; auto|]. auto.
          * split.
            -- intros E0. rewrite Hz, E0, <- Hlv, B' by auto. lia.
            -- intros _. exists (mkItem nx ny z). simpl; auto.
        + split; [auto|]. apply lp_step with (x' := ix c) (y' := iy c); auto.
          * apply gset_same.
          * apply adjacent_sym; auto.
          * rewrite gset_same, gset_other by auto. lia.
          * eapply label_path_ext; [|exact B]. intros u v Hru Hu. apply Hext; auto. lia.
      - rewrite E in Hxy. rewrite !gset_other by auto.
        destruct (H3 _ _ Hxy) as [[A [B [B' C]]]|[A B]]; [left|right].
        + split; [auto|]. split; [auto|]. split; [auto|]. intros D. destruct (C D) as [it [Hi Hp]].
          exists it. simpl; auto.
        + split; [auto|]. eapply label_path_ext; [|exact B]. intros u v Hru Hu. apply Hext; auto. lia. }
    { intros k Hk. specialize (H4 k Hk). destruct (seed k) as [sx sy]. destruct H4 as [A [B [C D]]].
      assert (Hne' : (sx, sy) <> (nx, ny)) by (intros E; inversion E; subst; congruence).
      rewrite !gset_other by auto. auto. }
  Qed.

  Lemma ws_step i s c s1 : WJ s -> ws_pop tb i s = Some (c, s1) ->
    WJ (ws_body alter t w h nd c s1) /\ (wmu (ws_body alter t w h nd c s1) < wmu s)%nat.
  Proof.
    intros HJ Hp. destruct (ws_pop_inv _ _ _ _ HJ Hp) as [Hlt [lv0 [HC0 [HE0 HL0]]]]. clear HJ Hp.
    pose proof (ws_label_inv _ _ _ HC0 HE0 HL0) as HI. clear lv0 HC0 HE0 HL0.
    unfold ws_body. set (s2 := ws_label nd c s1) in *. set (m := wmu s1) in *. clearbody s2 m.
    destruct (visit_all_nostop t w h w_closed (ws_visit alter c) (ix c) (iy c) (WI c m) (dirs t) s2)
      as [HI' [_ Hall]]; auto.
    - clear s HI Hlt s2 s1.
      intros s n nx ny [lv [HC [HE [HL [Hl Hm]]]]] Hn Hx Hy Hr Hc.
      assert (Ha : adjacent t (ix c) (iy c) nx ny) by (eapply visit_adjacent; eauto).
      assert (Hun : unclosed (w_closed s) w h = S (unclosed (gset (w_closed s) nx ny true) w h))
        by (apply unclosed_gset; auto; apply Hr).
      destruct (CInv_cur _ _ _ _ _ HC) as [Hcc Hlv]. pose proof HC as [HF _].
      assert (Hrc : in_raster w h (ix c) (iy c)) by (eapply fi_raster; eauto).
      assert (Hne : (ix c, iy c) <> (nx, ny)) by (eapply adjacent_neq; eauto).
      assert (Hen : w_elev s nx ny = e0 nx ny) by (rewrite HE, Hc, andb_false_r; auto).
      unfold ws_visit. rewrite Hen.
      destruct (Z.leb_spec (e0 nx ny) (iz c)) as [Hle|Hgt]; (split; [|reflexivity]).
      + exists (gset lv nx ny (iz c)). split; [|split; [|split; [|split]]]; cbn [w_closed w_open w_pit w_elev w_labels w_clabel].
        * eapply CInv_visit_pit; eauto.
        * intros x y. destruct (gset_cases (w_closed s) nx ny true x y) as [[E ->]|[Hne' ->]].
          -- inversion E; subst x y. rewrite gset_same, andb_true_r. destruct alter; [apply gset_same|auto].
          -- rewrite (gset_other lv) by auto. rewrite <- (HE x y). destruct alter; [rewrite gset_other by auto|]; auto.
        * eapply WL_equiv; [|apply (WL_visit _ _ _ _ _ c nx ny (iz c) HL); auto; lia].
          intros it [<-|Hin]; rewrite !in_app_iff in *; simpl; tauto.
        * rewrite gset_other by auto. auto.
        * rewrite <- Hm. unfold wmu, msr. cbn. rewrite app_length. cbn. lia.
      + exists (gset lv nx ny (e0 nx ny)). split; [|split; [|split; [|split]]]; cbn [w_closed w_open w_pit w_elev w_labels w_clabel].
        * eapply CInv_visit_open; eauto; lia.
        * intros x y. destruct (gset_cases (w_closed s) nx ny true x y) as [[E ->]|[Hne' ->]].
          -- inversion E; subst x y. rewrite gset_same, andb_true_r, Hen. destruct alter; auto.
          -- rewrite (gset_other lv) by auto. apply HE.
        * eapply WL_equiv; [|apply (WL_visit _ _ _ _ _ c nx ny (e0 nx ny) HL); auto; lia].
          intros it [<-|Hin]; rewrite !in_app_iff in *; simpl; tauto.
        * rewrite gset_other by auto. auto.
        * rewrite <- Hm. unfold wmu, msr. cbn. lia.
    - reflexivity.
    - cbv zeta in *. destruct HI' as [lv [HC [HE [HL [Hl Hm]]]]]. split.
      + exists lv. split; [eapply CInv_finish; eauto|]. auto.
      + lia.
  Qed.

  Lemma ws_correct : 0 < w -> 0 < h ->
    exists el lab K (seed : Z -> Z * Z), PriorityFloodWatersheds_Barnes2014 tb alter t w h e0 nd = Some (el, lab) /\
      (alter = false -> forall x y, el x y = e0 x y) /\
      (alter = true -> forall x y, in_raster w h x y -> drainage_level t w h e0 x y (el x y)) /\
      (forall x y, in_raster w h x y -> e0 x y <> nd -> 1 <= lab x y <= K) /\
      (forall x y, in_raster w h x y -> lab x y = -1 \/ 1 <= lab x y <= K) /\
      (forall k, 1 <= k <= K -> let (sx, sy) := seed k in
         in_raster w h sx sy /\ lab sx sy = k /\ e0 sx sy <> nd /\
         (on_edge w h sx sy \/ exists x' y', adjacent t sx sy x' y' /\ in_raster w h x' y' /\ e0 x' y' = nd)) /\
      exists lv, (forall x y, in_raster w h x y -> drainage_level t w h e0 x y (lv x y)) /\
        forall x y, in_raster w h x y -> lab x y <> -1 ->
          label_path t w h lab lv (lab x y) (fst (seed (lab x y))) (snd (seed (lab x y))) x y.
  Proof.
    intros Hw Hh. unfold PriorityFloodWatersheds_Barnes2014.
    destruct (while_pop_inv (ws_pop tb) (ws_body alter t w h nd) WJ wmu) with (fuel := pf_fuel w h) (i := 0%nat)
      (s := mkW (init_closed w h) e0 (fun _ _ => -1) 1 (seeds w h e0) []) as [s' [i' [E [[lv [HP [HE HL]]] Hn]]]].
    - intros; eapply ws_step; eauto.
    - exists e0. split; cbn; [apply PInv_init; auto|]. split.
      + intros x y. destruct (alter && _); auto.
      + split; [lia|]. split; [auto|]. exists (fun _ => (0, 0)). split; [|intros; lia].
        intros x y Hc. left. apply init_closed_iff in Hc; auto. split; [auto|]. split; [auto|]. split; [auto|].
        intros _. exists (mkItem x y (e0 x y)). cbn. split; auto. apply seeds_In; auto.
    - cbn. apply init_fuel.
    - rewrite E. cbn.
      unfold ws_pop in Hn. destruct (w_pit s') eqn:Hpit; [|discriminate].
      destruct (pq_pop item_gt (tb i') (w_open s')) as [[? ?]|] eqn:Hq; [discriminate|].
      apply pq_pop_item_none in Hq. rewrite Hq in HP, HL.
      destruct HL as [HK [HU [seed [H3 H4]]]].
      exists (w_elev s'), (w_labels s'), (w_clabel s' - 1), seed. split; [auto|]. split; [|split; [|split; [|split; [|split]]]].
      + intros Ha x y. rewrite HE, Ha. auto.
      + intros Ha x y Hr. destruct (PInv_done _ _ _ _ _ _ HP x y Hr) as [Hc HLv]. rewrite HE, Ha, Hc. auto.
      + intros x y Hr Hd. destruct (PInv_done _ _ _ _ _ _ HP x y Hr) as [Hc _].
        destruct (H3 _ _ Hc) as [[_ [_ [_ C]]]|[A _]]; [|lia]. destruct (C Hd) as [it [[] _]].
      + intros x y Hr. destruct (PInv_done _ _ _ _ _ _ HP x y Hr) as [Hc _].
        destruct (H3 _ _ Hc) as [[A _]|[A _]]; [auto|lia].
      + intros k Hk. specialize (H4 k ltac:(lia)). destruct (seed k). tauto.
      + exists lv. split; [intros x y Hr; apply (PInv_done _ _ _ _ _ _ HP x y Hr)|].
        intros x y Hr Hl. destruct (PInv_done _ _ _ _ _ _ HP x y Hr) as [Hc _].
        destruct (H3 _ _ Hc) as [[A _]|[_ B]]; [contradiction|auto].
  Qed.
End Watershed.
