(** Correctness of the filling variants of Priority-Flood. *)
From Coq Require Import ZArith List Lia Bool Permutation.
From Verif Require Import Base RasterSpec RasterFacts PFModel PFInv.
Open Scope Z_scope.

Lemma FInv_lv_ext t w h e0 cl lv lv' F :
  (forall x y, cl x y = true -> lv x y = lv' x y) -> FInv t w h e0 cl lv F -> FInv t w h e0 cl lv' F.
Proof.
  intros E [H1 H2 H3 H4 H5]. constructor; auto.
  - intros x y Hc. rewrite <- E by auto. auto.
  - intros it Hin. destruct (H4 _ Hin) as [Hc Hl]. rewrite <- E by auto. auto.
Qed.

Lemma item_gt_false a b : item_gt a b = false -> iz a <= iz b.
Proof. unfold item_gt. rewrite Z.gtb_ltb. intros H. apply Z.ltb_ge in H. auto. Qed.

Lemma pq_pop_item k q c q' : pq_pop item_gt k q = Some (c, q') ->
  Permutation q (c :: q') /\ (forall it, In it q -> iz c <= iz it).
Proof.
  intros H. apply pq_pop_some in H. destruct H as [P M]. split; auto.
  intros it Hin. apply item_gt_false, M, Hin.
Qed.

Lemma pq_pop_item_none k q : pq_pop item_gt k q = None -> q = [].
Proof. apply pq_pop_none. intros Hq. apply min_by_key. auto. Qed.

Lemma visit_adjacent t c n nx ny : In n (dirs t) -> nx = ix c + dx t n -> ny = iy c + dy t n ->
  adjacent t (ix c) (iy c) nx ny.
Proof. intros H1 H2 H3. apply adjacent_iff. eauto. Qed.

(** The measure of the main loops. *)
Definition msr (w h : Z) (cl : grid bool) (n : nat) : nat := (n + unclosed cl w h)%nat.

Lemma init_fuel w h e : (msr w h (init_closed w h) (length (seeds w h e)) <= pf_fuel w h)%nat.
Proof.
  unfold msr, pf_fuel, seeds. rewrite map_length. pose proof (unclosed_bound (init_closed w h) w h). lia.
Qed.

(** ** PriorityFlood_Original *)
Section Original.
  Variables (tb : nat -> nat) (t : topology) (w h : Z) (e0 : grid Z).

  Definition OJ (s : ostate) : Prop :=
    FInv t w h e0 (o_closed s) (o_elev s) (o_open s) /\
    (forall x y, o_closed s x y = false -> o_elev s x y = e0 x y).

  Definition OI (c : item) (m : nat) (s : ostate) : Prop :=
    FInv t w h e0 (o_closed s) (o_elev s) (c :: o_open s) /\
    (forall it, In it (o_open s) -> iz c <= iz it) /\
    (forall x y, o_closed s x y = false -> o_elev s x y = e0 x y) /\
    msr w h (o_closed s) (length (o_open s)) = m.

  Lemma orig_step i s c s1 : OJ s -> orig_pop tb i s = Some (c, s1) ->
    OJ (orig_body t w h c s1) /\
    (msr w h (o_closed (orig_body t w h c s1)) (length (o_open (orig_body t w h c s1)))
      < msr w h (o_closed s) (length (o_open s)))%nat.
  Proof.
    intros [HF HU] Hp. unfold orig_pop in Hp.
    destruct (pq_pop item_gt (tb i) (o_open s)) as [[c' q]|] eqn:Hq; [|discriminate].
    inversion Hp; subst c' s1; clear Hp.
    apply pq_pop_item in Hq. destruct Hq as [HP Hmin].
    set (s1 := mkO (o_closed s) (o_elev s) q). set (m := msr w h (o_closed s) (length q)).
    assert (HI : OI c m s1).
    { split; [|split; [|split]]; cbn; auto.
      - eapply FInv_perm; eauto.
      - intros it Hin. apply Hmin. eapply Permutation_in; [apply Permutation_sym, HP|]. simpl; auto. }
    destruct (visit_all_nostop t w h o_closed (orig_visit c) (ix c) (iy c) (OI c m) (dirs t) s1)
      as [HI' [_ Hall]]; auto.
    - clear HI. clearbody s1 m. clear s HF HU HP Hmin. intros s n nx ny [HF [Hmin [HU Hm]]] Hn Hx Hy Hr Hc. split; [|reflexivity].
      assert (Hz : Z.max (o_elev s nx ny) (o_elev s (ix c) (iy c)) = Z.max (e0 nx ny) (iz c)).
      { rewrite (HU _ _ Hc). destruct (fi_item _ _ _ _ _ _ _ HF c) as [_ ->]; simpl; auto. }
      unfold orig_visit. rewrite Hz. cbn. split; [|split; [|split]]; cbn.
      + eapply FInv_perm; [apply perm_swap|]. eapply FInv_visit; eauto; simpl; auto.
        * intros it [<-|Hin]; [lia|auto].
        * eapply visit_adjacent; eauto.
      + intros it [<-|Hin]; cbn; [lia|auto].
      + intros x y Hxy. destruct (gset_cases (o_closed s) nx ny true x y) as [[_ E]|[Hne E]]; rewrite E in Hxy; [discriminate|].
        rewrite gset_other by auto. auto.
      + rewrite <- Hm. unfold msr. cbn. rewrite (unclosed_gset (o_closed s) w h nx ny); [lia|apply Hr|apply Hr|auto].
    - reflexivity.
    - fold (orig_body t w h c s1) in *. cbv zeta in *. destruct HI' as [HF' [Hmin' [HU' Hm']]]. split.
      + split; auto. eapply FInv_finish; eauto.
      + cbn. rewrite Hm'. unfold m, msr. rewrite (Permutation_length HP). simpl. lia.
  Qed.

  Lemma orig_correct : 0 < w -> 0 < h ->
    exists r, PriorityFlood_Original tb t w h e0 = Some r /\
      forall x y, in_raster w h x y -> drainage_level t w h e0 x y (r x y).
  Proof.
    intros Hw Hh. unfold PriorityFlood_Original.
    destruct (while_pop_inv (orig_pop tb) (orig_body t w h) OJ
      (fun s => msr w h (o_closed s) (length (o_open s)))) with (fuel := pf_fuel w h) (i := 0%nat)
      (s := mkO (init_closed w h) e0 (seeds w h e0)) as [s' [i' [E [[HF HU] Hn]]]].
    - intros; eapply orig_step; eauto.
    - split; cbn; auto. apply FInv_init; auto.
    - cbn. apply init_fuel.
    - rewrite E. cbn. eexists. split; [reflexivity|]. intros x y Hr.
      unfold orig_pop in Hn. destruct (pq_pop item_gt (tb i') (o_open s')) as [[? ?]|] eqn:Hq; [discriminate|].
      apply pq_pop_item_none in Hq. rewrite Hq in HF.
      eapply fi_level; eauto. eapply FInv_done; eauto.
  Qed.
End Original.

(** ** Invariants for the variants with a plain queue *)
Definition PInv t w h e0 cl lv (open pit : list item) : Prop :=
  FInv t w h e0 cl lv (pit ++ open) /\
  forall p, In p pit -> (forall it, In it pit -> iz it = iz p) /\ (forall it, In it open -> iz p <= iz it).

Definition CInv t w h e0 (c : item) cl lv (open pit : list item) : Prop :=
  FInv t w h e0 cl lv (c :: pit ++ open) /\
  (forall it, In it pit -> iz it = iz c) /\ (forall it, In it open -> iz c <= iz it).

Lemma PInv_init t w h e0 : 0 < w -> 0 < h -> PInv t w h e0 (init_closed w h) e0 (seeds w h e0) [].
Proof. intros Hw Hh. split; [apply FInv_init; auto|intros p []]. Qed.

Lemma PInv_pop_pit t w h e0 cl lv open c pit :
  PInv t w h e0 cl lv open (c :: pit) -> CInv t w h e0 c cl lv open pit.
Proof.
  intros [HF Ho]. destruct (Ho c) as [H1 H2]; [simpl; auto|]. split; [exact HF|]. split; auto.
  intros it Hin. apply H1. simpl; auto.
Qed.

Lemma PInv_pop_open t w h e0 cl lv open c q k :
  PInv t w h e0 cl lv open [] -> pq_pop item_gt k open = Some (c, q) -> CInv t w h e0 c cl lv q [].
Proof.
  intros [HF Ho] Hq. apply pq_pop_item in Hq. destruct Hq as [HP Hmin]. split; [|split].
  - cbn. eapply FInv_perm; [exact HP|exact HF].
  - intros it [].
  - intros it Hin. apply Hmin. eapply Permutation_in; [apply Permutation_sym, HP|]. simpl; auto.
Qed.

Lemma CInv_min t w h e0 c cl lv open pit :
  CInv t w h e0 c cl lv open pit -> forall it, In it (c :: pit ++ open) -> iz c <= iz it.
Proof.
  intros [_ [H1 H2]] it [<-|Hin]; [lia|]. apply in_app_iff in Hin. destruct Hin as [Hin|Hin]; auto.
  rewrite (H1 _ Hin). lia.
Qed.

Lemma CInv_visit_pit t w h e0 c cl lv open pit nx ny :
  CInv t w h e0 c cl lv open pit -> adjacent t (ix c) (iy c) nx ny -> in_raster w h nx ny ->
  cl nx ny = false -> e0 nx ny <= iz c ->
  CInv t w h e0 c (gset cl nx ny true) (gset lv nx ny (iz c)) open (pit ++ [mkItem nx ny (iz c)]).
Proof.
  intros HC Ha Hr Hn Hle. pose proof (CInv_min _ _ _ _ _ _ _ _ _ HC) as Hmin. destruct HC as [HF [H1 H2]].
  split; [|split]; auto.
  - eapply FInv_equiv; [|eapply (FInv_visit t w h e0 cl lv (c :: pit ++ open) c nx ny (iz c)); eauto; simpl; auto; lia].
    intros it. simpl. rewrite !in_app_iff. simpl. tauto.
  - intros it Hin. apply in_app_iff in Hin. destruct Hin as [Hin|[<-|[]]]; auto.
Qed.

Lemma CInv_visit_open t w h e0 c cl lv open pit nx ny :
  CInv t w h e0 c cl lv open pit -> adjacent t (ix c) (iy c) nx ny -> in_raster w h nx ny ->
  cl nx ny = false -> iz c <= e0 nx ny ->
  CInv t w h e0 c (gset cl nx ny true) (gset lv nx ny (e0 nx ny)) (mkItem nx ny (e0 nx ny) :: open) pit.
Proof.
  intros HC Ha Hr Hn Hle. pose proof (CInv_min _ _ _ _ _ _ _ _ _ HC) as Hmin. destruct HC as [HF [H1 H2]].
  split; [|split]; auto.
  - eapply FInv_equiv; [|eapply (FInv_visit t w h e0 cl lv (c :: pit ++ open) c nx ny (e0 nx ny)); eauto; simpl; auto; lia].
    intros it. simpl. rewrite !in_app_iff. simpl. tauto.
  - intros it [<-|Hin]; cbn; auto.
Qed.

Lemma CInv_finish t w h e0 c cl lv open pit :
  CInv t w h e0 c cl lv open pit ->
  (forall x y, adjacent t (ix c) (iy c) x y -> in_raster w h x y -> cl x y = true) ->
  PInv t w h e0 cl lv open pit.
Proof.
  intros [HF [H1 H2]] Hall. split; [eapply FInv_finish; eauto|].
  intros p Hp. split; intros it Hin.
  - rewrite (H1 _ Hp), (H1 _ Hin). auto.
  - rewrite (H1 _ Hp). auto.
Qed.

Lemma CInv_lv_ext t w h e0 c cl lv lv' open pit :
  (forall x y, cl x y = true -> lv x y = lv' x y) ->
  CInv t w h e0 c cl lv open pit -> CInv t w h e0 c cl lv' open pit.
Proof. intros E [HF H]. split; auto. eapply FInv_lv_ext; eauto. Qed.

Lemma PInv_done t w h e0 cl lv : PInv t w h e0 cl lv [] [] ->
  forall x y, in_raster w h x y -> cl x y = true /\ drainage_level t w h e0 x y (lv x y).
Proof.
  intros [HF _] x y Hr. pose proof (FInv_done _ _ _ _ _ _ HF x y Hr). split; auto. eapply fi_level; eauto.
Qed.

(** ** PriorityFlood_Barnes2014 *)
Section Improved.
  Variables (tb : nat -> nat) (t : topology) (w h : Z) (e0 : grid Z).

  Definition bmu (s : bstate) : nat := msr w h (b_closed s) (length (b_pit s) + length (b_open s)).

  Definition BJ (s : bstate) : Prop :=
    PInv t w h e0 (b_closed s) (b_elev s) (b_open s) (b_pit s) /\
    (forall x y, b_closed s x y = false -> b_elev s x y = e0 x y).

  Definition BI (c : item) (m : nat) (s : bstate) : Prop :=
    CInv t w h e0 c (b_closed s) (b_elev s) (b_open s) (b_pit s) /\
    (forall x y, b_closed s x y = false -> b_elev s x y = e0 x y) /\ bmu s = m.

  Lemma imp_pop_inv i s c s1 : BJ s -> imp_pop tb i s = Some (c, s1) ->
    BI c (bmu s1) s1 /\ (bmu s1 < bmu s)%nat.
  Proof.
    intros [HP HU] Hp. unfold imp_pop in Hp.
    destruct s as [cl el op pt]; cbn in *. destruct pt as [|p pt].
    - destruct (pq_pop item_gt (tb i) op) as [[c' q]|] eqn:Hq; [|discriminate].
      inversion Hp; subst c' s1; clear Hp. split.
      + split; [|split]; cbn; auto. eapply PInv_pop_open; eauto.
      + apply pq_pop_item in Hq. destruct Hq as [HPm _]. unfold bmu, msr; cbn.
        rewrite (Permutation_length HPm). simpl. lia.
    - inversion Hp; subst p s1; clear Hp. split.
      + split; [|split]; cbn; auto. apply PInv_pop_pit; auto.
      + unfold bmu, msr; cbn. lia.
  Qed.

  Lemma imp_step i s c s1 : BJ s -> imp_pop tb i s = Some (c, s1) ->
    BJ (imp_body t w h c s1) /\ (bmu (imp_body t w h c s1) < bmu s)%nat.
  Proof.
    intros HJ Hp. destruct (imp_pop_inv _ _ _ _ HJ Hp) as [HI Hlt]. clear HJ Hp.
    destruct (visit_all_nostop t w h b_closed (imp_visit c) (ix c) (iy c) (BI c (bmu s1)) (dirs t) s1)
      as [HI' [_ Hall]]; auto.
    - clear s HI Hlt. generalize (bmu s1) as m. clear s1.
      intros m s n nx ny [HC [HU Hm]] Hn Hx Hy Hr Hc.
      assert (Ha : adjacent t (ix c) (iy c) nx ny) by (eapply visit_adjacent; eauto).
      assert (Hun : unclosed (b_closed s) w h = S (unclosed (gset (b_closed s) nx ny true) w h))
        by (apply unclosed_gset; auto; apply Hr).
      unfold imp_visit. rewrite (HU _ _ Hc).
      destruct (Z.leb_spec (e0 nx ny) (iz c)) as [Hle|Hgt]; (split; [|reflexivity]).
      + split; [|split]; cbn.
        * eapply CInv_lv_ext; [|eapply CInv_visit_pit; eauto].
          intros x y _. destruct (Z.ltb_spec (e0 nx ny) (iz c)); [reflexivity|].
          destruct (gset_cases (b_elev s) nx ny (iz c) x y) as [[E ->]|[_ ->]]; auto.
          inversion E; subst x y. rewrite (HU _ _ Hc). lia.
        * intros x y Hxy. destruct (gset_cases (b_closed s) nx ny true x y) as [[_ E]|[Hne E]]; rewrite E in Hxy; [discriminate|].
          destruct (e0 nx ny <? iz c); [rewrite gset_other by auto|]; auto.
        * rewrite <- Hm. unfold bmu, msr. cbn. rewrite app_length. cbn. lia.
      + split; [|split]; cbn.
        * eapply CInv_lv_ext; [|eapply CInv_visit_open; eauto; lia].
          intros x y _. destruct (gset_cases (b_elev s) nx ny (e0 nx ny) x y) as [[E ->]|[_ ->]]; auto.
          inversion E; subst x y. rewrite (HU _ _ Hc). auto.
        * intros x y Hxy. destruct (gset_cases (b_closed s) nx ny true x y) as [[_ E]|[Hne E]]; rewrite E in Hxy; [discriminate|]. auto.
        * rewrite <- Hm. unfold bmu, msr. cbn. lia.
    - reflexivity.
    - fold (imp_body t w h c s1) in *. cbv zeta in *. destruct HI' as [HC [HU Hm]]. split.
      + split; auto. eapply CInv_finish; eauto.
      + lia.
  Qed.

  Lemma imp_correct : 0 < w -> 0 < h ->
    exists r, PriorityFlood_Barnes2014 tb t w h e0 = Some r /\
      forall x y, in_raster w h x y -> drainage_level t w h e0 x y (r x y).
  Proof.
    intros Hw Hh. unfold PriorityFlood_Barnes2014.
    destruct (while_pop_inv (imp_pop tb) (imp_body t w h) BJ bmu) with (fuel := pf_fuel w h) (i := 0%nat)
      (s := mkB (init_closed w h) e0 (seeds w h e0) []) as [s' [i' [E [[HP HU] Hn]]]].
    - intros; eapply imp_step; eauto.
    - split; cbn; auto. apply PInv_init; auto.
    - cbn. apply init_fuel.
    - rewrite E. cbn. eexists. split; [reflexivity|]. intros x y Hr.
      unfold imp_pop in Hn. destruct (b_pit s') eqn:Hpit; [|discriminate].
      destruct (pq_pop item_gt (tb i') (b_open s')) as [[? ?]|] eqn:Hq; [discriminate|].
      apply pq_pop_item_none in Hq. rewrite Hq in HP. eapply PInv_done; eauto.
  Qed.
End Improved.

(** ** pit_mask *)
Section Mask.
  Variables (tb : nat -> nat) (t : topology) (w h : Z) (e0 : grid Z) (nd : Z).

  Definition mmu (s : mstate) : nat := msr w h (m_closed s) (length (m_pit s) + length (m_open s)).

  (** value the mask must have once a cell's NoData test is still ahead ([false]) or done ([true]) *)
  Definition MV (lv : grid Z) (x y v : Z) : Prop :=
    v = (if e0 x y <? lv x y then 1 else 0).

  Definition MV' (lv : grid Z) (x y v : Z) : Prop :=
    v = (if e0 x y =? nd then 3 else if e0 x y <? lv x y then 1 else 0).

  (** [pend]: items whose NoData test is still to come *)
  Definition MM (cl : grid bool) (lv : grid Z) (mk : grid Z) (pend : list item) : Prop :=
    (forall x y, cl x y = false -> mk x y = 0) /\
    (forall x y, cl x y = true ->
       MV' lv x y (mk x y) \/ (MV lv x y (mk x y) /\ exists it, In it pend /\ ix it = x /\ iy it = y)).

  Definition MJ (s : mstate) : Prop := exists lv,
    PInv t w h e0 (m_closed s) lv (m_open s) (m_pit s) /\
    MM (m_closed s) lv (m_mask s) (m_pit s ++ m_open s).

  Definition MI (c : item) (m : nat) (s : mstate) : Prop := exists lv,
    CInv t w h e0 c (m_closed s) lv (m_open s) (m_pit s) /\
    MM (m_closed s) lv (m_mask s) (c :: m_pit s ++ m_open s) /\ mmu s = m.

  Lemma MM_equiv cl lv mk P P' : (forall it, In it P <-> In it P') -> MM cl lv mk P -> MM cl lv mk P'.
  Proof.
    intros E [H1 H2]. split; auto. intros x y Hc. destruct (H2 x y Hc) as [A|[A [it [Hi B]]]]; auto.
    right. split; auto. exists it. rewrite <- E. auto.
  Qed.

  Lemma mask_pop_inv i s c s1 : MJ s -> mask_pop tb i s = Some (c, s1) ->
    MI c (mmu s1) s1 /\ (mmu s1 < mmu s)%nat.
  Proof.
    intros [lv [HP HM]] Hp. unfold mask_pop in Hp.
    destruct s as [cl mk op pt]; cbn in *. destruct pt as [|p pt].
    - destruct (pq_pop item_gt (tb i) op) as [[c' q]|] eqn:Hq; [|discriminate].
      inversion Hp; subst c' s1; clear Hp.
      pose proof (pq_pop_item _ _ _ _ Hq) as [HPm _]. split.
      + exists lv. split; [|split]; cbn; auto; [eapply PInv_pop_open; eauto|].
        eapply MM_equiv; [|exact HM]. cbn [app]. intros it.
        split; [apply Permutation_in, HPm|apply Permutation_in, Permutation_sym, HPm].
      + unfold mmu, msr; cbn. rewrite (Permutation_length HPm). simpl. lia.
    - inversion Hp; subst p s1; clear Hp. split.
      + exists lv. split; [|split]; cbn; auto. apply PInv_pop_pit; auto.
      + unfold mmu, msr; cbn. lia.
  Qed.

  Lemma MM_visit cl lv mk P nx ny z mk' it :
    MM cl lv mk P -> cl nx ny = false -> ix it = nx -> iy it = ny ->
    (forall x y, (x, y) <> (nx, ny) -> mk' x y = mk x y) ->
    mk' nx ny = (if e0 nx ny <? z then 1 else 0) ->
    MM (gset cl nx ny true) (gset lv nx ny z) mk' (it :: P).
  Proof.
    intros [H1 H2] Hc Ex Ey Ho Hn. split.
    - intros x y Hxy. destruct (gset_cases cl nx ny true x y) as [[_ E]|[Hne E]]; rewrite E in Hxy; [discriminate|].
      rewrite Ho by auto. auto.
    - intros x y Hxy. destruct (gset_cases cl nx ny true x y) as [[E _]|[Hne E]].
      + inversion E; subst x y. right. split.
        * unfold MV. rewrite gset_same. exact Hn.
        * exists it. simpl; auto.
      + rewrite E in Hxy. rewrite Ho by auto. unfold MV, MV'. rewrite gset_other by auto.
        destruct (H2 _ _ Hxy) as [A|[A [it' [Hi B]]]]; [left; exact A|right].
        split; [exact A|]. exists it'. simpl; auto.
  Qed.

  Lemma mask_step i s c s1 : MJ s -> mask_pop tb i s = Some (c, s1) ->
    MJ (mask_body t w h e0 nd c s1) /\ (mmu (mask_body t w h e0 nd c s1) < mmu s)%nat.
  Proof.
    intros HJ Hp. destruct (mask_pop_inv _ _ _ _ HJ Hp) as [HI Hlt]. clear HJ Hp.
    destruct (visit_all_nostop t w h m_closed (mask_visit e0 c) (ix c) (iy c) (MI c (mmu s1)) (dirs t) s1)
      as [HI' [_ Hall]]; auto.
    - clear s HI Hlt. generalize (mmu s1) as m. clear s1.
      intros m s n nx ny [lv [HC [HM Hm]]] Hn Hx Hy Hr Hc.
      assert (Ha : adjacent t (ix c) (iy c) nx ny) by (eapply visit_adjacent; eauto).
      assert (Hun : unclosed (m_closed s) w h = S (unclosed (gset (m_closed s) nx ny true) w h))
        by (apply unclosed_gset; auto; apply Hr).
      unfold mask_visit.
      destruct (Z.leb_spec (e0 nx ny) (iz c)) as [Hle|Hgt]; (split; [|reflexivity]).
      + exists (gset lv nx ny (iz c)). split; [|split]; cbn.
        * eapply CInv_visit_pit; eauto.
        * eapply MM_equiv; [|eapply (MM_visit _ _ (m_mask s) _ nx ny (iz c) _ (mkItem nx ny (iz c))); eauto].
          -- intros it. simpl. rewrite !in_app_iff. simpl. tauto.
          -- intros x y Hne. destruct (e0 nx ny <? iz c); auto. apply gset_other; auto.
          -- destruct (e0 nx ny <? iz c); [apply gset_same|]. apply HM; auto.
        * rewrite <- Hm. unfold mmu, msr. cbn. rewrite app_length. cbn. lia.
      + exists (gset lv nx ny (e0 nx ny)). split; [|split]; cbn.
        * eapply CInv_visit_open; eauto; lia.
        * eapply MM_equiv; [|eapply (MM_visit _ _ (m_mask s) _ nx ny (e0 nx ny) _ (mkItem nx ny (e0 nx ny))); eauto].
          -- intros it. simpl. rewrite !in_app_iff. simpl. tauto.
          -- intros x y Hne. apply gset_other; auto.
          -- rewrite Z.ltb_irrefl. apply gset_same.
        * rewrite <- Hm. unfold mmu, msr. cbn. lia.
    - reflexivity.
    - unfold mask_body. set (s2 := fold_left (visit t w h m_closed (mask_visit e0 c) (ix c) (iy c)) (dirs t) s1) in *.
      cbv zeta in *. destruct HI' as [lv [HC [HM Hm]]].
      assert (Hcc : m_closed s2 (ix c) (iy c) = true).
      { destruct HC as [HF _]. apply (fi_item _ _ _ _ _ _ _ HF c). simpl; auto. }
      assert (HP : PInv t w h e0 (m_closed s2) lv (m_open s2) (m_pit s2)) by (eapply CInv_finish; eauto).
      destruct HM as [HM1 HM2].
      destruct (Z.eqb_spec (e0 (ix c) (iy c)) nd) as [Hnd|Hnd].
      + split; [|unfold mmu, msr in *; cbn [m_closed m_open m_pit]; lia]. exists lv. split; [exact HP|]. split; cbn.
        * intros x y Hxy. rewrite gset_other; auto. intros E; inversion E; subst; congruence.
        * intros x y Hxy. destruct (gset_cases (m_mask s2) (ix c) (iy c) 3 x y) as [[E ->]|[Hne ->]].
          -- inversion E; subst x y. left. unfold MV'. rewrite Hnd, Z.eqb_refl. auto.
          -- destruct (HM2 _ _ Hxy) as [A|[A [it [[<-|Hi] [B1 B2]]]]]; auto; [|right; eauto].
             exfalso. apply Hne. congruence.
      + split; [|lia]. exists lv. split; [exact HP|]. split; auto.
        intros x y Hxy. destruct (HM2 _ _ Hxy) as [A|[A [it [[<-|Hi] [B1 B2]]]]]; auto; [|right; eauto].
        left. unfold MV'. subst x y. destruct (Z.eqb_spec (e0 (ix c) (iy c)) nd); [contradiction|]. exact A.
  Qed.

  Lemma mask_correct : 0 < w -> 0 < h ->
    exists m, pit_mask tb t w h e0 nd = Some m /\
      forall x y L, in_raster w h x y -> drainage_level t w h e0 x y L ->
        (e0 x y = nd -> m x y = 3) /\
        (e0 x y <> nd -> e0 x y < L -> m x y = 1) /\
        (e0 x y <> nd -> L <= e0 x y -> m x y = 0).
  Proof.
    intros Hw Hh. unfold pit_mask.
    destruct (while_pop_inv (mask_pop tb) (mask_body t w h e0 nd) MJ mmu) with (fuel := pf_fuel w h) (i := 0%nat)
      (s := mkM (init_closed w h) (fun _ _ => 0) (seeds w h e0) []) as [s' [i' [E [[lv [HP HM]] Hn]]]].
    - intros; eapply mask_step; eauto.
    - exists e0. split; cbn; [apply PInv_init; auto|]. split; auto.
      intros x y Hc. right. split; [unfold MV; rewrite Z.ltb_irrefl; auto|].
      apply init_closed_iff in Hc; auto. exists (mkItem x y (e0 x y)). cbn. split; auto. apply seeds_In; auto.
    - cbn. apply init_fuel.
    - rewrite E. cbn. eexists. split; [reflexivity|]. intros x y L Hr HL.
      unfold mask_pop in Hn. destruct (m_pit s') eqn:Hpit; [|discriminate].
      destruct (pq_pop item_gt (tb i') (m_open s')) as [[? ?]|] eqn:Hq; [discriminate|].
      apply pq_pop_item_none in Hq. rewrite Hq in HP, HM.
      destruct (PInv_done _ _ _ _ _ _ HP x y Hr) as [Hc HL'].
      assert (L = lv x y) by (eapply drainage_level_unique; eauto). subst L.
      destruct HM as [_ HM]. destruct (HM _ _ Hc) as [A|[_ [it [[] _]]]]. unfold MV' in A. rewrite A.
      destruct (Z.eqb_spec (e0 x y) nd) as [->|Hne].
      + split; [auto|]. split; intros; congruence.
      + split; [congruence|]. destruct (Z.ltb_spec (e0 x y) (lv x y)); split; intros; auto; lia.
  Qed.
End Mask.

(** ** HasDepressions *)
Section HasDep.
  Variables (tb : nat -> nat) (t : topology) (w h : Z) (e0 : grid Z).

  Definition some_below : Prop := exists x y L, in_raster w h x y /\ drainage_level t w h e0 x y L /\ e0 x y < L.

  Definition hmu (s : hstate) : nat := msr w h (h_closed s) (length (h_open s)).

  Definition HJ (s : hstate) : Prop :=
    if h_found s then some_below else FInv t w h e0 (h_closed s) e0 (h_open s).

  Definition HI (c : item) (m : nat) (s : hstate) : Prop :=
    iz c = e0 (ix c) (iy c) /\ (hmu s <= m)%nat /\
    if h_found s then some_below else
    FInv t w h e0 (h_closed s) e0 (c :: h_open s) /\ (forall it, In it (h_open s) -> iz c <= iz it).

  Lemma has_step i s c s1 : HJ s -> has_pop tb i s = Some (c, s1) ->
    HJ (has_body t w h e0 c s1) /\ (hmu (has_body t w h e0 c s1) < hmu s)%nat.
  Proof.
    intros HJs Hp. unfold has_pop in Hp. unfold HJ in HJs. destruct (h_found s) eqn:Hf; [discriminate|].
    destruct (pq_pop item_gt (tb i) (h_open s)) as [[c' q]|] eqn:Hq; [|discriminate].
    inversion Hp; subst c' s1; clear Hp.
    apply pq_pop_item in Hq. destruct Hq as [HP Hmin].
    set (s1 := mkH (h_closed s) q false).
    assert (HF : FInv t w h e0 (h_closed s) e0 (c :: q)) by (eapply FInv_perm; eauto).
    assert (HI1 : HI c (hmu s1) s1).
    { split; [|split].
      - destruct (fi_item _ _ _ _ _ _ _ HF c); simpl; auto.
      - lia.
      - cbn. split; auto. intros it Hin. apply Hmin. eapply Permutation_in; [apply Permutation_sym, HP|]. simpl; auto. }
    destruct (visit_all t w h h_closed (has_visit e0 c) (ix c) (iy c) h_found (HI c (hmu s1))) with (ds := dirs t) (s := s1)
      as [HI' [_ Hall]]; auto.
    - generalize (hmu s1) as m. clear HI1. clearbody s1. clear s HJs Hf HP Hmin HF. intros m s n nx ny [Hz [Hm Hs]] Hn Hx Hy Hr Hc. unfold has_visit.
      assert (Hun : unclosed (h_closed s) w h = S (unclosed (gset (h_closed s) nx ny true) w h))
        by (apply unclosed_gset; auto; apply Hr).
      destruct (h_found s) eqn:Hf.
      + split; [|split; [auto|intros; congruence]]. split; [auto|]. split; [auto|]. rewrite Hf. exact Hs.
      + destruct Hs as [HF Hmin].
        assert (Ha : adjacent t (ix c) (iy c) nx ny) by (eapply visit_adjacent; eauto).
        assert (HV : FInv t w h e0 (gset (h_closed s) nx ny true) (gset e0 nx ny (Z.max (e0 nx ny) (iz c)))
                      (mkItem nx ny (Z.max (e0 nx ny) (iz c)) :: c :: h_open s)).
        { eapply FInv_visit; eauto; simpl; auto. intros it [<-|Hin]; [lia|auto]. }
        destruct (Z.ltb_spec (e0 nx ny) (e0 (ix c) (iy c))) as [Hlt|Hge].
        * split; [|split; [auto|cbn; intros; discriminate]]. split; [auto|]. split; [unfold hmu, msr in *; cbn; lia|].
          cbn. exists nx, ny, (Z.max (e0 nx ny) (iz c)). split; [auto|]. split; [|lia].
          pose proof (fi_level _ _ _ _ _ _ _ HV nx ny) as HL. rewrite !gset_same in HL. auto.
        * split; [|split; [cbn; congruence|auto]]. split; [auto|]. split; [unfold hmu, msr in *; cbn; lia|].
          cbn. assert (Ez : Z.max (e0 nx ny) (iz c) = e0 nx ny) by lia. rewrite Ez in HV. split.
          -- eapply FInv_perm; [apply perm_swap|]. eapply FInv_lv_ext; [|exact HV].
             intros x y _. destruct (gset_cases e0 nx ny (e0 nx ny) x y) as [[E ->]|[_ ->]]; auto.
             inversion E; auto.
          -- intros it [<-|Hin]; cbn; [lia|auto].
    - apply incl_refl.
    - fold (has_body t w h e0 c s1) in *. destruct HI' as [Hz [Hm Hs]]. split.
      + unfold HJ. destruct (h_found (has_body t w h e0 c s1)) eqn:Hf'; auto.
        destruct Hs as [HF' _]. eapply FInv_finish; eauto. intros x y Ha Hr.
        apply adjacent_iff in Ha. destruct Ha as [n [Hn [-> ->]]]. apply Hall; auto.
      + unfold hmu, msr in *. cbn in Hm. rewrite (Permutation_length HP). simpl. lia.
  Qed.

  Lemma has_correct : 0 < w -> 0 < h ->
    exists b, HasDepressions tb t w h e0 = Some b /\
      (b = true <-> exists x y L, in_raster w h x y /\ drainage_level t w h e0 x y L /\ e0 x y < L).
  Proof.
    intros Hw Hh. unfold HasDepressions.
    destruct (while_pop_inv (has_pop tb) (has_body t w h e0) HJ hmu) with (fuel := pf_fuel w h) (i := 0%nat)
      (s := mkH (init_closed w h) (seeds w h e0) false) as [s' [i' [E [HJs Hn]]]].
    - intros; eapply has_step; eauto.
    - unfold HJ. cbn. apply FInv_init; auto.
    - cbn. apply init_fuel.
    - rewrite E. cbn. eexists. split; [reflexivity|].
      unfold HJ in HJs. unfold has_pop in Hn. destruct (h_found s').
      + split; auto.
      + split; [discriminate|]. intros [x [y [L [Hr [HL Hlt]]]]]. exfalso.
        destruct (pq_pop item_gt (tb i') (h_open s')) as [[? ?]|] eqn:Hq; [discriminate|].
        apply pq_pop_item_none in Hq. rewrite Hq in HJs.
        pose proof (FInv_done _ _ _ _ _ _ HJs x y Hr) as Hc.
        pose proof (fi_level _ _ _ _ _ _ _ HJs x y Hc) as HL'.
        pose proof (drainage_level_unique _ _ _ _ _ _ _ _ HL HL'). lia.
  Qed.
End HasDep.
