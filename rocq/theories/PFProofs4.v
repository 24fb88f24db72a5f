(** PriorityFlood_Barnes2014_max_dep. *)
From Coq Require Import ZArith List Lia Bool Permutation.
From Verif Require Import Base RasterSpec RasterFacts PFModel PFSpec PFInv PFProofs.
Open Scope Z_scope.

(** Any unclosed cell lies strictly between two pending cells of its row. *)
Lemma FInv_two t w h e0 cl lv F x y :
  FInv t w h e0 cl lv F -> in_raster w h x y -> cl x y = false ->
  exists it1 it2, In it1 F /\ In it2 F /\ ix it1 < x < ix it2.
Proof.
  intros HI Hr Hc.
  assert (HL : forall n x0, x0 = Z.of_nat n -> in_raster w h x0 y -> cl x0 y = false -> exists it, In it F /\ ix it < x0).
  { induction n as [|n IH]; intros x0 Hx Hr0 Hc0.
    - rewrite (fi_edge _ _ _ _ _ _ _ HI) in Hc0; [discriminate|]. split; [auto|left; lia].
    - destruct (cl (x0 - 1) y) eqn:Hc'.
      + destruct (fi_front _ _ _ _ _ _ _ HI (x0-1) y x0 y Hc') as [it [Hin [Ex _]]]; auto.
        * replace x0 with ((x0 - 1) + 1) at 2 by lia. apply adjacent_right.
        * exists it. split; auto. lia.
      + destruct (IH (x0 - 1)) as [it [Hin Hlt]]; auto; [lia|destruct Hr0; split; lia|].
        exists it. split; auto. lia. }
  assert (HR : forall n x0, x0 = w - 1 - Z.of_nat n -> in_raster w h x0 y -> cl x0 y = false -> exists it, In it F /\ x0 < ix it).
  { induction n as [|n IH]; intros x0 Hx Hr0 Hc0.
    - rewrite (fi_edge _ _ _ _ _ _ _ HI) in Hc0; [discriminate|]. split; [auto|right; right; left; lia].
    - destruct (cl (x0 + 1) y) eqn:Hc'.
      + destruct (fi_front _ _ _ _ _ _ _ HI (x0+1) y x0 y Hc') as [it [Hin [Ex _]]]; auto.
        * replace x0 with ((x0 + 1) - 1) at 2 by lia. apply adjacent_left.
        * exists it. split; auto. lia.
      + destruct (IH (x0 + 1)) as [it [Hin Hlt]]; auto; [lia|destruct Hr0; split; lia|].
        exists it. split; auto. lia. }
  destruct (HL (Z.to_nat x) x) as [it1 [H1 L1]]; auto; [destruct Hr; lia|].
  destruct (HR (Z.to_nat (w - 1 - x)) x) as [it2 [H2 L2]]; auto; [destruct Hr; lia|].
  exists it1, it2. auto.
Qed.

Definition pair_dec (p q : Z * Z) : {p = q} + {p <> q}.
Proof. decide equality; apply Z.eq_dec. Defined.

Lemma raise_all_spec l : forall e z x y,
  (In (x, y) l -> raise_all e l z x y = z) /\ (~ In (x, y) l -> raise_all e l z x y = e x y).
Proof.
  unfold raise_all. induction l as [|[a b] l IH]; intros e z x y; cbn [fold_left fst snd].
  - split; [intros []|auto].
  - destruct (IH (gset e a b z) z x y) as [H1 H2]. split.
    + intros Hin. destruct (in_dec (pair_dec) (x, y) l) as [Hl|Hl]; [auto|].
      destruct Hin as [E|Hin]; [|contradiction]. rewrite H2 by auto. inversion E; subst. apply gset_same.
    + intros Hn. rewrite H2; [|intros Hl; apply Hn; right; auto]. apply gset_other.
      intros E. apply Hn. left. congruence.
Qed.

Lemma NoDup_concat_unique {A} (l : list (list A)) b b' p :
  NoDup (concat l) -> In b l -> In b' l -> In p b -> In p b' -> b = b'.
Proof.
  induction l as [|c l IH]; intros Hn Hb Hb' Hp Hp'; [contradiction|]. cbn [concat] in Hn.
  assert (Hdis : forall q, In q c -> In q (concat l) -> False).
  { clear -Hn. induction c as [|a c IHc]; intros q H1 H2; [contradiction|].
    cbn in Hn. inversion Hn; subst. destruct H1 as [<-|H1]; [|eapply IHc; eauto].
    apply H3. apply in_app_iff. auto. }
  assert (Hl : NoDup (concat l)).
  { clear -Hn. induction c as [|a c IHc]; cbn in Hn; auto. inversion Hn; auto. }
  destruct Hb as [<-|Hb]; destruct Hb' as [<-|Hb']; auto.
  - exfalso. apply (Hdis p); auto. apply in_concat. eauto.
  - exfalso. apply (Hdis p); auto. apply in_concat. eauto.
Qed.

Lemma same_pool_trans t w h e x y x' y' x'' y'' :
  same_pool t w h e x y x' y' -> same_pool t w h e x' y' x'' y'' -> same_pool t w h e x y x'' y''.
Proof. intros H1 H2. induction H2; auto. eapply sp_step; eauto. Qed.

Arguments raise_all : simpl never.
Definition pos (it : item) : Z * Z := (ix it, iy it).

Section MaxDep.
  Variables (tb : nat -> nat) (N : Z) (t : topology) (w h : Z) (e0 : grid Z).

  Record MD (hist : list (list (Z * Z))) (cl : grid bool) (lv el : grid Z) (cur : list (Z * Z)) : Prop := {
    md_nodup : NoDup (concat (cur :: hist));
    md_in : forall x y, In (x, y) (concat (cur :: hist)) <-> cl x y = true /\ e0 x y < lv x y;
    md_adj : forall x y x' y', cl x y = true -> e0 x y < lv x y -> cl x' y' = true -> e0 x' y' < lv x' y' ->
        adjacent t x y x' y' -> exists b, In b (cur :: hist) /\ In (x, y) b /\ In (x', y') b;
    md_spill : forall b, In b hist -> shares_spill t w h e0 b;
    md_hist : forall b x y, In b hist -> In (x, y) b -> el x y = if Z.of_nat (length b) <=? N then lv x y else e0 x y;
    md_rest : forall x y, ~ In (x, y) (concat hist) -> el x y = e0 x y }.

  (** Link between the current cell and the batch being collected. *)
  Definition link (c : item) (cur : list (Z * Z)) : Prop :=
    (In (pos c) cur /\ shares_spill t w h e0 cur) \/
    (e0 (ix c) (iy c) = iz c /\
       forall x y, In (x, y) cur -> exists x' y', same_pool t w h e0 x y x' y' /\ adjacent t x' y' (ix c) (iy c)).

  Definition dmu (s : dstate) : nat := msr w h (d_closed s) (length (d_pit s) + length (d_open s)).
  Definition curb (s : dstate) : list (Z * Z) := d_dep s ++ map pos (d_pit s).

  Definition DJ (s : dstate) : Prop := exists lv hist,
    PInv t w h e0 (d_closed s) lv (d_open s) (d_pit s) /\
    MD hist (d_closed s) lv (d_elev s) (curb s) /\
    (forall it, In it (d_open s) -> iz it = e0 (ix it) (iy it)) /\
    (forall x y, In (x, y) (curb s) -> lv x y = d_dep_elev s) /\
    (curb s <> [] -> d_open s <> [] /\ shares_spill t w h e0 (curb s)).

  Definition DI (c : item) (m : nat) (s : dstate) : Prop := exists lv hist,
    CInv t w h e0 c (d_closed s) lv (d_open s) (d_pit s) /\
    MD hist (d_closed s) lv (d_elev s) (curb s) /\
    (forall it, In it (d_open s) -> iz it = e0 (ix it) (iy it)) /\
    (forall x y, In (x, y) (curb s) -> lv x y = d_dep_elev s /\ lv x y = iz c) /\
    link c (curb s) /\ (curb s <> [] -> d_open s <> []) /\ dmu s = m.

  Lemma CInv_cur c cl lv op pt : CInv t w h e0 c cl lv op pt -> cl (ix c) (iy c) = true /\ lv (ix c) (iy c) = iz c.
  Proof. intros [HF _]. apply (fi_item _ _ _ _ _ _ _ HF c). simpl; auto. Qed.

  Lemma md_pop_inv i s c s1 : DJ s -> md_pop tb N i s = Some (c, s1) -> DI c (dmu s1) s1 /\ (dmu s1 < dmu s)%nat.
  Proof.
    intros [lv [hist [HP [HM [HO [HD HC]]]]]] Hp. unfold md_pop in Hp.
    destruct s as [cl el op pt de dep]; unfold curb in *; cbn in *. destruct pt as [|p pt].
    - destruct (pq_pop item_gt (tb i) op) as [[c' q]|] eqn:Hq; [|discriminate].
      inversion Hp; subst c' s1; clear Hp. cbn [map] in *. rewrite app_nil_r in *.
      pose proof (pq_pop_item _ _ _ _ Hq) as [HPm _]. split; [|unfold dmu, msr; cbn; rewrite (Permutation_length HPm); simpl; lia].
      pose proof (PInv_pop_open _ _ _ _ _ _ _ _ _ _ HP Hq) as HCI.
      assert (Hc0 : iz c = e0 (ix c) (iy c)).
      { apply HO. eapply Permutation_in; [apply Permutation_sym, HPm|simpl; auto]. }
      assert (HO' : forall it, In it q -> iz it = e0 (ix it) (iy it)).
      { intros it Hin. apply HO. eapply Permutation_in; [apply Permutation_sym, HPm|simpl; auto]. }
      unfold DI, curb. cbn [d_closed d_elev d_open d_pit d_dep_elev d_dep map app].
      exists lv. destruct dep as [|d0 dep'].
      + exists hist. split; [exact HCI|]. split.
        * destruct (_ <=? N); exact HM.
        * split; [auto|]. split; [intros ? ? []|]. split; [|split; [congruence|auto]].
          right. split; [auto|]. intros ? ? [].
      + set (dep := d0 :: dep') in *.
        assert (Hne : dep <> []) by discriminate. destruct (HC Hne) as [_ Hsp].
        exists (dep :: hist). split; [exact HCI|]. split; [|split; [auto|split; [intros ? ? []|split; [|split; [congruence|auto]]]]].
        2: { right. split; [auto|]. intros ? ? []. }
        destruct HM as [M1 M2 M3 M4 M5 M6]. 
        assert (Hdis : forall x y, In (x, y) dep -> In (x, y) (concat hist) -> False).
        { intros x y H1 H2. apply in_concat in H2. destruct H2 as [b [Hb Hxb]].
          cbn [concat] in M1. clear -M1 H1 Hb Hxb. revert M1 H1. generalize dep as l.
          induction l as [|a l IH]; intros HN Hin; [contradiction|]. cbn in HN. inversion HN as [|a' l' HN1 HN2]; subst.
          destruct Hin as [E|Hin]; [|auto]. subst a. apply HN1. apply in_app_iff. right. apply in_concat. eauto. }
        constructor; cbn [concat app].
        * exact M1.
        * exact M2.
        * intros x y x' y' A1 A2 A3 A4 A5. destruct (M3 x y x' y' A1 A2 A3 A4 A5) as [b [Hb Hxy]].
          exists b. simpl in *. tauto.
        * intros b [<-|Hb]; auto.
        * intros b x y [<-|Hb] Hin.
          -- destruct (Z.leb_spec (Z.of_nat (length dep)) N) as [Hle|Hgt].
             ++ rewrite (proj1 (raise_all_spec dep el de x y) Hin). symmetry. apply HD; auto.
             ++ apply M6. intros H. eapply Hdis; eauto.
          -- assert (Hnd : ~ In (x, y) dep). { intros H. apply (Hdis x y H). apply in_concat. eauto. }
             destruct (Z.of_nat (length dep) <=? N).
             ++ rewrite (proj2 (raise_all_spec dep el de x y) Hnd). auto.
             ++ auto.
        * intros x y Hn. rewrite in_app_iff in Hn.
          destruct (Z.of_nat (length dep) <=? N).
          -- rewrite (proj2 (raise_all_spec dep el de x y)) by tauto. apply M6. tauto.
          -- apply M6. tauto.
    - inversion Hp; subst p s1; clear Hp. split; [|unfold dmu, msr; cbn; lia].
      unfold DI, curb. cbn [d_closed d_elev d_open d_pit d_dep_elev d_dep].
      assert (Ecur : (dep ++ [(ix c, iy c)]) ++ map pos pt = dep ++ map pos (c :: pt)).
      { rewrite <- app_assoc. reflexivity. }
      rewrite Ecur. exists lv, hist.
      assert (HCI : CInv t w h e0 c cl lv op pt) by (apply PInv_pop_pit; auto).
      assert (Hcin : In (pos c) (dep ++ map pos (c :: pt))) by (apply in_app_iff; right; simpl; auto).
      assert (Hne : dep ++ map pos (c :: pt) <> []) by (intros E; rewrite E in Hcin; contradiction).
      destruct (HC Hne) as [Hop Hsp]. destruct (CInv_cur _ _ _ _ _ HCI) as [_ Hlvc].
      split; [auto|]. split; [auto|]. split; [auto|]. split.
      + intros x y Hin. split; [auto|]. rewrite (HD _ _ Hin). rewrite <- Hlvc. symmetry. apply (HD (ix c) (iy c)). auto.
      + split; [left; auto|]. split; auto.
  Qed.

  Lemma md_step i s c s1 : DJ s -> md_pop tb N i s = Some (c, s1) ->
    DJ (md_body t w h c s1) /\ (dmu (md_body t w h c s1) < dmu s)%nat.
  Proof.
    intros HJ Hp. destruct (md_pop_inv _ _ _ _ HJ Hp) as [HI Hlt]. clear HJ Hp.
    destruct (visit_all_nostop t w h d_closed (md_visit c) (ix c) (iy c) (DI c (dmu s1)) (dirs t) s1)
      as [HI' [_ Hall]]; auto.
    - clear s HI Hlt. generalize (dmu s1) as m. clear s1.
      intros m s n nx ny [lv [hist [HC [HM [HO [HD [HLk [Hop Hm]]]]]]]] Hn Hx Hy Hr Hc.
      assert (Ha : adjacent t (ix c) (iy c) nx ny) by (eapply visit_adjacent; eauto).
      assert (Hun : unclosed (d_closed s) w h = S (unclosed (gset (d_closed s) nx ny true) w h))
        by (apply unclosed_gset; auto; apply Hr).
      destruct (CInv_cur _ _ _ _ _ HC) as [Hcc Hlvc]. pose proof HC as [HF [HC1 HC2]].
      pose proof HM as [M1 M2 M3 M4 M5 M6].
      assert (Hnh : ~ In (nx, ny) (concat (curb s :: hist))) by (rewrite M2; intros [? _]; congruence).
      assert (Hen : d_elev s nx ny = e0 nx ny).
      { apply M6. intros H. apply Hnh. cbn [concat]. apply in_app_iff; auto. }
      assert (Hcn : (ix c, iy c) <> (nx, ny)) by (eapply adjacent_neq; eauto).
      assert (Hin_cl : forall x y, In (x, y) (concat (curb s :: hist)) -> (x, y) <> (nx, ny)).
      { intros x y Hin E. inversion E; subst. contradiction. }
      unfold md_visit. rewrite Hen.
      destruct (Z.ltb_spec (e0 nx ny) (iz c)) as [Hlt|Hge]; (split; [|reflexivity]).
      + (* the neighbour is below: it joins the batch *)
        set (s' := mkD _ _ _ _ _ _).
        assert (Ecur : curb s' = curb s ++ [(nx, ny)]).
        { unfold curb, s'. cbn. rewrite map_app, app_assoc. reflexivity. }
        assert (HC' : CInv t w h e0 c (gset (d_closed s) nx ny true) (gset lv nx ny (iz c)) (d_open s) (d_pit s ++ [mkItem nx ny (iz c)])).
        { eapply CInv_visit_pit; eauto. lia. }
        assert (Hsunk_n : sunk t w h e0 nx ny /\ drainage_level t w h e0 nx ny (iz c)).
        { destruct HC' as [HF' _]. pose proof (fi_level _ _ _ _ _ _ _ HF' nx ny) as HL. rewrite !gset_same in HL.
          specialize (HL eq_refl). split; [exists (iz c); auto|auto]. }
        destruct Hsunk_n as [Hsn Hln].
        exists (gset lv nx ny (iz c)), hist. rewrite Ecur. cbn [d_closed d_elev d_open d_pit d_dep_elev d_dep s'].
        split; [exact HC'|]. split; [|split; [auto|split; [|split; [|split]]]].
        * constructor; auto.
          -- cbn [concat]. rewrite <- app_assoc. cbn. apply NoDup_Add with (a := (nx, ny)) (l := concat (curb s :: hist)).
             ++ cbn [concat]. apply Add_app.
             ++ split; auto.
          -- intros x y. cbn [concat]. rewrite <- app_assoc. cbn [app]. rewrite in_app_iff. cbn [In].
             destruct (gset_cases (d_closed s) nx ny true x y) as [[E ->]|[Hne ->]].
             ++ inversion E; subst x y. rewrite gset_same. split; auto.
             ++ rewrite gset_other by auto. rewrite <- M2. cbn [concat]. rewrite in_app_iff.
                split; [intros [?|[E|?]]; auto; congruence|tauto].
          -- assert (Hnew : forall x y, d_closed s x y = true -> e0 x y < lv x y -> adjacent t x y nx ny -> In (x, y) (curb s)).
             { intros x y Hxy Hb Hadj. destruct (fi_front _ _ _ _ _ _ _ HF x y nx ny Hxy Hadj Hr Hc) as [it [Hi [Ex Ey]]].
               destruct (fi_item _ _ _ _ _ _ _ HF it Hi) as [_ Hlv]. rewrite Ex, Ey in Hlv.
               destruct Hi as [<-|Hi]; [|apply in_app_iff in Hi; destruct Hi as [Hi|Hi]].
               - destruct HLk as [[Hin _]|[He _]]; [unfold pos in Hin; rewrite Ex, Ey in Hin; auto|].
                 rewrite Ex, Ey in He. lia.
               - unfold curb. apply in_app_iff. right. apply in_map_iff. exists it. unfold pos. rewrite Ex, Ey. auto.
               - specialize (HO _ Hi). rewrite Ex, Ey in HO. lia. }
             intros x y x' y' A1 A2 A3 A4 A5.
             destruct (gset_cases (d_closed s) nx ny true x y) as [[E EE]|[Hne EE]]; rewrite EE in A1; clear EE;
             destruct (gset_cases (d_closed s) nx ny true x' y') as [[E' EE]|[Hne' EE]]; rewrite EE in A3; clear EE.
             ++ exfalso. apply adjacent_neq in A5. congruence.
             ++ inversion E; subst x y. rewrite gset_other in A4 by auto.
                exists (curb s ++ [(nx, ny)]). split; [simpl; auto|]. split; apply in_app_iff; [right; simpl; auto|left].
                apply Hnew; auto. apply adjacent_sym; auto.
             ++ inversion E'; subst x' y'. rewrite gset_other in A2 by auto.
                exists (curb s ++ [(nx, ny)]). split; [simpl; auto|]. split; apply in_app_iff; [left|right; simpl; auto].
                apply Hnew; auto.
             ++ rewrite gset_other in A2, A4 by auto. destruct (M3 _ _ _ _ A1 A2 A3 A4 A5) as [b [[<-|Hb] [B1 B2]]].
                ** exists (curb s ++ [(nx, ny)]). split; [simpl; auto|]. split; apply in_app_iff; auto.
                ** exists b. simpl; auto.
          -- intros b x y Hb Hin. rewrite gset_other; auto. apply Hin_cl. cbn [concat]. apply in_app_iff. right.
             apply in_concat. eauto.
        * intros x y Hin. apply in_app_iff in Hin. destruct Hin as [Hin|[E|[]]].
          -- assert (Hne : (x, y) <> (nx, ny)) by (apply Hin_cl; cbn [concat]; apply in_app_iff; auto).
             rewrite gset_other by auto. destruct (HD _ _ Hin). split; auto.
          -- inversion E; subst x y. rewrite gset_same. auto.
        * destruct HLk as [[Hin [sx [sy [S1 [S2 S3]]]]]|[He Hpool]].
          -- left. split; [apply in_app_iff; auto|]. exists sx, sy. split; [auto|]. split; [auto|].
             intros x y Hxy. apply in_app_iff in Hxy. destruct Hxy as [Hxy|[E|[]]]; [auto|].
             inversion E; subst x y. destruct (S3 _ _ Hin) as [L1 [x' [y' [P1 P2]]]].
             assert (Ez : e0 sx sy = iz c).
             { rewrite <- Hlvc. eapply drainage_level_unique; [exact L1|]. eapply fi_level; eauto. }
             split; [rewrite Ez; auto|]. exists x', y'. split; [|auto].
             eapply same_pool_trans; [|exact P1]. eapply sp_step; [apply sp_here; auto|apply adjacent_sym; auto|].
             exists (iz c). rewrite <- Hlvc. split; [eapply fi_level; eauto|]. apply M2. cbn [concat]. apply in_app_iff. auto.
          -- right. split; [auto|]. intros x y Hxy. apply in_app_iff in Hxy. destruct Hxy as [Hxy|[E|[]]]; [auto|].
             inversion E; subst x y. exists nx, ny. split; [apply sp_here; auto|apply adjacent_sym; auto].
        * intros _. destruct (curb s) as [|p0 rest] eqn:Hcur; [|apply Hop; discriminate].
          destruct (FInv_two _ _ _ _ _ _ _ nx ny HF Hr Hc) as [it1 [it2 [I1 [I2 Hlt12]]]].
          assert (Hpit : d_pit s = []).
          { unfold curb in Hcur. destruct (d_pit s); auto. apply app_eq_nil in Hcur. destruct Hcur; discriminate. }
          rewrite Hpit in I1, I2. cbn in I1, I2.
          destruct I1 as [<-|I1]; [|intros E; rewrite E in I1; contradiction].
          destruct I2 as [<-|I2]; [lia|intros E; rewrite E in I2; contradiction].
        * rewrite <- Hm. unfold dmu, msr, s'. cbn. rewrite app_length. cbn. lia.
      + (* not below: goes to the priority queue *)
        set (s' := mkD _ _ _ _ _ _).
        assert (Ecur : curb s' = curb s) by reflexivity.
        exists (gset lv nx ny (e0 nx ny)), hist. rewrite Ecur. cbn [d_closed d_elev d_open d_pit d_dep_elev d_dep s'].
        split; [eapply CInv_visit_open; eauto; lia|]. split; [|split; [|split; [|split; [|split]]]].
        * constructor; auto.
          -- intros x y. rewrite M2. destruct (gset_cases (d_closed s) nx ny true x y) as [[E ->]|[Hne ->]].
             ++ inversion E; subst x y. rewrite gset_same. rewrite Hc. split; [intros [? _]; discriminate|lia].
             ++ rewrite gset_other by auto. tauto.
          -- intros x y x' y' A1 A2 A3 A4 A5.
             destruct (gset_cases (d_closed s) nx ny true x y) as [[E EE]|[Hne EE]]; rewrite EE in A1; clear EE.
             { inversion E; subst x y. rewrite gset_same in A2. lia. }
             destruct (gset_cases (d_closed s) nx ny true x' y') as [[E' EE]|[Hne' EE]]; rewrite EE in A3; clear EE.
             { inversion E'; subst x' y'. rewrite gset_same in A4. lia. }
             rewrite gset_other in A2, A4 by auto. auto.
          -- intros b x y Hb Hin. rewrite gset_other; auto. apply Hin_cl. cbn [concat]. apply in_app_iff. right.
             apply in_concat. eauto.
        * intros it [<-|Hin]; cbn; auto.
        * intros x y Hin. rewrite gset_other; auto. apply Hin_cl. cbn [concat]. apply in_app_iff; auto.
        * auto.
        * discriminate.
        * rewrite <- Hm. unfold dmu, msr, s'. cbn. lia.
    - reflexivity.
    - fold (md_body t w h c s1) in *. cbv zeta in *.
      destruct HI' as [lv [hist [HC [HM [HO [HD [HLk [Hop Hm]]]]]]]]. split; [|lia].
      exists lv, hist. split; [eapply CInv_finish; eauto|]. split; [auto|]. split; [auto|].
      split; [intros x y Hin; apply HD; auto|]. intros Hne. split; [auto|].
      destruct HLk as [[_ Hs]|[He Hp]]; [auto|].
      destruct (CInv_cur _ _ _ _ _ HC) as [Hcc Hlvc]. pose proof HC as [HF _].
      pose proof (fi_level _ _ _ _ _ _ _ HF _ _ Hcc) as HL. rewrite Hlvc in HL.
      exists (ix c), (iy c). rewrite He. split; [eapply fi_raster; eauto|]. split; [auto|].
      intros x y Hin. split; [|auto]. destruct (HD _ _ Hin) as [_ <-]. eapply fi_level; eauto.
      destruct HM as [_ M2 _ _ _ _]. apply (M2 x y). cbn [concat]. apply in_app_iff. auto.
  Qed.

  Lemma md_correct : 0 < w -> 0 < h ->
    exists r batches, PriorityFlood_max_dep tb N t w h e0 = Some r /\
      NoDup (concat batches) /\
      (forall x y, In (x, y) (concat batches) <-> sunk t w h e0 x y) /\
      (forall b x y x' y', In b batches -> In (x, y) b -> same_pool t w h e0 x y x' y' -> In (x', y') b) /\
      (forall b, In b batches -> shares_spill t w h e0 b) /\
      (forall b x y L, In b batches -> In (x, y) b -> drainage_level t w h e0 x y L ->
         r x y = if Z.of_nat (length b) <=? N then L else e0 x y) /\
      (forall x y, in_raster w h x y -> ~ sunk t w h e0 x y -> r x y = e0 x y).
  Proof.
    intros Hw Hh. unfold PriorityFlood_max_dep.
    destruct (while_pop_inv (md_pop tb N) (md_body t w h) DJ dmu) with (fuel := pf_fuel w h) (i := 0%nat)
      (s := mkD (init_closed w h) e0 (seeds w h e0) [] 0 []) as [s' [i' [E [[lv [hist [HP [HM [HO [HD HCu]]]]]] Hn]]]].
    - intros; eapply md_step; eauto.
    - exists e0, []. unfold curb. cbn. split; [apply PInv_init; auto|]. split.
      + constructor; cbn; auto.
        * constructor.
        * intros x y. split; [intros []|lia].
        * intros; lia.
        * intros ? [].
        * intros ? ? ? [].
      + split; [|split; [intros ? ? []|congruence]]. intros it Hin. apply seeds_In in Hin; auto. apply Hin.
    - cbn. apply init_fuel.
    - rewrite E. cbn. exists (d_elev s'), hist. split; [reflexivity|].
      unfold md_pop in Hn. destruct (d_pit s') eqn:Hpit; [|discriminate].
      destruct (pq_pop item_gt (tb i') (d_open s')) as [[? ?]|] eqn:Hq; [discriminate|].
      apply pq_pop_item_none in Hq. rewrite Hq in HP, HCu.
      assert (Hcur : curb s' = []).
      { destruct (curb s'); auto. destruct (HCu ltac:(discriminate)) as [A _]. congruence. }
      rewrite Hcur in HM. destruct HM as [M1 M2 M3 M4 M5 M6]. cbn [concat app] in *.
      assert (Hsunk : forall x y, sunk t w h e0 x y <-> d_closed s' x y = true /\ e0 x y < lv x y).
      { intros x y. split.
        - intros [L [HL Hlt]]. assert (Hr : in_raster w h x y) by (eapply drains_raster; apply HL).
          destruct (PInv_done _ _ _ _ _ _ HP x y Hr) as [Hc HL'].
          rewrite <- (drainage_level_unique _ _ _ _ _ _ _ _ HL HL'). auto.
        - intros [Hc Hlt]. exists (lv x y). split; auto. destruct HP as [HF _]. eapply fi_level; eauto. }
      split; [exact M1|]. split; [intros x y; rewrite Hsunk, M2; tauto|]. split; [|split; [auto|split]].
      + intros b x y x' y' Hb Hin Hpool. induction Hpool as [Hs|x' y' x'' y'' Hp IH Ha Hs]; [auto|].
        assert (Hs' : sunk t w h e0 x' y') by (inversion Hp; auto).
        apply Hsunk in Hs. apply Hsunk in Hs'.
        destruct (M3 x' y' x'' y'') as [b' [[<-|Hb'] [B1 B2]]]; try tauto.
        rewrite (NoDup_concat_unique hist b b' (x', y')); auto.
      + intros b x y L Hb Hin HL.
        assert (Hc : d_closed s' x y = true /\ e0 x y < lv x y).
        { apply M2. apply in_concat. eauto. }
        destruct HP as [HF _]. pose proof (fi_level _ _ _ _ _ _ _ HF x y (proj1 Hc)) as HL'.
        rewrite (drainage_level_unique _ _ _ _ _ _ _ _ HL HL'). auto.
      + intros x y Hr Hns. apply M6. rewrite M2, <- Hsunk. auto.
  Qed.
End MaxDep.
