(** Depression breaching: the main loop, for any way of breaching. *)
From Coq Require Import ZArith List Lia Bool Permutation.
From Verif Require Import Base Res RasterSpec RasterFacts Kahn FlowModel FlowProofs TraceFlood ZhouModel ZhouProofs WeiModel WeiProofs BreachModel BreachProofs.
Open Scope Z_scope.

(** [q] is reached from [p] by back links *)
Inductive chain (back : cellt -> option cellt) (p : cellt) : cellt -> Prop :=
| chain_here : chain back p p
| chain_up r q : back p = Some r -> chain back r q -> chain back p q.

Section Chain.
  Variables (back : cellt -> option cellt) (ps : list cellt).
  Hypothesis HP : forall x p, back x = Some p -> In p ps.
  Lemma chain_ps r q : In r ps -> chain back r q -> In q ps.
  Proof. intros H C. induction C as [|p r q E C IH]; auto. apply IH. eapply HP; eauto. Qed.
  Lemma chain_ext back' r q : (forall x, In x ps -> back' x = back x) -> In r ps -> chain back' r q -> chain back r q.
  Proof. intros HE H C. induction C as [|p r q E C IH]; [constructor|]. rewrite HE in E by auto. apply (chain_up _ _ r); auto. apply IH. eapply HP; eauto. Qed.
End Chain.

Section Loop.
  Variables (t : topology) (w h nd mx : Z) (e : cellt -> Z) (down : Z -> Z) (pit0 : cellt -> bool) (fill : bool).
  Notation inside := (zdom w h).
  Notation nbt := (nbt t).
  Notation bdom := (bdom w h nd e).
  Notation bout := (bout t w h nd e).
  Notation inner := (inner t w h nd e).
  Notation F := (F t w h nd mx e down).
  Notation esc := (esc nbt bdom bout F).
  Hypothesis Hpit : forall c, pit0 c = true -> inner c.
  Hypothesis F_data : forall c, bdom c -> F c <> nd.
  Hypothesis F_nodata : forall c, e c = nd -> F c = nd.

  Record BI (ps : list cellt) (rk : cellt -> nat) (s : lst) : Prop := {
    b_nd : NoDup (ps ++ map snd (l_pq s));
    b_vis : forall c, l_vis s c = true <-> In c (ps ++ map snd (l_pq s));
    b_dom : forall c, l_vis s c = true -> bdom c;
    b_out : forall c, bdom c -> bout c -> l_vis s c = true;
    b_un : forall c, ~ In c ps -> l_dem s c = F c;
    b_key : forall k v, In (k, v) (l_pq s) -> k = F v;
    b_back : forall x p, l_back s x = Some p -> In p ps /\ nbt x p /\ l_vis s x = true /\ (rk p < rk x)%nat;
    b_root : forall x, l_vis s x = true -> l_back s x = None -> bout x;
    b_rk : forall x, l_vis s x = true -> (rk x <= length ps)%nat;
    b_least : forall m v L, In m ps -> ~ In v ps -> esc L v -> F m <= L;
    b_chain : forall x r q L, l_back s x = Some r -> chain (l_back s) r q -> esc L x -> F q <= L;
    b_pit : forall c, l_pit s c = pit0 c;
    b_tot : l_tot s = npits w h pit0 - Z.of_nat (length (filter pit0 ps));
    b_fl : fill = true -> NoDup (l_flood s) /\ (forall x, In x (l_flood s) <-> l_back s x <> None) /\
      (forall l1 x l2 p, l_flood s = l1 ++ x :: l2 -> l_back s x = Some p -> l_back s p = None \/ In p l1) }.
  Definition closed (ps : list cellt) (s : lst) : Prop := forall x y, In x ps -> nbt x y -> bdom y -> l_vis s y = true.

  Lemma b_ps ps rk s c : BI ps rk s -> In c ps -> l_vis s c = true.
  Proof. intros I H. apply (b_vis _ _ _ I). apply in_app_iff. auto. Qed.
  Lemma b_len ps rk s : BI ps rk s -> (length ps + length (l_pq s) <= Z.to_nat w * Z.to_nat h)%nat.
  Proof.
    intros I. rewrite <- (map_length snd (l_pq s)), <- app_length, <- cells_length. apply NoDup_incl_length; [apply (b_nd _ _ _ I)|]. intros c Hc. apply (b_vis _ _ _ I) in Hc.
    apply (b_dom _ _ _ I) in Hc. apply zdom_cells. apply Hc.
  Qed.

  (** a way out of an unfinished cell passes the queue *)
  Lemma crossing ps rk s : BI ps rk s -> closed ps s -> forall L v, esc L v -> ~ In v ps -> exists k u, In (k, u) (l_pq s) /\ F u <= L.
  Proof.
    intros I C.
    assert (Q : forall v L, l_vis s v = true -> ~ In v ps -> F v <= L -> exists k u, In (k, u) (l_pq s) /\ F u <= L).
    { intros v L V N Le. apply (b_vis _ _ _ I), in_app_iff in V. destruct V as [V|V]; [contradiction|]. apply in_map_iff in V. destruct V as [[k u] [<- Hu]]. exists k, u. auto. }
    induction 1 as [v D O Le|v y D Le N E IH]; intros NP.
    - apply (Q v); auto. apply (b_out _ _ _ I); auto.
    - destruct (in_dec (fun a b => match ceqb_spec a b with ReflectT _ p => left p | ReflectF _ p => right p end) y ps) as [Y|Y]; [|auto].
      apply (Q v); auto. apply (C y v); auto. apply nbt_sym; auto.
  Qed.

  Lemma visit_push ps rk s c ni : BI ps rk s -> In c ps -> (S (rk c) <= length ps)%nat -> nbt c ni -> bdom ni -> l_vis s ni = false ->
    BI ps (cset rk ni (S (rk c))) (mkL (l_dem s) (cset (l_vis s) ni true) (l_pit s) (cset (l_back s) ni (Some c)) ((l_dem s ni, ni) :: l_pq s) (l_tot s) (if fill then l_flood s ++ [ni] else l_flood s)).
  Proof.
    intros I PC RK N D V. pose proof I as [A1 A2 A3 A4 A5 A6 A7 A8 A9 A10 A11 A12 A13 A14].
    assert (NI : ~ In ni (ps ++ map snd (l_pq s))) by (rewrite <- A2; congruence).
    assert (NP : ~ In ni ps) by (intros H; apply NI, in_app_iff; auto).
    assert (NE : forall x, l_vis s x = true -> x <> ni) by (intros x H ->; congruence).
    assert (PE : forall x, In x ps -> cset (l_back s) ni (Some c) x = l_back s x) by (intros x Hx; apply cset_other; intros ->; contradiction).
    assert (HP : forall x p, l_back s x = Some p -> In p ps) by (intros x p H; apply (A7 x p H)).
    assert (NB : l_back s ni = None) by (destruct (l_back s ni) as [p|] eqn:B; auto; destruct (A7 _ _ B) as [_ [_ [X _]]]; congruence).
    constructor; cbn [l_dem l_vis l_pit l_back l_pq l_tot l_flood]; auto.
    - cbn [map snd]. apply (Permutation_NoDup (l := ni :: ps ++ map snd (l_pq s))); [apply Permutation_middle|constructor; auto].
    - intros x. cbn [map snd]. rewrite in_app_iff. cbn [In]. destruct (cell_eq_dec x ni) as [->|Ne]; [rewrite cset_same; tauto|rewrite cset_other by auto]. rewrite A2, in_app_iff. split; [tauto|]. intros [H|[H|H]]; auto. congruence.
    - intros x. destruct (cell_eq_dec x ni) as [->|Ne]; [auto|rewrite cset_other by auto; auto].
    - intros x Dx Ox. destruct (cell_eq_dec x ni) as [->|Ne]; [apply cset_same|rewrite cset_other by auto; auto].
    - intros k v [H|H]; [injection H as <- <-; apply A5; auto|auto].
    - intros x p. destruct (cell_eq_dec x ni) as [->|Ne].
      + rewrite !cset_same. intros H. injection H as <-. split; [auto|]. split; [apply nbt_sym; auto|]. split; [auto|]. rewrite cset_other; [lia|]. intros ->. contradiction.
      + rewrite !(cset_other _ ni _ x) by auto. intros H. destruct (A7 x p H) as [B1 [B2 [B3 B4]]]. split; [auto|]. split; [auto|]. split; [auto|]. rewrite cset_other; [auto|]. intros ->. contradiction.
    - intros x. destruct (cell_eq_dec x ni) as [->|Ne]; [rewrite !cset_same; discriminate|rewrite !cset_other by auto; auto].
    - intros x. destruct (cell_eq_dec x ni) as [->|Ne]; [rewrite !cset_same; auto|rewrite !cset_other by auto; auto].
    - intros x r q L. destruct (cell_eq_dec x ni) as [->|Ne].
      + rewrite cset_same. intros H C EL. injection H as <-. apply (A10 q ni); auto. apply (chain_ps (l_back s) ps HP c); auto. apply (chain_ext (l_back s) ps HP _ c q PE); auto.
      + rewrite cset_other by auto. intros H C EL. apply (A11 x r q); auto. apply (chain_ext (l_back s) ps HP _ r q PE); auto. apply (HP x); auto.
    - intros FT. rewrite FT. destruct (A14 FT) as [B1 [B2 B3]]. split; [|split].
      + apply (Permutation_NoDup (l := ni :: l_flood s)); [apply Permutation_cons_append|]. constructor; auto. intros H. apply B2 in H. congruence.
      + intros x. rewrite in_app_iff. cbn [In]. destruct (cell_eq_dec x ni) as [->|Ne]; [rewrite cset_same; split; [discriminate|auto]|rewrite cset_other by auto]. rewrite <- B2. split; [intros [H|[H|[]]]; auto; congruence|auto].
      + intros l1 x l2 p E. destruct (rev l2) as [|y l2'] eqn:RL.
        * assert (l2 = []) by (rewrite <- (rev_involutive l2), RL; reflexivity). subst l2. apply app_inj_tail in E. destruct E as [E1 E2]. rewrite <- E1, <- E2, cset_same. intros H. injection H as <-.
          rewrite PE by auto. destruct (l_back s c) eqn:BC; auto. right. apply B2. congruence.
        * assert (E2 : l2 = rev l2' ++ [y]) by (rewrite <- (rev_involutive l2), RL; reflexivity). rewrite E2, app_comm_cons, app_assoc in E. apply app_inj_tail in E. destruct E as [E _].
          assert (x <> ni). { intros ->. assert (In ni (l_flood s)) by (rewrite E; apply in_app_iff; right; left; auto). apply B2 in H. congruence. }
          rewrite cset_other by auto. intros H'. destruct (B3 _ _ _ _ E H') as [X|X]; auto. left. rewrite PE; auto. apply (HP x); auto.
  Qed.

  Variable Q : list cellt -> lst -> Prop.
  Hypothesis HQ_visit : forall ps rk s c ni, BI ps rk s -> Q ps s -> In c ps -> l_vis s ni = false ->
    Q ps (mkL (l_dem s) (cset (l_vis s) ni true) (l_pit s) (cset (l_back s) ni (Some c)) ((l_dem s ni, ni) :: l_pq s) (l_tot s) (if fill then l_flood s ++ [ni] else l_flood s)).

  Lemma visits_ok ps c : In c ps -> forall ns s rk, incl ns (dirs t) -> BI ps rk s -> Q ps s -> (S (rk c) <= length ps)%nat ->
    exists s' rk', forM ns (b_visit t w h nd fill c) s = Ok s' /\ BI ps rk' s' /\ Q ps s' /\ (S (rk' c) <= length ps)%nat /\
      (forall u, l_vis s u = true -> l_vis s' u = true) /\ (forall n, In n ns -> bdom (offt t c n) -> l_vis s' (offt t c n) = true).
  Proof.
    intros PC. induction ns as [|n ns IH]; intros s rk Inc I HQ RK; cbn [forM].
    - exists s, rk. repeat (split; [solve [auto]|]). intros n [].
    - assert (Hn : In n (dirs t)) by (apply Inc; left; auto). assert (Inc' : incl ns (dirs t)) by (intros a Ha; apply Inc; right; auto).
      assert (STEP : exists s' rk', b_visit t w h nd fill c n s = Ok s' /\ BI ps rk' s' /\ Q ps s' /\ (S (rk' c) <= length ps)%nat /\
        (forall u, l_vis s u = true -> l_vis s' u = true) /\ (bdom (offt t c n) -> l_vis s' (offt t c n) = true)).
      { unfold b_visit. cbv zeta. pose proof (offt_nb t c n Hn) as NB0. set (ni := offt t c n) in *. clearbody ni. destruct (inR w h ni) eqn:IR; cbn [negb].
        2: { exists s, rk. repeat (split; [solve [auto]|]). intros [D _]. apply (inR_iff w h) in D. congruence. }
        apply (inR_iff w h) in IR. rewrite !(cat_ok w h _ _ IR). cbn [bind]. destruct (l_vis s ni) eqn:V.
        { exists s, rk. destruct (l_dem s ni =? nd); (split; [reflexivity|]; repeat (split; [solve [auto]|]); auto). }
        assert (NP : ~ In ni ps) by (intros H; apply (b_ps _ _ _ _ I) in H; congruence).
        rewrite (b_un _ _ _ I ni NP). destruct (Z.eqb_spec (F ni) nd) as [E|E].
        { exists s, rk. repeat (split; [solve [auto]|]). intros D. destruct (F_data ni D E). }
        assert (D : bdom ni) by (split; auto; intros X; apply E, F_nodata; auto).
        rewrite !(put_ok w h) by auto. cbn [bind]. rewrite <- (b_un _ _ _ I ni NP). eexists. exists (cset rk ni (S (rk c))). split; [reflexivity|].
        split; [apply visit_push; auto|]. split; [apply (HQ_visit _ rk); auto|]. split; [rewrite cset_other; [auto|intros ->; contradiction]|]. cbn [l_vis]. split; [|intros _; apply cset_same].
        intros u Hu. destruct (cell_eq_dec u ni) as [->|Ne]; [apply cset_same|rewrite cset_other; auto]. }
      destruct STEP as [s1 [rk1 [E1 [I1 [Q1 [R1 [V1 N1]]]]]]]. rewrite E1. cbn [bind]. destruct (IH s1 rk1 Inc' I1 Q1 R1) as [s2 [rk2 [E2 [I2 [Q2 [R2 [V2 N2]]]]]]].
      exists s2, rk2. repeat (split; [solve [auto]|]). intros k [<-|Hk] D; auto.
  Qed.

  Lemma pop_ok ps rk s c q dm : BI ps rk s -> closed ps s -> Permutation (l_pq s) (c :: q) -> (forall b, In b (l_pq s) -> (fst c >? fst b) = false) ->
    (forall u, ~ In u (snd c :: ps) -> dm u = l_dem s u) ->
    BI (snd c :: ps) rk (mkL dm (l_vis s) (l_pit s) (l_back s) q (if pit0 (snd c) then l_tot s - 1 else l_tot s) (l_flood s)) /\ (S (rk (snd c)) <= length (snd c :: ps))%nat.
  Proof.
    intros I C PM MIN HD. pose proof I as [A1 A2 A3 A4 A5 A6 A7 A8 A9 A10 A11 A12 A13 A14].
    assert (PP : Permutation (ps ++ map snd (l_pq s)) ((snd c :: ps) ++ map snd q)).
    { etransitivity; [apply Permutation_app_head, (Permutation_map snd PM)|]. cbn [map]. symmetry. apply Permutation_middle. }
    assert (INC : In c (l_pq s)) by (apply (Permutation_in _ (Permutation_sym PM)); left; auto).
    assert (VC : l_vis s (snd c) = true) by (apply A2, in_app_iff; right; apply in_map; auto).
    assert (KC : fst c = F (snd c)) by (apply A6; destruct c; auto).
    split; [|cbn [length]; specialize (A9 _ VC); lia].
    constructor; cbn [l_dem l_vis l_pit l_back l_pq l_tot l_flood]; auto.
    - apply (Permutation_NoDup PP); auto.
    - intros x. rewrite A2. split; intros H; [apply (Permutation_in _ PP); auto|apply (Permutation_in _ (Permutation_sym PP)); auto].
    - intros x Hx. rewrite HD by auto. apply A5. intros H. apply Hx. right. auto.
    - intros k v H. apply A6. apply (Permutation_in _ (Permutation_sym PM)). right. auto.
    - intros x p H. destruct (A7 x p H) as [B1 [B2 [B3 B4]]]. split; [right; auto|auto].
    - intros x Hx. cbn [length]. specialize (A9 x Hx). lia.
    - intros m v L [<-|Hm] Nv EL; cbn [In] in Nv; [|apply (A10 m v); auto].
      destruct (crossing ps rk s I C L v EL) as [k [u [Hu Le]]]; [tauto|]. specialize (MIN _ Hu). cbn [fst] in MIN. rewrite (A6 _ _ Hu), Z.gtb_ltb in MIN. apply Z.ltb_ge in MIN. lia.
    - cbn [filter]. destruct (pit0 (snd c)); cbn [length]; lia.
  Qed.

  Variable breach : cellt -> lst -> option (res (cellt -> Z)).
  Hypothesis HQ_breach : forall ps rk s c q, BI ps rk s -> Q ps s -> Permutation (l_pq s) (c :: q) -> pit0 (snd c) = true ->
    exists dm, breach (snd c) (mkL (l_dem s) (l_vis s) (l_pit s) (l_back s) q (l_tot s) (l_flood s)) = Some (Ok dm) /\ (forall u, ~ In u (snd c :: ps) -> dm u = l_dem s u) /\
      Q (snd c :: ps) (mkL dm (l_vis s) (l_pit s) (l_back s) q (l_tot s - 1) (l_flood s)).
  Hypothesis HQ_pop : forall ps rk s c q, BI ps rk s -> Q ps s -> Permutation (l_pq s) (c :: q) -> pit0 (snd c) = false ->
    Q (snd c :: ps) (mkL (l_dem s) (l_vis s) (l_pit s) (l_back s) q (l_tot s) (l_flood s)).

  Lemma esc_any G c : bdom c -> exists L, TraceFlood.esc nbt bdom bout G L c.
  Proof.
    destruct c as [x y]. intros D. assert (Hx : 0 <= x) by (destruct D as [[? ?] _]; cbn in *; lia). revert D. pattern x. revert x Hx. apply natlike_ind.
    - intros D. exists (G (0, y)). apply esc_out; auto; [|lia]. left. split; [exact (proj1 D)|]. cbn. auto.
    - intros x Hx IH D. unfold Z.succ in *.
      assert (NB : nbt (x + 1, y) (x, y)). { unfold BreachProofs.nbt, adjacent. cbn [fst snd]. destruct t; [split; [intros E; injection E; lia|lia]|lia]. }
      assert (DI : inside (x, y)) by (destruct D as [[? ?] _]; unfold zdom, in_raster; cbn in *; lia).
      destruct (Z.eq_dec (e (x, y)) nd) as [E|E].
      + exists (G (x + 1, y)). apply esc_out; auto; [|lia]. right. exists (x, y). auto.
      + destruct IH as [L HL]; [split; auto|]. exists (Z.max L (G (x + 1, y))). apply (esc_step _ _ _ _ _ _ (x, y)); auto; [lia|]. apply (esc_le _ _ _ _ L); [exact HL|lia].
  Qed.

  Lemma loop_ok tb : forall fuel i ps rk s, BI ps rk s -> closed ps s -> Q ps s -> (Z.to_nat w * Z.to_nat h - length ps <= fuel)%nat ->
    exists ps' rk' s', b_loop t w h nd fill breach tb fuel i s = Some (Ok s') /\ BI ps' rk' s' /\ Q ps' s' /\ (forall c, pit0 c = true -> In c ps') /\
      (l_tot s' = 0 \/ forall c, bdom c -> In c ps').
  Proof.
    assert (KEY : forall (q : list (Z * cellt)), q <> [] -> exists a, In a q /\ forall b, In b q -> (fst a >? fst b) = false) by (intros q; apply (min_by_key fst)).
    induction fuel as [|f IH]; intros i ps rk s I C HQ Hf; cbn [b_loop]; destruct (pq_pop _ (tb i) (l_pq s)) as [[c q]|] eqn:E.
    1: { exfalso. apply pq_pop_some in E. destruct E as [PM _]. pose proof (b_len _ _ _ I). apply Permutation_length in PM. cbn [length] in PM. lia. }
    1,3: assert (PQ : l_pq s = []) by (eapply pq_pop_none; [|exact E]; apply KEY);
      assert (ALL : forall c, bdom c -> In c ps) by (intros c D; destruct (in_dec (fun a b => match ceqb_spec a b with ReflectT _ p => left p | ReflectF _ p => right p end) c ps) as [Y|Y]; auto; exfalso;
        destruct (esc_any F c D) as [L EL]; destruct (crossing ps rk s I C L c EL Y) as [k [u [Hu _]]]; rewrite PQ in Hu; destruct Hu);
      exists ps, rk, s; repeat (split; [solve [auto]|]); split; [|auto]; intros c Pc; apply ALL; apply (Hpit c Pc).
    pose proof E as E'. apply pq_pop_some in E'. destruct E' as [PM MIN].
    assert (INC : In c (l_pq s)) by (apply (Permutation_in _ (Permutation_sym PM)); left; auto).
    assert (VC : l_vis s (snd c) = true) by (apply (b_vis _ _ _ I), in_app_iff; right; apply in_map; auto).
    assert (DC : inside (snd c)) by (apply (b_dom _ _ _ I _ VC)).
    assert (NPC : ~ In (snd c) ps). { intros H. pose proof (b_nd _ _ _ I) as ND. apply (Permutation_NoDup (Permutation_app_head ps (Permutation_map snd PM))) in ND. cbn [map] in ND. apply NoDup_remove_2 in ND. apply ND, in_app_iff. auto. }
    rewrite (cat_ok w h _ _ DC), (b_pit _ _ _ I).
    assert (NEXT : forall s2, BI (snd c :: ps) rk s2 -> (S (rk (snd c)) <= length (snd c :: ps))%nat -> Q (snd c :: ps) s2 -> (forall u, l_vis s u = true -> l_vis s2 u = true) ->
      exists ps' rk' s', match forM (dirs t) (b_visit t w h nd fill (snd c)) s2 with Ok s3 => b_loop t w h nd fill breach tb f (S i) s3 | _ => Some Undef end = Some (Ok s') /\ BI ps' rk' s' /\ Q ps' s' /\ (forall c, pit0 c = true -> In c ps') /\
      (l_tot s' = 0 \/ forall c, bdom c -> In c ps')).
    { intros s2 I2 R2 Q2 V2. destruct (visits_ok (snd c :: ps) (snd c) (or_introl eq_refl) (dirs t) s2 rk (incl_refl _) I2 Q2 R2) as [s3 [rk3 [E3 [I3 [Q3 [R3 [V3 N3]]]]]]].
      rewrite E3. apply (IH (S i) (snd c :: ps) rk3 s3 I3); auto.
      - intros x y [<-|Hx] N D; [destruct (nb_offt t _ _ N) as [k [Hk ->]]; auto|]. apply V3, V2. apply (C x y); auto.
      - cbn [length]. pose proof (b_len _ _ _ I). apply Permutation_length in PM. cbn [length] in PM. lia. }
    destruct (pit0 (snd c)) eqn:PC.
    - destruct (HQ_breach ps rk s c q I HQ PM PC) as [dm [EB [HD HQ2]]]. rewrite EB. destruct (pop_ok ps rk s c q dm I C PM MIN HD) as [I2 R2]. rewrite PC in I2.
      destruct (Z.eqb_spec (l_tot s - 1) 0) as [T0|T0].
      + eexists (snd c :: ps), rk, _. split; [reflexivity|]. split; [exact I2|]. split; [exact HQ2|]. split; [|left; exact T0].
        pose proof (b_tot _ _ _ I2) as BT. cbn [l_tot] in BT. intros u Pu.
        assert (INCL : incl (filter pit0 (cells w h)) (filter pit0 (snd c :: ps))).
        { apply NoDup_length_incl.
          - apply NoDup_filter. pose proof (b_nd _ _ _ I2) as ND. cbn [l_pq] in ND. revert ND. generalize (map snd q) (snd c :: ps). intros l2. induction l as [|a l IHl]; [constructor|]. cbn [app]. intros ND. apply NoDup_cons_iff in ND. destruct ND as [N1 N2]. constructor; auto. intros H. apply N1, in_app_iff. auto.
          - unfold npits in BT. lia.
          - intros a Ha. apply filter_In in Ha. destruct Ha as [Ha1 Ha2]. apply filter_In. split; auto. apply zdom_cells. apply (b_dom _ _ _ I2). apply (b_ps _ _ _ _ I2). exact Ha1. }
        assert (HU : In u (filter pit0 (cells w h))) by (apply filter_In; split; auto; apply zdom_cells; apply (Hpit u Pu)). apply INCL, filter_In in HU. apply HU.
      + apply NEXT; auto.
    - destruct (pop_ok ps rk s c q (l_dem s) I C PM MIN (fun u _ => eq_refl)) as [I2 R2]. rewrite PC in I2. apply NEXT; auto. apply (HQ_pop ps rk); auto.
  Qed.
End Loop.
