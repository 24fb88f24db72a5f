(** The accumulation of one tile, the paths across it, and both rounds of a consumer. *)
From Coq Require Import ZArith List Lia Bool Permutation.
From Verif Require Import Base Res Kahn RasterSpec RasterFacts FlowModel FlowSpec FlowProofs PAKahn PPFModel PAModel PATile.
Open Scope Z_scope.

Section Tile.
  Variables (fd : grid Z) (fnd w h : Z).
  Hypothesis codes : codes_ok fd fnd w h.
  Notation recv := (recv fd fnd w h).
  Notation dcells := (dcells fd fnd w h).
  Notation isdata := (isdata fd fnd w h).
  Notation target := (target fd).
  Notation dat := (data fd fnd w h).
  Notation pbody := (kbody ceqb Z.add recv (fun _ x _ => x + 1) (fun _ x => x + 1)).
  (** [d] gives to [c] *)
  Definition eb (d c : cellt) : bool := existsb (fun e => ceqb (fst e) c) (recv d).
  Lemma eb_iff d c : eb d c = true <-> edge recv d c.
  Proof. apply existsb_edge, ceqb_spec. Qed.

  (** ** FlowAccumulation *)
  Lemma acc_step_ok c s : dat c -> exists s', acc_step w h fd fnd c s = Ok s' /\ kperm s' (pbody c s).
  Proof.
    intros Hc. destruct c as [x y]. unfold acc_step. pose proof Hc as [Hin Hnd]. cbn [fst snd] in Hin, Hnd.
    pose proof (codes _ _ Hin Hnd) as Hcode. rewrite gat_ok by auto. cbn [bind]. rewrite (proj2 (Z.eqb_neq _ _) Hnd).
    unfold kbody, FlowProofs.recv. pose proof Hc as Hc'. apply isdata_iff in Hc'. rewrite Hc'. cbn [andb fst snd]. unfold NO_FLOW.
    assert (RF : forall s : astate, kperm s s) by (intros; repeat split; auto).
    destruct (Z.eqb_spec (fd x y) 0) as [E0|E0]; cbn [negb andb fold_left]; [eexists; split; [reflexivity|apply RF]|].
    rewrite off8_ok by auto. cbn [bind fst snd]. unfold FlowProofs.isdata at 1. cbn [FlowProofs.target fst snd].
    destruct (inGrid w h (x + _) (y + _)) eqn:HG; cbn [negb andb]; [|eexists; split; [reflexivity|apply RF]].
    rewrite gat_ok by (apply in_raster_iff; auto). cbn [bind].
    destruct (fd (x + _) (y + _) =? fnd) eqn:HF; cbn [negb]; [eexists; split; [reflexivity|apply RF]|].
    cbn [fold_left]. unfold relax. cbn [fst snd k_dep k_val k_q]. unfold FlowProofs.target. cbn [fst snd].
    unfold cset. rewrite (kupd_same ceqb ceqb_spec (k_dep s)). rewrite (kupd_same ceqb ceqb_spec (k_val s) (x, y)).
    eexists. split; [reflexivity|]. split; [reflexivity|]. split; [reflexivity|]. cbn [k_q].
    destruct (_ =? 0); [apply Permutation_cons_append|apply Permutation_refl].
  Qed.

  Lemma flow_acc_ok : exists a, FlowAccumulation w h fd fnd = Ok a /\ good_area fd fnd w h a /\
    (forall c, dat c -> ~ below_loop fd fnd w h c -> a c = 1 + zsum (fun d => if eb d c then a d else 0) dcells).
  Proof.
    unfold FlowAccumulation. destruct (dep_loop fd fnd w h codes (scan w h)) as [s [-> [Hdep [Hval Hq]]]].
    { intros [x y] Hc. apply scan_In in Hc. exact Hc. }
    cbn [bind]. set (src := rev (filter _ (scan w h))). set (s0 := mkK (k_dep s) (k_val s) src).
    assert (Hsrc : forall m, In m src <-> In m dcells /\ k_dep s m = 0).
    { intros m. unfold src. rewrite <- in_rev, filter_In, andb_true_iff, negb_true_iff, Z.eqb_eq, Z.eqb_neq, dcells_In.
      destruct m as [x y]. rewrite scan_In. unfold data. cbn [fst snd]. tauto. }
    assert (SC : Permutation (scan w h) (cells w h)).
    { apply NoDup_Permutation; [apply scan_NoDup|apply cells_NoDup|]. intros [x y]. rewrite scan_In, cells_In. reflexivity. }
    assert (GS : good_start ceqb recv dcells (k_val s) s0).
    { split; [|split; [reflexivity|split; [apply NoDup_rev, NoDup_filter, scan_NoDup|exact Hsrc]]].
      intros m Hm. cbn [k_dep s0]. rewrite Hdep. f_equal. rewrite (points_indeg fd fnd w h m) by (apply dcells_In; auto). apply indeg_perm, filter_perm, SC. }
    destruct (any_spec ceqb Z.add 0 recv (fun _ x _ => x + 1) (fun _ x => x + 1) ceqb_spec Z.add_comm Z.add_assoc Z.add_0_r
                dcells (dcells_NoDup fd fnd w h) (recv_V fd fnd w h codes) (acc_step w h fd fnd) (k_val s)) with (s := s0) (fuel := (Z.to_nat w * Z.to_nat h)%nat)
      as [P [X [s' [E [HO [HP [Hdec [HX Hno]]]]]]]].
    { intros P X st c q _ _ Hc. apply acc_step_ok. apply dcells_In. exact Hc. }
    { exact GS. }
    { apply dcells_length. }
    rewrite E. cbn [bind]. exists (k_val s'). split; [reflexivity|]. split.
    - apply (finished_area fd fnd w h codes (k_val s) (k_val s') P X); auto.
      + intros m [_ Hm]. apply (Hval m). tauto.
      + intros [x y] Hm Em. apply (Hval (x, y)). split; [apply scan_In; auto|auto].
    - intros c Hc NL. assert (Pc : In c P) by (apply HP; split; [apply dcells_In; auto|rewrite (Hloop fd fnd w h codes); auto]).
      destruct (HX c Pc) as [E1 E2]. rewrite E2, E1. replace (k_val s c) with 0 by (symmetry; apply (Hval c); intros [_ X0]; apply Hc; exact X0).
      unfold inflow. rewrite Z.add_0_l, Z.add_comm. f_equal. apply zsum_ext. intros d Hd.
      rewrite (insum_single ceqb recv (recv_single fd fnd w h)). fold (eb d c). destruct (eb d c) eqn:B; [|reflexivity].
      symmetry. apply (HX d). apply (ordered_donors recv dcells P HO c); auto. apply eb_iff. exact B.
  Qed.

  (** ** Paths *)
  Definition loops (c : cellt) : Prop := exists q, reach recv c q /\ on_cycle recv q.
  Definition exits (c : cellt) : Prop := dat c /\ fd (fst c) (snd c) <> 0 /\ ~ in_raster w h (fst (target c)) (snd (target c)).
  Lemma edge_target c m : edge recv c m <-> dat c /\ fd (fst c) (snd c) <> 0 /\ dat (target c) /\ m = target c.
  Proof.
    unfold edge, FlowProofs.recv. split.
    - intros [u HI]. destruct (isdata c && _ && _) eqn:B; [|destruct HI]. destruct HI as [E|[]]. injection E as <- _.
      rewrite !andb_true_iff, negb_true_iff, Z.eqb_neq, !isdata_iff in B. tauto.
    - intros [A [B [C ->]]]. exists tt. apply isdata_iff in A. apply isdata_iff in C. rewrite A, C. rewrite (proj2 (Z.eqb_neq _ _) B). left. reflexivity.
  Qed.
  Lemma reach_pre c m q : edge recv c m -> reach recv m q -> reach recv c q.
  Proof. intros E R. induction R; [eapply reach_step; [constructor|auto]|eapply reach_step; eauto]. Qed.
  Lemma reach_dat c q : reach recv c q -> dat c -> dat q.
  Proof. intros R D. destruct R as [|v d m R E]; [auto|]. apply edge_target in E. destruct E as [_ [_ [A ->]]]. exact A. Qed.
  Lemma loops_on c : loops c -> edge recv c (target c) /\ loops (target c).
  Proof.
    intros [q [R C]]. destruct (reach_inv recv c q R) as [->|[u [E R']]].
    - destruct C as [d [R' E]]. destruct (reach_inv recv q d R') as [->|[u [E' R2]]].
      + pose proof E as E0. apply edge_target in E0. destruct E0 as [_ [_ [_ T]]]. rewrite <- T. split; [exact E|]. exists d. split; [constructor|exists d; split; [constructor|auto]].
      + pose proof E' as E0. apply edge_target in E0. destruct E0 as [_ [_ [_ T]]]. rewrite <- T. split; [exact E'|]. exists q. split; [eapply reach_step; eauto|exists d; auto].
    - pose proof E as E0. apply edge_target in E0. destruct E0 as [_ [_ [_ T]]]. rewrite <- T. split; [exact E|]. exists q. auto.
  Qed.
  Lemma loops_pre c m : edge recv c m -> loops m -> loops c.
  Proof. intros E [q [R C]]. exists q. split; [eapply reach_pre; eauto|auto]. Qed.
  Lemma loops_below c : dat c -> loops c -> exists q, looping fd fnd w h q /\ passes fd fnd w h c q.
  Proof. intros D [q [R [d [R' E]]]]. exists q. split; [exists d; rewrite <- (reach_passes fd fnd w h codes), <- (edge_gives fd fnd w h codes); auto|apply reach_passes; auto]. Qed.

  Fixpoint trail (n : nat) (c : cellt) : list cellt :=
    match n with O => [] | S f => if isdata c then c :: (if fd (fst c) (snd c) =? 0 then [] else trail f (target c)) else [] end.
  Definition onb (p c : cellt) : bool := existsb (ceqb c) (trail (S (Z.to_nat (w * h))) p).

  Definition seen (vis : list cellt) (c : cellt) : Prop := NoDup vis /\ incl vis dcells /\ forall v, In v vis -> exists d, reach recv v d /\ edge recv d c.
  Lemma seen_new vis c : ~ loops c -> seen vis c -> dat c -> NoDup (c :: vis) /\ incl (c :: vis) dcells.
  Proof.
    intros NL [ND [IN BK]] D. split.
    - constructor; [|auto]. intros I. apply NL. destruct (BK c I) as [d [R E]]. exists c. split; [constructor|exists d; auto].
    - intros v [<-|I]; [apply dcells_In; auto|auto].
  Qed.
  Lemma seen_step vis c : ~ loops c -> seen vis c -> edge recv c (target c) -> seen (c :: vis) (target c).
  Proof.
    intros NL SN E. pose proof E as E0. apply edge_target in E0. destruct E0 as [D _]. destruct (seen_new vis c NL SN D) as [A B]. split; [exact A|]. split; [exact B|].
    destruct SN as [_ [_ BK]]. intros v [<-|I]; [exists c; split; [constructor|auto]|]. destruct (BK v I) as [d [R E']]. exists c. split; [eapply reach_step; eauto|auto].
  Qed.
  Lemma trail_ok : forall n vis c, ~ loops c -> seen vis c -> (length dcells <= length vis + n)%nat ->
    NoDup (trail n c) /\ forall q, In q (trail n c) <-> dat c /\ reach recv c q.
  Proof.
    induction n as [|n IH]; intros vis c NL SN LE; cbn [trail].
    - split; [constructor|]. intros q. split; [intros []|]. intros [D _]. destruct (seen_new vis c NL SN D) as [A B].
      pose proof (NoDup_incl_length A B) as LL. cbn [length] in LL. lia.
    - destruct (isdata c) eqn:ID.
      + apply isdata_iff in ID. destruct (Z.eqb_spec (fd (fst c) (snd c)) 0) as [E0|E0].
        * split; [repeat constructor; intros []|]. intros q. cbn [In]. split; [intros [<-|[]]; split; [auto|constructor]|].
          intros [_ R]. left. destruct (reach_inv recv c q R) as [?|[u [E _]]]; [auto|]. apply edge_target in E. tauto.
        * destruct (isdata (target c)) eqn:IT.
          -- apply isdata_iff in IT. assert (E : edge recv c (target c)) by (apply edge_target; auto).
             destruct (IH (c :: vis) (target c)) as [A B]; [intros X; apply NL; eapply loops_pre; eauto|apply seen_step; auto|cbn [length]; lia|].
             split.
             ++ constructor; [|exact A]. intros I. apply B in I. apply NL. exists c. split; [constructor|].
                destruct I as [_ R]. clear - R E. destruct R as [v|v d m R E']; [exists v; split; [constructor|exact E]|exists d; split; [eapply reach_pre; eauto|exact E']].
             ++ intros q. cbn [In]. rewrite B. split.
                ** intros [<-|[_ R]]; [split; [auto|constructor]|]. split; [auto|eapply reach_pre; eauto].
                ** intros [_ R]. destruct (reach_inv recv c q R) as [?|[u [E' R']]]; [auto|]. right. split; [auto|]. apply edge_target in E'. destruct E' as [_ [_ [_ ->]]]. exact R'.
          -- assert (TN : trail n (target c) = []) by (destruct n; cbn [trail]; [auto|rewrite IT; auto]). rewrite TN.
             split; [repeat constructor; intros []|]. intros q. cbn [In]. split; [intros [<-|[]]; split; [auto|constructor]|].
             intros [_ R]. left. destruct (reach_inv recv c q R) as [?|[u [E _]]]; [auto|]. apply edge_target in E. destruct E as [_ [_ [E _]]]. apply isdata_iff in E. congruence.
      + split; [constructor|]. intros q. split; [intros []|]. intros [D _]. apply isdata_iff in D. congruence.
  Qed.
  Lemma seen_nil c : seen [] c.
  Proof. split; [constructor|]. split; [intros v []|intros v []]. Qed.
  Lemma wh_cells : 0 <= w -> 0 <= h -> (Z.to_nat w * Z.to_nat h)%nat = Z.to_nat (w * h).
  Proof. intros A B. rewrite Z2Nat.inj_mul by auto. reflexivity. Qed.
  Hypothesis Hw : 1 <= w.
  Hypothesis Hh : 2 <= h.
  Lemma dlen : (length dcells <= Z.to_nat (w * h))%nat.
  Proof. rewrite <- wh_cells by lia. apply dcells_length. Qed.
  Lemma onb_iff p c : ~ loops p -> (onb p c = true <-> dat p /\ reach recv p c).
  Proof.
    intros NL. destruct (trail_ok (S (Z.to_nat (w * h))) [] p NL (seen_nil p)) as [_ T]; [cbn [length]; pose proof dlen; lia|]. rewrite <- T.
    unfold onb. rewrite existsb_exists. split; [intros [x [I E]]; destruct (ceqb_spec c x); [subst; auto|discriminate]|].
    intros I. exists c. split; [auto|]. destruct (ceqb_spec c c); congruence.
  Qed.

  (** FollowPathAdd adds to the cells of the path *)
  Lemma add_ok a : forall n c acc, NoDup (trail n c) -> (length (trail n c) < n)%nat ->
    exists acc', FollowPathAdd w h fd fnd n c acc a = Ok acc' /\ forall d, acc' d = acc d + (if existsb (ceqb d) (trail n c) then a else 0).
  Proof.
    induction n as [|n IH]; intros c acc ND LT; [cbn in LT; lia|]. cbn [FollowPathAdd trail] in *. unfold FlowProofs.isdata in *.
    destruct (inGrid w h (fst c) (snd c)) eqn:G; cbn [negb andb] in *; [|exists acc; split; [auto|intros; cbn; lia]].
    destruct (Z.eqb_spec (fd (fst c) (snd c)) fnd) as [F|F]; cbn [negb] in *; [exists acc; split; [auto|intros; cbn; lia]|].
    unfold NO_FLOW. destruct (Z.eqb_spec (fd (fst c) (snd c)) 0) as [E0|E0].
    - eexists. split; [reflexivity|]. intros d. cbn [existsb]. unfold cset. destruct (ceqb_spec d c) as [->|NE]; cbn [orb].
      + rewrite (kupd_same ceqb ceqb_spec). lia.
      + rewrite (kupd_other ceqb ceqb_spec) by auto. lia.
    - apply in_raster_iff in G. rewrite off8_ok by (apply codes; auto). cbn [bind fst snd].
      inversion ND as [|? ? NI ND']; subst. cbn [length] in LT.
      destruct (IH (target c) (cset acc c (acc c + a)) ND') as [acc' [E A]]; [lia|]. exists acc'. split; [exact E|]. intros d. rewrite A. cbn [existsb]. unfold cset.
      destruct (ceqb_spec d c) as [->|NE]; cbn [orb].
      + rewrite (kupd_same ceqb ceqb_spec). replace (existsb (ceqb c) (trail n (target c))) with false; [lia|].
        symmetry. apply not_true_is_false. intros B. apply existsb_exists in B. destruct B as [x [I B]]. destruct (ceqb_spec c x); [subst; auto|discriminate].
      + rewrite (kupd_other ceqb ceqb_spec) by auto. lia.
  Qed.
  Lemma add_spec a c acc : ~ loops c -> exists acc', FollowPathAdd w h fd fnd (S (Z.to_nat (w * h))) c acc a = Ok acc' /\ forall d, acc' d = acc d + (if onb c d then a else 0).
  Proof.
    intros NL. destruct (trail_ok (S (Z.to_nat (w * h))) [] c NL (seen_nil c)) as [A B]; [cbn [length]; pose proof dlen; lia|].
    apply add_ok; [exact A|]. assert (length (trail (S (Z.to_nat (w * h))) c) <= length dcells)%nat; [|pose proof dlen; lia].
    apply NoDup_incl_length; [exact A|]. intros q I. apply B in I. apply dcells_In. apply (reach_dat c q); tauto.
  Qed.

  (** ** SecondRound *)
  Lemma second_ok acc n (job2 : Z -> Z) : n <= plen w h -> (forall s, 0 <= s < n -> job2 s <> 0 -> ~ loops (pos w h s)) ->
    exists o, SecondRound w h fd fnd acc n job2 = Ok o /\ forall d, o d = acc d + zsum (fun s => if onb (pos w h s) d then job2 s else 0) (zrange 0 (Z.to_nat n)).
  Proof.
    intros HN HL. unfold SecondRound.
    destruct (forM_inv (fun done o => forall d, o d = acc d + zsum (fun s => if onb (pos w h s) d then job2 s else 0) done)
      (fun s accum => if job2 s =? 0 then Ok accum else do c <- serialToXY w h s; FollowPathAdd w h fd fnd (S (Z.to_nat (w * h))) c accum (job2 s)) (zrange 0 (Z.to_nat n)))
      with (s := acc) as [o [E A]].
    - intros done s rest o EL A. assert (Is : In s (zrange 0 (Z.to_nat n))) by (rewrite EL; apply in_app_iff; right; left; auto). apply zrange_In in Is.
      destruct (Z.eqb_spec (job2 s) 0) as [E0|E0].
      + exists o. split; [auto|]. intros d. rewrite zsum_app, zsum_cons, E0, A. destruct (onb _ _); change (zsum _ []) with 0; lia.
      + rewrite pos_ok by lia. cbn [bind]. destruct (add_spec (job2 s) (pos w h s) o) as [o' [E B]]; [apply HL; [lia|auto]|]. exists o'. split; [exact E|].
        intros d. rewrite B, A, zsum_app, zsum_cons. change (zsum _ []) with 0. lia.
    - intros d. change (zsum _ []) with 0. lia.
    - exists o. auto.
  Qed.

  (** ** FollowPath *)
  Lemma exits_rim c : exits c -> rim w h c.
  Proof.
    intros [[R _] [_ X]]. split; [exact R|]. unfold FlowProofs.target in X. cbn [fst snd] in X. unfold in_raster in *.
    pose proof (d8_step_bound (Z.to_nat (fd (fst c) (snd c)))). lia.
  Qed.
  (** the value of the link of [c0] when the walk stands at [c] *)
  Definition link (c0 c : cellt) (v : Z) : Prop :=
    (exists e, reach recv c e /\ exits e /\ v = (if ceqb e c0 then FLOW_EXTERNAL else w16 (ser w h e))) \/
    ((forall e, reach recv c e -> ~ exits e) /\ v = FLOW_TERMINATES).
  Definition seenw (vis : list cellt) (c : cellt) : Prop := seen vis c /\ in_raster w h (fst c) (snd c).
  Lemma walk_step c0 n c : in_raster w h (fst c) (snd c) ->
    walk w h fd fnd c0 (S n) c = Ok FLOW_TERMINATES /\ (forall e, reach recv c e -> ~ exits e) \/
    exits c /\ walk w h fd fnd c0 (S n) c = Ok (if ceqb c c0 then FLOW_EXTERNAL else w16 (ser w h c)) \/
    in_raster w h (fst (target c)) (snd (target c)) /\ dat c /\ fd (fst c) (snd c) <> 0 /\ walk w h fd fnd c0 (S n) c = walk w h fd fnd c0 n (target c).
  Proof.
    intros R. cbn [walk]. rewrite gat_ok by auto. cbn [bind]. unfold NO_FLOW.
    assert (NO : fd (fst c) (snd c) = fnd \/ fd (fst c) (snd c) = 0 -> forall e, reach recv c e -> ~ exits e).
    { intros OR e Re X. destruct (reach_inv recv c e Re) as [->|[u [E _]]].
      - destruct X as [[_ X1] [X2 _]]. tauto.
      - apply edge_target in E. destruct E as [[_ E1] [E2 _]]. tauto. }
    destruct (Z.eqb_spec (fd (fst c) (snd c)) fnd) as [F|F]; cbn [orb]; [left; split; [auto|apply NO; auto]|].
    destruct (Z.eqb_spec (fd (fst c) (snd c)) 0) as [F0|F0]; [left; split; [auto|apply NO; auto]|].
    rewrite off8_ok by (apply codes; auto). cbn [bind fst snd]. change (fst c + dx D8 (Z.to_nat (fd (fst c) (snd c))), snd c + dy D8 (Z.to_nat (fd (fst c) (snd c)))) with (target c).
    change (fst c + dx D8 (Z.to_nat (fd (fst c) (snd c)))) with (fst (target c)). change (snd c + dy D8 (Z.to_nat (fd (fst c) (snd c)))) with (snd (target c)).
    assert (D : dat c) by (split; auto).
    destruct (inGrid w h (fst (target c)) (snd (target c))) eqn:G; cbn [negb].
    - right. right. apply in_raster_iff in G. auto.
    - right. left. assert (X : exits c) by (split; [auto|split; [auto|]]; rewrite in_raster_iff; congruence).
      split; [exact X|]. destruct (ceqb c c0); [reflexivity|]. rewrite ser_ok by (apply exits_rim; auto). reflexivity.
  Qed.
  Lemma cells_len (l : list cellt) : NoDup l -> incl l (cells w h) -> (length l <= Z.to_nat (w * h))%nat.
  Proof. intros A B. rewrite <- wh_cells by lia. rewrite <- cells_length. apply (NoDup_incl_length A B). Qed.
  Lemma walk_ok c0 : forall n vis c, ~ loops c -> seen vis c -> in_raster w h (fst c) (snd c) -> (Z.to_nat (w * h) <= length vis + n)%nat ->
    exists v, walk w h fd fnd c0 n c = Ok v /\ link c0 c v.
  Proof.
    induction n as [|n IH]; intros vis c NL SN R LE.
    - exfalso. assert (IC : incl (c :: vis) (cells w h)).
      { intros v [<-|I]; [destruct c; apply cells_In; exact R|]. apply (proj1 (proj2 SN)) in I. apply filter_In in I. tauto. }
      assert (ND : NoDup (c :: vis)).
      { destruct SN as [ND [IN BK]]. constructor; [|auto]. intros I. apply NL. destruct (BK c I) as [d [R' E]]. exists c. split; [constructor|exists d; auto]. }
      pose proof (cells_len _ ND IC) as LL. cbn [length] in LL. lia.
    - destruct (walk_step c0 n c R) as [[E NX]|[[X E]|[RT [D [F E]]]]].
      + exists FLOW_TERMINATES. split; [exact E|]. right. auto.
      + eexists. split; [exact E|]. left. exists c. split; [constructor|]. auto.
      + rewrite E. destruct (isdata (target c)) eqn:IT.
        * apply isdata_iff in IT. assert (Ed : edge recv c (target c)) by (apply edge_target; auto).
          destruct (IH (c :: vis) (target c)) as [v [Ev LK]]; [intros X; apply NL; eapply loops_pre; eauto|apply seen_step; auto|auto|cbn [length]; lia|].
          exists v. split; [exact Ev|]. destruct LK as [[e [Re [X V]]]|[NX V]].
          -- left. exists e. split; [eapply reach_pre; eauto|auto].
          -- right. split; [|exact V]. intros e Re. destruct (reach_inv recv c e Re) as [<-|[u [E' R']]]; [intros X; apply X; exact RT|].
             apply NX. apply edge_target in E'. destruct E' as [_ [_ [_ ->]]]. exact R'.
        * assert (NX : forall e, reach recv c e -> ~ exits e).
          { intros e Re. destruct (reach_inv recv c e Re) as [<-|[u [E' R']]]; [intros X; apply X; exact RT|]. apply edge_target in E'. destruct E' as [_ [_ [E' _]]]. apply isdata_iff in E'. congruence. }
          exists FLOW_TERMINATES. split; [|right; auto].
          assert (FT : fd (fst (target c)) (snd (target c)) = fnd).
          { destruct (Z.eq_dec (fd (fst (target c)) (snd (target c))) fnd) as [|X]; [auto|]. exfalso. assert (dat (target c)) by (split; auto). apply isdata_iff in H. congruence. }
          destruct n as [|n].
          -- exfalso. assert (Tnew : NoDup (target c :: c :: vis) /\ incl (target c :: c :: vis) (cells w h)); [|destruct Tnew as [A B]; pose proof (cells_len _ A B) as LL; cbn [length] in LL; lia].
             destruct (seen_new vis c NL SN D) as [A B]. split.
             ++ constructor; [|exact A]. intros I. apply B in I. apply dcells_In in I. destruct I as [_ I]. auto.
             ++ intros v [<-|I]; [|apply B in I; apply filter_In in I; tauto]. rewrite (surjective_pairing (target c)). apply cells_In. exact RT.
          -- destruct (walk_step c0 n (target c) RT) as [[E' _]|[[X _]|[_ [X _]]]]; [exact E'| |]; exfalso; [destruct X as [[_ X] _]; auto|destruct X; auto].
  Qed.
  Lemma walk_loops c0 : forall n c, loops c -> walk w h fd fnd c0 n c = Thrown.
  Proof.
    induction n as [|n IH]; intros c LP; [reflexivity|]. destruct (loops_on c LP) as [E LP']. apply edge_target in E. destruct E as [D [F [D' _]]].
    destruct (walk_step c0 n c (proj1 D)) as [[_ NX]|[[X _]|[_ [_ [_ ->]]]]]; [|exfalso; apply X, D'|apply IH; auto].
    cbn [walk]. rewrite gat_ok by apply D. cbn [bind]. rewrite (proj2 (Z.eqb_neq _ _) (proj2 D)). unfold NO_FLOW. rewrite (proj2 (Z.eqb_neq _ _) F). cbn [orb].
    rewrite off8_ok by (apply codes; apply D). cbn [bind fst snd].
    change (fst c + dx D8 (Z.to_nat (fd (fst c) (snd c))), snd c + dy D8 (Z.to_nat (fd (fst c) (snd c)))) with (target c).
    change (fst c + dx D8 (Z.to_nat (fd (fst c) (snd c)))) with (fst (target c)). change (snd c + dy D8 (Z.to_nat (fd (fst c) (snd c)))) with (snd (target c)).
    pose proof (proj1 D') as RT. apply in_raster_iff in RT. rewrite RT. cbn [negb]. apply IH. exact LP'.
  Qed.
  Lemma walk_total c0 : forall n c, in_raster w h (fst c) (snd c) -> walk w h fd fnd c0 n c <> Undef.
  Proof.
    induction n as [|n IH]; intros c R; [discriminate|]. destruct (walk_step c0 n c R) as [[-> _]|[[_ ->]|[RT [_ [_ ->]]]]]; [discriminate|discriminate|auto].
  Qed.

  Definition lk (c : cellt) : Z := match walk w h fd fnd c (Z.to_nat (w * h)) c with Ok v => v | _ => FLOW_TERMINATES end.
  Lemma lk_ok c : in_raster w h (fst c) (snd c) -> ~ loops c -> walk w h fd fnd c (Z.to_nat (w * h)) c = Ok (lk c) /\ link c c (lk c).
  Proof.
    intros R NL. unfold lk. destruct (walk_ok c (Z.to_nat (w * h)) [] c NL (seen_nil c) R) as [v [-> LK]]; [cbn [length]; lia|auto].
  Qed.

  (** ** FirstRound *)
  Definition followed (e : edges) (c : cellt) : Prop := in_raster w h (fst c) (snd c) /\
    (e_top e = false /\ snd c = 0 \/ e_bot e = false /\ snd c = h - 1 \/ e_left e = false /\ fst c = 0 \/ e_right e = false /\ fst c = w - 1).
  Definition flist (e : edges) : list cellt :=
    (if negb (e_top e) then map (fun x => (x, 0)) (zrange 0 (Z.to_nat w)) else []) ++
    (if negb (e_bot e) then map (fun x => (x, h - 1)) (zrange 0 (Z.to_nat w)) else []) ++
    (if negb (e_left e) then map (fun y => (0, y)) (zrange 0 (Z.to_nat h)) else []) ++
    (if negb (e_right e) then map (fun y => (w - 1, y)) (zrange 0 (Z.to_nat h)) else []).
  Lemma flist_In e c : In c (flist e) <-> followed e c.
  Proof.
    assert (M : forall (f : Z -> cellt) n, In c (map f (zrange 0 n)) <-> exists x, 0 <= x < Z.of_nat n /\ c = f x).
    { intros f n. rewrite in_map_iff. split; intros [x [A B]]; exists x; [apply zrange_In in B; split; [lia|auto]|split; [auto|apply zrange_In; lia]]. }
    destruct c as [x y]. unfold flist, followed, in_raster. cbn [fst snd]. rewrite !in_app_iff.
    destruct (e_top e), (e_bot e), (e_left e), (e_right e); cbn [negb]; rewrite ?M; cbn [In]; split; intros HH;
      repeat match goal with
      | HH : _ \/ _ |- _ => destruct HH as [HH|HH]
      | HH : False |- _ => destruct HH
      | HH : _ /\ _ |- _ => destruct HH
      | HH : exists _, _ |- _ => destruct HH as [? [? HH]]; injection HH as ? ?
      | HH : true = false |- _ => discriminate HH
      end; subst; try (split; [lia|tauto]);
      first [left; solve [exists x; split; [lia|f_equal; lia]] | right; left; solve [exists x; split; [lia|f_equal; lia]]
            | right; right; left; solve [exists y; split; [lia|f_equal; lia]] | right; right; right; solve [exists y; split; [lia|f_equal; lia]] ].
  Qed.
  Lemma followed_rim e c : followed e c -> rim w h c.
  Proof. intros [R X]. split; [exact R|]. tauto. Qed.
  Lemma forM_if {I J S} (b : bool) (f : I -> J) (l : list I) (body : J -> S -> res S) (s : S) :
    (if b then forM l (fun i => body (f i)) s else Ok s) = forM (if b then map f l else []) body s.
  Proof. destruct b; [|reflexivity]. revert s. induction l as [|i l IH]; intros s; [reflexivity|]. cbn [map forM]. destruct (body (f i) s); cbn [bind]; auto. Qed.

  Definition links0 : list Z := repeat FLOW_TERMINATES (Z.to_nat (plen w h)).
  Lemma first_form e a : FirstRound w h fd fnd e a =
    (do links <- forM (flist e) (FollowPath w h fd fnd) links0;
     do pf <- GridPerimToArray w h (fun c => fd (fst c) (snd c)); do pa <- GridPerimToArray w h a; Ok (mkP links pa pf)).
  Proof.
    unfold FirstRound, flist, links0, plen. cbv zeta.
    assert (BA : forall (A B C : Type) (x : res A) (f : A -> res B) (g : B -> res C), bind (bind x f) g = bind x (fun a => bind (f a) g)) by (intros A B C x f g; destruct x; reflexivity).
    rewrite (forM_if _ (fun x => (x, 0)) _ (FollowPath w h fd fnd)).
    rewrite !forM_app, !BA. destruct (forM (if negb (e_top e) then _ else _) _ _) as [l1| |]; cbn [bind]; try reflexivity.
    rewrite (forM_if _ (fun x => (x, h - 1)) _ (FollowPath w h fd fnd)). rewrite ?forM_app, ?BA. destruct (forM (if negb (e_bot e) then _ else _) _ _) as [l2| |]; cbn [bind]; try reflexivity.
    rewrite (forM_if _ (fun y => (0, y)) _ (FollowPath w h fd fnd)). rewrite ?forM_app, ?BA. destruct (forM (if negb (e_left e) then _ else _) _ _) as [l3| |]; cbn [bind]; try reflexivity.
    rewrite (forM_if _ (fun y => (w - 1, y)) _ (FollowPath w h fd fnd)). reflexivity.
  Qed.

  Lemma vset_ok (l : list Z) i v : 0 <= i < Z.of_nat (length l) -> exists l', vset l i v = Ok l' /\ length l' = length l /\ forall j, ix l' j = if j =? i then Some v else ix l j.
  Proof.
    intros Hi. destruct (wr_in l i v Hi) as [l' [E A]]. exists l'. split; [|exact A]. unfold wr in E. unfold vset. destruct (_ && _); [congruence|discriminate].
  Qed.
  Lemma ix_links0 s : 0 <= s < plen w h -> ix links0 s = Some FLOW_TERMINATES.
  Proof.
    intros Hs. unfold ix. destruct (Z.ltb_spec s 0); [lia|]. unfold links0. apply nth_error_repeat. lia.
  Qed.
  Definition isf (l : list cellt) (s : Z) : bool := existsb (fun c => ser w h c =? s) l.
  Lemma links_ok (fl : list cellt) : (forall c, In c fl -> rim w h c /\ ~ loops c) -> exists l, forM fl (FollowPath w h fd fnd) links0 = Ok l /\
    Z.of_nat (length l) = plen w h /\ forall s, 0 <= s < plen w h -> ix l s = Some (if isf fl s then lk (pos w h s) else FLOW_TERMINATES).
  Proof.
    intros HF. destruct (forM_inv (fun done l => Z.of_nat (length l) = plen w h /\ forall s, 0 <= s < plen w h -> ix l s = Some (if isf done s then lk (pos w h s) else FLOW_TERMINATES))
      (FollowPath w h fd fnd) fl) with (s := links0) as [l [E A]].
    - intros done c rest l EL [LN A]. destruct (HF c) as [R NL]; [rewrite EL; apply in_app_iff; right; left; auto|].
      unfold FollowPath. rewrite ser_ok by auto. cbn [bind]. destruct (lk_ok c (proj1 R) NL) as [-> _]. cbn [bind].
      pose proof (ser_range w h Hw Hh c R) as SR. destruct (vset_ok l (ser w h c) (lk c)) as [l' [E [LN' B]]]; [lia|]. exists l'. split; [exact E|]. split; [lia|].
      intros s Hs. rewrite B. unfold isf. rewrite existsb_app. cbn [existsb]. rewrite orb_false_r. destruct (Z.eqb_spec s (ser w h c)) as [->|NE].
      + rewrite Z.eqb_refl, orb_true_r. rewrite pos_ser by auto. reflexivity.
      + rewrite (proj2 (Z.eqb_neq (ser w h c) s)) by auto. rewrite orb_false_r. apply A. exact Hs.
    - split; [unfold links0; rewrite repeat_length; unfold plen; lia|]. intros s Hs. cbn [isf existsb]. apply ix_links0. exact Hs.
    - exists l. auto.
  Qed.
  Lemma isf_iff e s : 0 <= s < plen w h -> (isf (flist e) s = true <-> followed e (pos w h s) /\ ser w h (pos w h s) = s).
  Proof.
    intros Hs. unfold isf. rewrite existsb_exists. split.
    - intros [c [I E]]. apply Z.eqb_eq in E. apply flist_In in I. rewrite <- E, pos_ser by (apply (followed_rim e); auto). auto.
    - intros [F E]. exists (pos w h s). split; [apply flist_In; auto|apply Z.eqb_eq; auto].
  Qed.

  Record pspec (e : edges) (a : cellt -> Z) (j : pjob) : Prop := {
    ps_nl : Z.of_nat (length (p_links j)) = plen w h;
    ps_na : Z.of_nat (length (p_accum j)) = plen w h;
    ps_nf : Z.of_nat (length (p_fd j)) = plen w h;
    ps_a : forall s, 0 <= s < plen w h -> ix (p_accum j) s = Some (a (pos w h s));
    ps_f : forall s, 0 <= s < plen w h -> ix (p_fd j) s = Some (fd (fst (pos w h s)) (snd (pos w h s)));
    ps_l : forall s, 0 <= s < plen w h -> exists v, ix (p_links j) s = Some v /\
      (followed e (pos w h s) /\ ser w h (pos w h s) = s /\ link (pos w h s) (pos w h s) v \/
       ~ (followed e (pos w h s) /\ ser w h (pos w h s) = s) /\ v = FLOW_TERMINATES) }.
  Lemma first_ok e a : (forall c, followed e c -> ~ loops c) -> exists j, FirstRound w h fd fnd e a = Ok j /\ pspec e a j.
  Proof.
    intros NL. rewrite first_form. destruct (links_ok (flist e)) as [l [-> [LN LX]]]; [intros c I; apply flist_In in I; split; [eapply followed_rim; eauto|auto]|].
    cbn [bind]. destruct (perim_ok w h Hw Hh (fun c => fd (fst c) (snd c))) as [pf [-> [FN FX]]]. cbn [bind].
    destruct (perim_ok w h Hw Hh a) as [pa [-> [AN AX]]]. cbn [bind]. eexists. split; [reflexivity|].
    split; cbn [p_links p_accum p_fd]; auto.
    intros s Hs. eexists. split; [apply LX; auto|]. destruct (isf (flist e) s) eqn:I.
    - left. apply isf_iff in I; [|auto]. destruct I as [F E]. split; [auto|]. split; [auto|]. apply lk_ok; [apply F|auto].
    - right. split; [|auto]. rewrite <- isf_iff by auto. congruence.
  Qed.
  Lemma first_throws e a c : followed e c -> loops c -> FirstRound w h fd fnd e a = Thrown.
  Proof.
    intros F LP. rewrite first_form. apply flist_In in F.
    assert (G : forall fl l, (forall d, In d fl -> followed e d) -> Z.of_nat (length l) = plen w h -> In c fl -> forM fl (FollowPath w h fd fnd) l = Thrown).
    { induction fl as [|d fl IH]; intros l FL LN I; [destruct I|]. cbn [forM]. pose proof (FL d (or_introl eq_refl)) as FD. pose proof (followed_rim e d FD) as R.
      unfold FollowPath. rewrite ser_ok by auto. cbn [bind]. pose proof (walk_total d (Z.to_nat (w * h)) d (proj1 R)) as WT.
      destruct (walk w h fd fnd d (Z.to_nat (w * h)) d) as [v| |] eqn:EW; [|reflexivity|congruence]. cbn [bind].
      destruct I as [->|I]; [rewrite (walk_loops c _ c LP) in EW; discriminate|].
      destruct (vset_ok l (ser w h d) v) as [l' [-> [LN' _]]]; [rewrite LN; apply ser_range; auto|]. cbn [bind]. apply IH; [intros; apply FL; right; auto|lia|auto]. }
    rewrite (G (flist e) links0); [reflexivity| | |exact F].
    - intros d. apply flist_In.
    - unfold links0. rewrite repeat_length. unfold plen. lia.
  Qed.
  Lemma first_total e a : FirstRound w h fd fnd e a <> Undef.
  Proof.
    rewrite first_form.
    assert (G : forall fl l, (forall d, In d fl -> followed e d) -> Z.of_nat (length l) = plen w h -> forM fl (FollowPath w h fd fnd) l <> Undef).
    { induction fl as [|d fl IH]; intros l FL LN; cbn [forM]; [discriminate|]. pose proof (FL d (or_introl eq_refl)) as FD. pose proof (followed_rim e d FD) as R.
      unfold FollowPath at 1. rewrite ser_ok by auto. cbn [bind]. pose proof (walk_total d (Z.to_nat (w * h)) d (proj1 R)) as WT.
      destruct (walk w h fd fnd d (Z.to_nat (w * h)) d) as [v| |] eqn:EW; [|discriminate|congruence]. cbn [bind].
      destruct (vset_ok l (ser w h d) v) as [l' [-> [LN' _]]]; [rewrite LN; apply ser_range; auto|]. cbn [bind]. apply IH; [intros; apply FL; right; auto|lia]. }
    specialize (G (flist e) links0). destruct (forM (flist e) _ links0); cbn [bind]; [|discriminate|exfalso; apply G; auto].
    - destruct (perim_ok w h Hw Hh (fun c => fd (fst c) (snd c))) as [pf [-> _]]. cbn [bind]. destruct (perim_ok w h Hw Hh a) as [pa [-> _]]. discriminate.
    - intros d. apply flist_In.
    - unfold links0. rewrite repeat_length. unfold plen. lia.
  Qed.
  Lemma sanity_ok : VerifyInputSanity w h fd fnd = Ok tt.
  Proof.
    unfold VerifyInputSanity. match goal with |- forM _ ?b _ = _ => destruct (forM_inv (fun _ s => s = tt) b (scan w h)) with (s := tt) as [u [E ->]] end; [| |exact E]; auto.
    intros done [x y] rest u EL ->. exists tt. split; [|auto]. cbn [fst snd]. assert (R : in_raster w h x y) by (apply scan_In; rewrite EL; apply in_app_iff; right; left; auto).
    destruct (Z.eqb_spec (fd x y) fnd) as [|NE]; [reflexivity|]. pose proof (codes x y R NE). unfold NO_FLOW. cbn [negb andb].
    destruct (Z.leb_spec 1 (fd x y)), (Z.leb_spec (fd x y) 8), (Z.eqb_spec (fd x y) 0); cbn [andb negb]; try reflexivity; lia.
  Qed.
End Tile.
