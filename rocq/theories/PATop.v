(** parallel_d8_accum as a whole. *)
From Coq Require Import ZArith List Lia Bool Permutation.
From Verif Require Import Base Res Kahn RasterSpec RasterFacts FlowModel FlowSpec FlowProofs ZhouModel ZhouProofs PPFModel PPFSpec PPFMaster PPFTop PAKahn PAModel PATile PAPath PASpec PAGeo PAMaster.
Open Scope Z_scope.

(** the balance determines the number of cells upstream *)
Lemma balance_count fd fnd w h (F : cellt -> Z) : codes_ok fd fnd w h ->
  (forall c, data fd fnd w h c -> ~ below_loop fd fnd w h c -> F c = 1 + zsum (fun d => if eb fd fnd w h d c then F d else 0) (dcells fd fnd w h)) ->
  forall c, data fd fnd w h c -> ~ below_loop fd fnd w h c -> upstream_count fd fnd w h c (F c).
Proof.
  intros codes HF c Hc NL.
  set (V := dcells fd fnd w h). set (recv := FlowProofs.recv fd fnd w h).
  assert (HLp : forall p, loop_upstream recv V p <-> below_loop fd fnd w h p) by exact (Hloop fd fnd w h codes).
  set (s0 := mkK (fun m => Z.of_nat (indeg ceqb recv V m)) (fun _ : cellt => 0) (filter (fun m => Z.of_nat (indeg ceqb recv V m) =? 0) V)).
  destruct (krun_spec ceqb Z.add 0 recv (fun _ x _ => x + 1) (fun _ x => x) ceqb_spec Z.add_comm Z.add_assoc Z.add_0_r V (dcells_NoDup fd fnd w h) (recv_V fd fnd w h codes) (fun _ => 0) s0 (length V))
    as [P [X [s' [_ [HO [HP _]]]]]]; [|lia|].
  { split; [reflexivity|]. split; [reflexivity|]. split; [apply NoDup_filter, dcells_NoDup|]. intros m. cbn [k_q k_dep s0]. rewrite filter_In, Z.eqb_eq. reflexivity. }
  destruct (count_upstream ceqb recv ceqb_spec V (dcells_NoDup fd fnd w h) (recv_V fd fnd w h codes) (recv_single fd fnd w h) (fun m => F m - 1) P HO) as [U HU].
  { intros m Hm. apply HP in Hm. destruct Hm as [Vm Lm]. rewrite HLp in Lm. apply dcells_In in Vm. rewrite (HF m Vm Lm). unfold inflow.
    change (asum Z.add 0 (map (fun d => insum ceqb Z.add 0 recv (fun _ x _ => x + 1) (fun m0 => F m0 - 1) d m) V)) with (zsum (fun d => insum ceqb Z.add 0 recv (fun _ x _ => x + 1) (fun m0 => F m0 - 1) d m) V).
    rewrite (zsum_ext (fun d => insum ceqb Z.add 0 recv (fun _ x _ => x + 1) (fun m0 => F m0 - 1) d m) (fun d => if eb fd fnd w h d m then F d else 0)); [fold V; lia|].
    intros d _. rewrite (insum_single ceqb recv (recv_single fd fnd w h)). unfold eb. fold recv. destruct (existsb _ (recv d)); lia. }
  destruct (HU c) as [[ND HI] HLen]; [apply HP; split; [apply dcells_In; auto|rewrite HLp; auto]|].
  exists (U c). split; [exact ND|]. split; [|transitivity (F c - 1 + 1); [lia|exact HLen]]. intros q. rewrite HI. unfold V, recv. rewrite dcells_In, (reach_passes fd fnd w h codes). reflexivity.
Qed.

Lemma receive_gen js : forall f : Z -> Z -> pjob, NoDup (map fst js) ->
  (forall t j, In (t, j) js -> fold_left (fun jobs (x : (Z * Z) * pjob) => jset jobs (fst x) (snd x)) js f (fst t) (snd t) = j) /\
  (forall t, ~ In t (map fst js) -> fold_left (fun jobs (x : (Z * Z) * pjob) => jset jobs (fst x) (snd x)) js f (fst t) (snd t) = f (fst t) (snd t)).
Proof.
  induction js as [|[t j] js IH]; intros f ND; [split; [intros t j []|reflexivity]|]. cbn [map fst] in ND. inversion ND as [|? ? NI ND']; subst. cbn [fold_left fst snd].
  destruct (IH (jset f t j) ND') as [A B]. split.
  - intros u k [E|I]; [|apply A; exact I]. injection E as <- <-. rewrite B by auto. unfold jset. apply gset_same.
  - intros u NU. rewrite B by (intros X; apply NU; right; exact X). unfold jset. apply gset_other. intros X. apply NU. left. destruct u, t. cbn in X. cbn. congruence.
Qed.

Section Top.
  Variables (L : layout) (fnd : Z).
  Hypothesis HL : proper L.
  Let Hbw : 0 < bw L := proj1 (proj2 (proj2 HL)).
  Let Hbh : 0 < bh L := proj2 (proj2 (proj2 HL)).
  Hypothesis Hcodes : codes_ok (whole L fnd) fnd (W L) (PPFModel.H L).
  Hypothesis Hrows : two_rows L.
  Hypothesis Hfits : fits L.
  Hypothesis HF : flipH L = false.
  Notation tww t := (tw L (fst t)).
  Notation thh t := (th L (snd t)).
  Notation TL := (tiles L).
  Notation ed t := (tile_edges L (fst t) (snd t)).
  Notation tfd := (tfd L).
  Notation datT t := (data (tfd t) fnd (tww t) (thh t)).
  Notation tile := (Z * Z)%type.

  Definition ac (t : tile) : cellt -> Z := match FlowAccumulation (tww t) (thh t) (tfd t) fnd with Ok a => a | _ => fun _ => 0 end.
  Lemma ac_ok t : In t TL -> FlowAccumulation (tww t) (thh t) (tfd t) fnd = Ok (ac t) /\ good_area (tfd t) fnd (tww t) (thh t) (ac t) /\
    (forall c, datT t c -> ~ below_loop (tfd t) fnd (tww t) (thh t) c -> ac t c = 1 + zsum (fun d => if eb (tfd t) fnd (tww t) (thh t) d c then ac t d else 0) (dcells (tfd t) fnd (tww t) (thh t))).
  Proof.
    intros Ht. destruct (flow_acc_ok (tfd t) fnd (tww t) (thh t) (tcodes L fnd HL Hcodes HF t Ht)) as [a [E [G B]]]. unfold ac. rewrite E. auto.
  Qed.
  Lemma load_ok t : In t TL -> LoadFromEvict L fnd t = Ok (tfd t, ac t).
  Proof. intros Ht. unfold LoadFromEvict. rewrite HF. destruct (ac_ok t Ht) as [E _]. change ((do a <- FlowAccumulation (tww t) (thh t) (tfd t) fnd; Ok (tfd t, a)) = Ok (tfd t, ac t)). rewrite E. reflexivity. Qed.
  Definition fr (t : tile) : pjob := match FirstRound (tww t) (thh t) (tfd t) fnd (ed t) (ac t) with Ok j => j | _ => nojob end.

  Variables (m : retention) (limit : Z) (arrive : list (tile * pjob) -> list (tile * pjob)) (fs0 : pname -> option (cellt -> Z)).
  Hypothesis Harr : forall l, Permutation (arrive l) l.

  (** a loop that a followed path runs into is reported *)
  Theorem run_throws : (exists P, present L P /\ followed (tww (tl L P)) (thh (tl L P)) (ed (tl L P)) (lo L P) /\ trapped L fnd P) -> PAModel.run L fnd m limit arrive fs0 = Thrown.
  Proof.
    intros [P [HP [FO TR]]]. apply (trapped_loops L fnd HL Hcodes HF) in TR. destruct (present_tile L Hbw Hbh P HP) as [Ht _]. set (t := tl L P) in *.
    unfold PAModel.run. assert (E : forM (numbered TL) (PAModel.first_job L fnd m limit) (mkPW (fun _ _ => None) fs0, []) = Thrown); [|rewrite E; reflexivity].
    assert (TT : In t (map snd (numbered TL))) by (rewrite numbered_snd; exact Ht).
    assert (SUB : forall u, In u (map snd (numbered TL)) -> In u TL) by (intros u; rewrite numbered_snd; auto).
    generalize (mkPW (fun _ _ => None) fs0, @nil (tile * pjob)) as s. revert TT SUB. generalize (numbered TL) as l. induction l as [|[i u] l IH]; intros TT SUB s; [destruct TT|].
    cbn [forM]. assert (Hu : In u TL) by (apply SUB; left; reflexivity).
    assert (DI : PAModel.first_job L fnd m limit (i, u) s = Thrown \/ u <> t /\ exists s', PAModel.first_job L fnd m limit (i, u) s = Ok s').
    { unfold PAModel.first_job. destruct s as [wd js]. rewrite (load_ok u Hu). cbn [bind fst snd]. rewrite (sanity_ok _ _ _ _ (tcodes L fnd HL Hcodes HF u Hu)). cbn [bind].
      pose proof (first_total _ fnd _ _ (tcodes L fnd HL Hcodes HF u Hu) (tw1 L HL u Hu) (th2 L HL Hrows u Hu) (ed u) (ac u)) as NU.
      destruct (cell_eq_dec u t) as [EU|NE].
      - left. rewrite EU in *. rewrite (first_throws _ fnd _ _ (tcodes L fnd HL Hcodes HF t Hu) (tw1 L HL t Hu) (th2 L HL Hrows t Hu) _ _ _ FO TR). reflexivity.
      - destruct (FirstRound _ _ _ _ _ _) as [j| |]; [right|left; reflexivity|congruence]. split; [auto|]. eexists. reflexivity. }
    destruct DI as [->|[NE [s' ->]]]; [reflexivity|]. cbn [bind]. apply IH; [|intros v Hv; apply SUB; right; exact Hv]. destruct TT as [TT|TT]; [cbn in TT; congruence|exact TT].
  Qed.

  Hypothesis Hpinch : no_pinch L.
  Hypothesis Hseam : forall P, present L P -> at_seam L P -> ~ trapped L fnd P.
  Lemma fol_noloop t c : In t TL -> followed (tww t) (thh t) (ed t) c -> ~ loops (tfd t) fnd (tww t) (thh t) c.
  Proof.
    intros Ht F LP. apply (Hseam (gl L t c)).
    - apply (gl_present L Hbw Hbh t c Ht (proj1 F)).
    - apply followed_seam; auto.
    - apply loops_trapped; auto. exact (proj1 F).
  Qed.
  Lemma fr_ok t : In t TL -> FirstRound (tww t) (thh t) (tfd t) fnd (ed t) (ac t) = Ok (fr t) /\ pspec (tfd t) fnd (tww t) (thh t) (ed t) (ac t) (fr t).
  Proof.
    intros Ht. destruct (first_ok (tfd t) fnd (tww t) (thh t) (tcodes L fnd HL Hcodes HF t Ht) (tw1 L HL t Ht) (th2 L HL Hrows t Ht) (ed t) (ac t)) as [j [E S]].
    - intros c F. apply fol_noloop; auto.
    - unfold fr. rewrite E. auto.
  Qed.

  Definition sentp : list (tile * pjob) := map (fun t => (t, fr t)) TL.
  Lemma num_in it : In it (numbered TL) -> In (snd it) TL.
  Proof. intros I. rewrite <- (numbered_snd TL). apply in_map. exact I. Qed.
  Lemma first_round : exists wd, forM (numbered TL) (PAModel.first_job L fnd m limit) (mkPW (fun _ _ => None) fs0, []) = Ok (wd, sentp) /\
    (m = Retain -> forall it, In it (numbered TL) -> pw_store wd (fst it mod limit + 1) (snd it) = Some (tfd (snd it), ac (snd it))) /\
    (m = Cache -> forall t, In t TL -> pw_fs wd (Flowdirsdat t) = Some (fun c => tfd t (fst c) (snd c)) /\ pw_fs wd (Accumdat t) = Some (ac t)).
  Proof.
    assert (NDT : NoDup (map snd (numbered TL))) by (rewrite numbered_snd; apply tiles_NoDup).
    destruct (forM_inv (fun done (s : pworld * list (tile * pjob)) => snd s = map (fun t => (t, fr t)) (map snd done) /\
      (m = Retain -> forall it, In it done -> pw_store (fst s) (fst it mod limit + 1) (snd it) = Some (tfd (snd it), ac (snd it))) /\
      (m = Cache -> forall t, In t (map snd done) -> pw_fs (fst s) (Flowdirsdat t) = Some (fun c => tfd t (fst c) (snd c)) /\ pw_fs (fst s) (Accumdat t) = Some (ac t))) (PAModel.first_job L fnd m limit) (numbered TL))
      with (s := (mkPW (fun _ _ => None) fs0, @nil (tile * pjob))) as [[wd js] [E [A [B C]]]].
    - intros done [i t] rest [wd js] EN [A [B C]]. cbn [fst snd] in A, B, C.
      assert (Ht : In t TL) by (apply (num_in (i, t)); rewrite EN; apply in_app_iff; right; left; auto).
      unfold PAModel.first_job. rewrite (load_ok t Ht). cbn [bind fst snd]. rewrite (sanity_ok _ _ _ _ (tcodes L fnd HL Hcodes HF t Ht)). cbn [bind]. destruct (fr_ok t Ht) as [-> _]. cbn [bind].
      eexists. split; [reflexivity|]. cbn [fst snd]. split; [|split].
      + rewrite A, !map_app. reflexivity.
      + intros EM it Hit. subst m. cbn [pw_store]. unfold PAModel.SaveToRetain. apply in_app_iff in Hit. cbn [In] in Hit. destruct Hit as [Hit|[<-|[]]].
        * destruct (teqb (snd it) t) eqn:ET; [|rewrite andb_false_r; apply B; auto]. apply teqb_spec in ET. exfalso. rewrite EN, map_app in NDT. cbn [map snd] in NDT. apply NoDup_remove_2 in NDT.
          apply NDT, in_app_iff. left. rewrite <- ET. apply in_map. exact Hit.
        * cbn [fst snd]. rewrite Z.eqb_refl. replace (teqb t t) with true by (symmetry; apply teqb_spec; auto). reflexivity.
      + intros EM u Hu. subst m. cbn [pw_fs]. unfold PAModel.SaveToCache, pwrite. cbn [peqb fst snd]. rewrite map_app in Hu. cbn [map snd] in Hu. destruct (teqb u t) eqn:ET.
        * apply teqb_spec in ET. subst u. auto.
        * apply in_app_iff in Hu. cbn [In] in Hu. destruct Hu as [Hu|[Hu|[]]]; [apply C; auto|]. subst u. rewrite (proj2 (teqb_spec t t) eq_refl) in ET. discriminate.
    - split; [reflexivity|]. split; [intros _ it []|intros _ t []].
    - exists wd. rewrite E. cbn [fst snd] in *. rewrite numbered_snd in A, C. rewrite A. auto.
  Qed.
  Definition pjobs : Z -> Z -> pjob := PAModel.receive (arrive sentp).
  Lemma pjobs_ok t : In t TL -> pjobs (fst t) (snd t) = fr t.
  Proof.
    intros Ht. assert (SF : map fst sentp = TL) by (unfold sentp; rewrite map_map; cbn; apply map_id).
    assert (PM : Permutation (map fst (arrive sentp)) TL) by (rewrite <- SF; apply Permutation_map; apply Harr).
    destruct (receive_gen (arrive sentp) (fun _ _ => nojob)) as [A _].
    { eapply Permutation_NoDup; [apply Permutation_sym; exact PM|apply tiles_NoDup]. }
    apply A. eapply Permutation_in; [apply Permutation_sym, Harr|]. unfold sentp. apply in_map_iff. exists t. auto.
  Qed.
  Lemma Hjobs t : In t TL -> pspec (tfd t) fnd (tww t) (thh t) (ed t) (ac t) (pjobs (fst t) (snd t)).
  Proof. intros Ht. rewrite pjobs_ok by auto. apply fr_ok; auto. Qed.

  (** the tiles that are written *)
  Theorem run_accum : exists outp, PAModel.run L fnd m limit arrive fs0 = Ok outp /\
    (forall P, data (whole L fnd) fnd (W L) (PPFModel.H L) P -> ~ below_loop (whole L fnd) fnd (W L) (PPFModel.H L) P ->
       exists v, out_at L outp (fst P) (snd P) = Some v /\ upstream_count (whole L fnd) fnd (W L) (PPFModel.H L) P v) /\
    (forall P, present L P -> whole L fnd (fst P) (snd P) = fnd -> out_at L outp (fst P) (snd P) = Some (-1)) /\
    (forall tx ty, ~ In (tx, ty) TL -> outp tx ty = None).
  Proof.
    unfold PAModel.run. destruct first_round as [wd [-> [ST CA]]]. cbn [bind]. fold pjobs.
    destruct (calc_final L fnd HL Hcodes Hrows Hfits HF ac pjobs Hjobs) as [acc [ain [-> FIN]]]. cbn [bind].
    set (out_t := fun t o => forall c, o c = ac t c + zsum (fun s => if onb (tfd t) fnd (tww t) (thh t) (pos (tww t) (thh t) s) c then ain (t, s) else 0) (zrange 0 (Z.to_nat (plen (tww t) (thh t))))).
    assert (NDT : NoDup (map snd (numbered TL))) by (rewrite numbered_snd; apply tiles_NoDup).
    set (body := fun (it : Z * tile) (outp : Z -> Z -> option (cellt -> Z)) => _).
    set (flip := fun (t : tile) (o : cellt -> Z) => if flipV L then fun c => o (fst c, th L (snd t) - 1 - snd c) else o).
    destruct (forM_inv (fun done outp => (forall t, In t (map snd done) -> exists o, outp (fst t) (snd t) = Some (flip t o) /\ out_t t o) /\ (forall t, ~ In t (map snd done) -> outp (fst t) (snd t) = None))
      body (numbered TL)) with (s := fun _ _ : Z => @None (cellt -> Z)) as [outp [E [A B]]].
    - intros done [i t] rest outp EN [A B]. unfold body. cbn [snd].
      assert (Hi : In (i, t) (numbered TL)) by (rewrite EN; apply in_app_iff; right; left; auto). pose proof (num_in _ Hi) as Ht. cbn [snd] in Ht.
      assert (RE : PAModel.reload L fnd m limit (i, t) wd = Ok (tfd t, ac t)).
      { unfold PAModel.reload. destruct m.
        - apply load_ok; auto.
        - pose proof (ST eq_refl (i, t) Hi) as SS. cbn [fst snd] in SS. rewrite SS. auto.
        - destruct (CA eq_refl t Ht) as [-> ->]. reflexivity. }
      rewrite RE. cbn [bind fst snd].
      assert (PS : psize pjobs t = plen (tww t) (thh t)) by (unfold psize, job_of; apply (ps_nl _ _ _ _ _ _ _ (Hjobs t Ht))). rewrite PS.
      destruct (second_ok (tfd t) fnd (tww t) (thh t) (tcodes L fnd HL Hcodes HF t Ht) (tw1 L HL t Ht) (th2 L HL Hrows t Ht) (ac t) (plen (tww t) (thh t)) (fun s => ain (t, s))) as [o [-> HO]].
      { lia. }
      { intros s Hs NZ. apply (enters L fnd HL Hcodes Hrows Hfits HF Hpinch Hseam ac pjobs Hjobs acc ain FIN t s Ht Hs NZ). }
      cbn [bind]. unfold reorient. rewrite HF. cbn [bind]. fold (flip t o). eexists. split; [reflexivity|]. rewrite map_app. cbn [map snd]. split.
      + intros u Hu. apply in_app_iff in Hu. cbn [In] in Hu. destruct (cell_eq_dec u t) as [->|NE].
        * exists o. split; [unfold jset; apply gset_same|exact HO].
        * destruct (A u) as [o' [E' HO']]; [destruct Hu as [?|[?|[]]]; [auto|congruence]|]. exists o'. split; [|exact HO']. rewrite <- E'. unfold jset. apply gset_other. intros X. apply NE. destruct u, t. cbn in X. congruence.
      + intros u Hu. rewrite in_app_iff in Hu. cbn [In] in Hu. unfold jset. rewrite gset_other; [apply B; tauto|]. intros X. apply Hu. right. left. destruct u, t. cbn in X. congruence.
    - split; [intros t []|reflexivity].
    - rewrite numbered_snd in A, B. exists outp. split; [exact E|].
      assert (VAL : forall P, present L P -> out_at L outp (fst P) (snd P) = Some (FA L fnd ac ain P)).
      { intros P HP. destruct (present_tile L Hbw Hbh P HP) as [TP DP]. destruct (A _ TP) as [o [EO HO]]. unfold out_at. change (outp (col L (fst P)) (row L (snd P))) with (outp (fst (tl L P)) (snd (tl L P))). rewrite EO. f_equal.
        rewrite <- sc_place. unfold FA. rewrite <- HO. unfold sc, st, flip. rewrite HF. cbn [fst snd]. destruct (flipV L); [|reflexivity]. cbn [fst snd]. unfold lo. cbn [fst snd]. f_equal. f_equal. lia. }
      split; [|split; [|intros tx ty N; apply (B (tx, ty)); exact N]].
      + intros P D NB. exists (FA L fnd ac ain P). split; [apply VAL; apply (datG_present L fnd P D)|].
        apply (balance_count (whole L fnd) fnd (W L) (PPFModel.H L) (FA L fnd ac ain) Hcodes); auto. intros Q DQ NQ.
        apply (balance L fnd HL Hcodes Hrows Hfits HF Hpinch Hseam ac pjobs Hjobs acc ain FIN); auto. intros t c Ht Dc NBc. apply ac_ok; auto.
      + intros P HP EN. rewrite VAL by auto. f_equal. destruct (present_tile L Hbw Hbh P HP) as [TP DP]. unfold FA.
        assert (NT : tfd (tl L P) (fst (lo L P)) (snd (lo L P)) = fnd) by (rewrite (tfd_whole L fnd HL HF _ _ TP DP), gl_lo by auto; exact EN).
        destruct (ac_ok (tl L P) TP) as [_ [[_ [_ G]] _]]. rewrite (G (lo L P) DP NT). rewrite zsum_zero; [reflexivity|]. intros s Is. apply zrange_In in Is.
        destruct (onb _ _ _ _ _ _) eqn:O; [|reflexivity]. destruct (Z.eq_dec (ain (tl L P, s)) 0) as [|NZ]; [auto|]. exfalso.
        pose proof (plen_fits L HL Hrows Hfits (tl L P) TP) as PL.
        destruct (enters L fnd HL Hcodes Hrows Hfits HF Hpinch Hseam ac pjobs Hjobs acc ain FIN (tl L P) s TP ltac:(lia) NZ) as [_ [_ NLo]].
        apply (onb_iff _ _ _ _ (tw1 L HL _ TP) (th2 L HL Hrows _ TP) _ _ NLo) in O. destruct O as [Dp R]. pose proof (reach_dat _ _ _ _ _ _ R Dp) as [_ X]. contradiction.
  Qed.
End Top.
