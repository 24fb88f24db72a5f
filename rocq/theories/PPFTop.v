(** The whole program: both rounds, for every schedule. *)
From Coq Require Import ZArith List Lia Bool Permutation.
From Verif Require Import Base Res RasterSpec RasterFacts Kahn FlowModel FlowProofs PFModel PFProofs TraceFlood ZhouModel ZhouProofs PPFModel PPFSpec PPFTile PPFTile2 PPFGraph PPFMaster.
Open Scope Z_scope.

Lemma numbered_snd {A} (l : list A) : map snd (numbered l) = l.
Proof.
  unfold numbered. generalize 0 at 1. induction l as [|a l IH]; intros k; [reflexivity|]. cbn [length zrange combine map snd]. f_equal. apply IH.
Qed.
Lemma receive_gen js : forall f, NoDup (map fst js) ->
  (forall t j, In (t, j) js -> fold_left (fun jobs (a : (Z * Z) * job) => jset jobs (fst a) (snd a)) js f (fst t) (snd t) = j) /\
  (forall t, ~ In t (map fst js) -> fold_left (fun jobs (a : (Z * Z) * job) => jset jobs (fst a) (snd a)) js f (fst t) (snd t) = f (fst t) (snd t)).
Proof.
  induction js as [|[u k] js IH]; intros f ND; cbn [map fst fold_left snd]; [split; [intros t j []|reflexivity]|].
  cbn [map fst] in ND. apply NoDup_cons_iff in ND. destruct ND as [NI ND]. destruct (IH (jset f u k) ND) as [A B].
  assert (O : forall t, t <> u -> jset f u k (fst t) (snd t) = f (fst t) (snd t)).
  { intros t NE. unfold jset. apply gset_other. intros E. apply NE. destruct t, u. cbn in E. congruence. }
  split.
  - intros t j [E|Hin]; [|apply A; exact Hin]. injection E as <- <-. rewrite B by exact NI. unfold jset. apply gset_same.
  - intros t NI'. cbn [In] in NI'. rewrite B by tauto. apply O. intros ->. tauto.
Qed.

Lemma second_ok L t dem lab n job2 : (forall c, zdom (tw L (fst t)) (th L (snd t)) c -> 1 < lab c < n) ->
  exists o, SecondRound L t (dem, lab) n job2 = Ok o /\ forall c, zdom (tw L (fst t)) (th L (snd t)) c -> o c = Z.max (dem c) (job2 (lab c)).
Proof.
  intros HL. unfold SecondRound.
  destruct (forM_inv (fun done d => (forall c, In c done -> d c = Z.max (dem c) (job2 (lab c))) /\ (forall c, ~ In c done -> d c = dem c))
    (fun c d => if lab c >? 1 then if lab c <? n then Ok (if d c <? job2 (lab c) then cset d c (job2 (lab c)) else d) else Thrown else Ok d)
    (scan (tw L (fst t)) (th L (snd t)))) with (s := dem) as [o [E [A B]]].
  - intros done c rest d EL [A B]. pose proof (scan_NoDup (tw L (fst t)) (th L (snd t))) as ND. rewrite EL in ND. apply NoDup_remove_2 in ND.
    assert (NI : ~ In c done) by (intros X; apply ND, in_app_iff; auto).
    assert (IC : In c (scan (tw L (fst t)) (th L (snd t)))) by (rewrite EL; apply in_app_iff; right; left; auto).
    assert (DC : zdom (tw L (fst t)) (th L (snd t)) c) by (destruct c; apply scan_In in IC; exact IC).
    destruct (HL c DC) as [L1 L2]. destruct (Z.gtb_spec (lab c) 1); [|lia]. destruct (Z.ltb_spec (lab c) n); [|lia]. eexists. split; [reflexivity|].
    rewrite (B c NI). split.
    + intros c' Hc'. apply in_app_iff in Hc'. cbn [In] in Hc'. destruct (cell_eq_dec c' c) as [->|NE].
      * destruct (Z.ltb_spec (dem c) (job2 (lab c))); [rewrite cset_same; lia|rewrite (B c NI); lia].
      * assert (Hd : In c' done) by (destruct Hc' as [?|[?|[]]]; [auto|congruence]). destruct (dem c <? job2 (lab c)); [rewrite cset_other by auto|]; auto.
    + intros c' Hc'. rewrite in_app_iff in Hc'. cbn [In] in Hc'. destruct (dem c <? job2 (lab c)); [rewrite cset_other by (intros ->; tauto)|]; apply B; tauto.
  - split; [intros c []|auto].
  - exists o. split; [exact E|]. intros c Dc. apply A. destruct c. apply scan_In. exact Dc.
Qed.

Lemma prev_div b X : 0 < b -> X mod b = 0 -> (X - 1) / b = X / b - 1.
Proof. intros Hb E. pose proof (Z.div_mod X b ltac:(lia)). symmetry. apply (Z.div_unique _ _ _ (b - 1)); lia. Qed.
Lemma prev_same b X : 0 < b -> X mod b <> 0 -> (X - 1) / b = X / b.
Proof. intros Hb E. pose proof (Z.div_mod X b ltac:(lia)). pose proof (Z.mod_pos_bound X b Hb). symmetry. apply (Z.div_unique _ _ _ (X mod b - 1)); lia. Qed.
Lemma next_div b X : 0 < b -> X mod b = b - 1 -> (X + 1) / b = X / b + 1.
Proof. intros Hb E. pose proof (Z.div_mod X b ltac:(lia)). symmetry. apply (Z.div_unique _ _ _ 0); lia. Qed.
Lemma next_same b X : 0 < b -> X mod b <> b - 1 -> (X + 1) / b = X / b.
Proof. intros Hb E. pose proof (Z.div_mod X b ltac:(lia)). pose proof (Z.mod_pos_bound X b Hb). symmetry. apply (Z.div_unique _ _ _ (X mod b + 1)); lia. Qed.
Lemma last_iff n b X : 0 < b -> 0 <= X < n -> (X = n - 1 <-> X / b = ceil n b - 1 /\ X mod b = part n b (X / b) - 1).
Proof.
  intros Hb HX. pose proof (Z.div_mod X b ltac:(lia)). destruct (part_div n b X Hb HX) as [A B]. split.
  - intros E. assert (D : X / b = ceil n b - 1).
    { subst X. unfold ceil. replace (n + b - 1) with (n - 1 + 1 * b) by lia. rewrite Z.div_add by lia. lia. }
    split; [exact D|]. pose proof (part_last n b (X / b) Hb (proj1 A) D). lia.
  - intros [D E]. pose proof (part_last n b (X / b) Hb (proj1 A) D). lia.
Qed.
Lemma first_iff b X : 0 < b -> 0 <= X -> (X = 0 <-> X / b = 0 /\ X mod b = 0).
Proof.
  intros Hb HX. pose proof (Z.div_mod X b ltac:(lia)). split; [intros ->; rewrite Z.div_0_l, Z.mod_0_l by lia; auto|]. intros [D E]. rewrite D, E in H. lia.
Qed.
Lemma full_iff n b X : 0 < b -> 0 <= X < n -> X / b + 1 < ceil n b -> (X mod b = part n b (X / b) - 1 <-> X mod b = b - 1).
Proof. intros Hb HX D. destruct (part_div n b X Hb HX) as [A B]. rewrite (part_full n b (X / b)) by lia. reflexivity. Qed.

Section Top.
  Variable L : layout.
  Hypothesis HL : proper L.
  Let Hbw : 0 < bw L := proj1 (proj2 (proj2 HL)).
  Let Hbh : 0 < bh L := proj2 (proj2 (proj2 HL)).
  Definition r (t : Z * Z) : tile := match LoadFromEvict L t with Ok x => x | _ => mkT (fun _ => 0) (fun _ => 0) (fun _ _ => None) 0 end.
  Lemma load_ok t : In t (tiles L) -> LoadFromEvict L t = Ok (r t) /\ tile_spec (tw L (fst t)) (th L (snd t)) (touts L t) (files L (fst t) (snd t)) (r t).
  Proof.
    intros Ht. destruct (tile_ok (ties L (fst t) (snd t)) (tw L (fst t)) (th L (snd t)) (tile_edges L (fst t) (snd t)) (flipH L) (flipV L) (files L (fst t) (snd t))) as [x [E S]];
      [apply tw_pos; auto|apply th_pos; auto|]. unfold r, LoadFromEvict. rewrite E. auto.
  Qed.
  Variables (m : retention) (limit : Z) (tb : nat -> nat) (lowest : Z) (arrive : list ((Z * Z) * job) -> list ((Z * Z) * job)) (fs0 : fname -> option (cellt -> Z)).
  Hypothesis Harr : forall l, Permutation (arrive l) l.

  Definition sent : list ((Z * Z) * job) := map (fun t => (t, FirstRound L t (r t))) (tiles L).
  Lemma num_tiles it : In it (numbered (tiles L)) -> In (snd it) (tiles L).
  Proof. intros Hi. rewrite <- (numbered_snd (tiles L)). apply in_map. exact Hi. Qed.

  Lemma teqb_spec a b : teqb a b = true <-> a = b.
  Proof. unfold teqb. destruct a, b. cbn [fst snd]. rewrite andb_true_iff, !Z.eqb_eq. split; [intros [-> ->]; auto|intros E; injection E; auto]. Qed.
  Lemma first_round : exists wd, forM (numbered (tiles L)) (first_job L m limit) (mkW (fun _ _ => None) fs0, []) = Ok (wd, sent) /\
    (m = Retain -> forall it, In it (numbered (tiles L)) -> w_store wd (fst it mod limit + 1) (snd it) = Some (t_dem (r (snd it)), t_lab (r (snd it)))) /\
    (forall t, w_fs wd (Labelsdat t) = fs0 (Labelsdat t)).
  Proof.
    assert (NDT : NoDup (map snd (numbered (tiles L)))) by (rewrite numbered_snd; apply tiles_NoDup).
    destruct (forM_inv (fun done (s : world * list ((Z * Z) * job)) => snd s = map (fun t => (t, FirstRound L t (r t))) (map snd done) /\
      (m = Retain -> forall it, In it done -> w_store (fst s) (fst it mod limit + 1) (snd it) = Some (t_dem (r (snd it)), t_lab (r (snd it)))) /\
      (forall t, w_fs (fst s) (Labelsdat t) = fs0 (Labelsdat t))) (first_job L m limit) (numbered (tiles L))) with (s := (mkW (fun _ _ => None) fs0, @nil ((Z * Z) * job))) as [[wd js] [E [A [B C]]]].
    - intros done [i t] rest [wd js] EN [A [B C]]. cbn [fst snd] in A, B, C.
      assert (Ht : In t (tiles L)) by (apply (num_tiles (i, t)); rewrite EN; apply in_app_iff; right; left; auto).
      unfold first_job. destruct (load_ok t Ht) as [-> _]. cbn [bind]. eexists. split; [reflexivity|]. cbn [fst snd]. split; [|split].
      + rewrite A, !map_app. reflexivity.
      + intros EM it Hit. subst m. cbn [w_store]. unfold SaveToRetain. apply in_app_iff in Hit. cbn [In] in Hit. destruct Hit as [Hit|[<-|[]]].
        * destruct (teqb (snd it) t) eqn:ET; [|rewrite andb_false_r; apply B; auto]. apply teqb_spec in ET. exfalso. rewrite EN, map_app in NDT. cbn [map snd] in NDT. apply NoDup_remove_2 in NDT.
          apply NDT, in_app_iff. left. rewrite <- ET. apply in_map. exact Hit.
        * cbn [fst snd]. rewrite Z.eqb_refl. replace (teqb t t) with true by (symmetry; apply teqb_spec; auto). reflexivity.
      + intros u. destruct m; cbn [w_fs]; auto. unfold SaveToCache, fwrite. cbn [feqb]. apply C.
    - split; [reflexivity|]. split; [intros _ it []|reflexivity].
    - exists wd. rewrite E. cbn [fst snd] in *. rewrite numbered_snd in A. rewrite A. auto.
  Qed.
  Definition jobs : Z -> Z -> job := receive (arrive sent).
  Lemma sent_fst : map fst sent = tiles L.
  Proof. unfold sent. rewrite map_map. cbn. apply map_id. Qed.
  Lemma jobs_ok : (forall t, In t (tiles L) -> jobs (fst t) (snd t) = FirstRound L t (r t)) /\ (forall t, ~ In t (tiles L) -> jobs (fst t) (snd t) = nojob).
  Proof.
    assert (PM : Permutation (map fst (arrive sent)) (tiles L)) by (rewrite <- sent_fst; apply Permutation_map; apply Harr).
    destruct (receive_gen (arrive sent) (fun _ _ => nojob)) as [A B].
    { eapply Permutation_NoDup; [apply Permutation_sym; exact PM|apply tiles_NoDup]. }
    split.
    - intros t Ht. apply A. eapply Permutation_in; [apply Permutation_sym, Harr|]. unfold sent. apply in_map_iff. exists t. auto.
    - intros t Nt. apply (B t). intros X. apply Nt. eapply Permutation_in; [exact PM|exact X].
  Qed.

  Hypothesis Hmode : many L = false -> complete L.
  Hypothesis Hlow : forall x y, here L x y -> lowest <= mosaic L x y.

  Lemma minif a b t : (if a - t >=? b then b else a - t) = Z.min b (a - t).
  Proof. destruct (Z.geb_spec (a - t) b); lia. Qed.
  Lemma sc_place P : sc L P = place L (fst P) (snd P).
  Proof. unfold sc, st, place, tl, lo, col, row. cbn [fst snd]. unfold tw, th. rewrite !minif. reflexivity. Qed.
  Lemma E0_mosaic P : E0 L P = mosaic L (fst P) (snd P).
  Proof. unfold E0. rewrite sc_place. reflexivity. Qed.
  Lemma present_here P : present L P <-> here L (fst P) (snd P).
  Proof. reflexivity. Qed.

  Lemma mode' : many L = false -> forall tx ty, 0 <= tx < gridwidth L -> 0 <= ty < gridheight L -> nul L tx ty = false.
  Proof.
    intros EM tx ty Hx Hy. destruct (nul L tx ty) eqn:N; [|auto]. exfalso. pose proof (part_pos (W L) (bw L) tx Hbw Hx). pose proof (part_pos (PPFModel.H L) (bh L) ty Hbh Hy).
    destruct (part_inv (W L) (bw L) tx 0 Hbw Hx) as [A [B _]]; [lia|]. destruct (part_inv (PPFModel.H L) (bh L) ty 0 Hbh Hy) as [A' [B' _]]; [lia|].
    apply (Hmode EM (tx * bw L + 0) (ty * bh L + 0)). split; [split; auto|]. unfold col, row. rewrite B, B'. exact N.
  Qed.

  Theorem run_level : m <> Cache -> 0 < limit -> (exists x y, here L x y) -> exists outp, run L m limit tb lowest arrive fs0 = Ok outp /\
    (forall P, present L P -> exists v, out_at L outp (fst P) (snd P) = Some v /\ lev nb8 (present L) (outl L) (E0 L) P v) /\
    (forall tx ty, ~ In (tx, ty) (tiles L) -> outp tx ty = None).
  Proof.
    intros NC Lim [x0 [y0 HE]]. unfold run. destruct first_round as [wd [-> [ST _]]]. cbn [bind]. fold jobs.
    destruct jobs_ok as [J1 J2].
    destruct (calc_level L Hbw Hbh r (fun t Ht => proj2 (load_ok t Ht)) jobs J1) with (tb := tb) (lowest := lowest) as [offs [ge [-> LV]]].
    { intros tx ty _ _ N. change (jobs tx ty) with (jobs (fst (tx, ty)) (snd (tx, ty))). rewrite (J2 (tx, ty)); [reflexivity|]. rewrite tiles_In. cbn [fst snd]. intros [_ [_ X]]. congruence. }
    { exact mode'. }
    { intros P HP. rewrite E0_mosaic. apply Hlow. exact HP. }
    { exists (x0, y0). exact HE. }
    cbn [bind]. set (out_t := fun t o => forall c, tdom L t c -> o c = Z.max (t_dem (r t) c) (ge (offs (fst t) (snd t) + t_lab (r t) c))).
    assert (NDT : NoDup (map snd (numbered (tiles L)))) by (rewrite numbered_snd; apply tiles_NoDup).
    set (body := fun (it : Z * (Z * Z)) (outp : Z -> Z -> option (cellt -> Z)) => _).
    destruct (forM_inv (fun done outp => (forall t, In t (map snd done) -> exists o, outp (fst t) (snd t) = Some o /\ out_t t o) /\ (forall t, ~ In t (map snd done) -> outp (fst t) (snd t) = None))
      body (numbered (tiles L))) with (s := fun _ _ : Z => @None (cellt -> Z)) as [outp [E [A B]]].
    - intros done [i t] rest outp EN [A B]. unfold body. cbn [snd].
      assert (Hi : In (i, t) (numbered (tiles L))) by (rewrite EN; apply in_app_iff; right; left; auto). pose proof (num_tiles _ Hi) as Ht. cbn [snd] in Ht.
      destruct (load_ok t Ht) as [LD SP].
      assert (RE : reload L m limit (i, t) wd = Ok (t_dem (r t), t_lab (r t))).
      { unfold reload. destruct m; [rewrite LD; reflexivity| |contradiction]. pose proof (ST eq_refl (i, t) Hi) as SS. cbn [fst snd] in SS. rewrite SS. reflexivity. }
      rewrite RE. cbn [bind]. rewrite (J1 t Ht). destruct (fr_n L t (r t)) as [-> _].
      destruct (second_ok L t (t_dem (r t)) (t_lab (r t)) (t_n (r t)) (fun l => ge (offs (fst t) (snd t) + l))) as [o [-> HO]].
      { intros c Dc. pose proof (ts_lab _ _ _ _ _ SP c Dc). lia. }
      cbn [bind]. eexists. split; [reflexivity|]. rewrite map_app. cbn [map snd]. split.
      + intros u Hu. apply in_app_iff in Hu. cbn [In] in Hu. destruct (cell_eq_dec u t) as [->|NE].
        * exists o. split; [unfold jset; apply gset_same|exact HO].
        * destruct (A u) as [o' [E' HO']]; [destruct Hu as [?|[?|[]]]; [auto|congruence]|]. exists o'. split; [|exact HO']. rewrite <- E'. unfold jset. apply gset_other. intros X. apply NE. destruct u, t. cbn in X. congruence.
      + intros u Hu. rewrite in_app_iff in Hu. cbn [In] in Hu. unfold jset. rewrite gset_other; [apply B; tauto|]. intros X. apply Hu. right. left. destruct u, t. cbn in X. congruence.
    - split; [intros t []|reflexivity].
    - rewrite numbered_snd in A, B. exists outp. split; [exact E|]. split; [|intros tx ty N; apply (B (tx, ty)); exact N].
      intros P HP. destruct (present_tile L Hbw Hbh P HP) as [TP _]. destruct (A _ TP) as [o [EO HO]]. unfold out_at. change (outp (col L (fst P)) (row L (snd P))) with (outp (fst (tl L P)) (snd (tl L P))). rewrite EO.
      rewrite <- sc_place. eexists. split; [reflexivity|]. rewrite (HO (sc L P)) by (apply sc_dom; auto). apply LV. exact HP.
  Qed.

  (** ** The outlets, in words *)
  Lemma leaves_iff P : present L P -> (outl L P <-> leaves L (fst P) (snd P)).
  Proof.
    intros HP. rewrite (out_edge L Hbw Hbh P). destruct P as [X Y]. cbn [fst snd tl lo]. cbv zeta. cbn [e_top e_bot e_left e_right tile_edges].
    pose proof HP as [[RX RY] NP]. cbn [fst snd] in RX, RY, NP.
    destruct (part_div (W L) (bw L) X Hbw RX) as [GX DX]. destruct (part_div (PPFModel.H L) (bh L) Y Hbh RY) as [GY DY].
    change (ceil (W L) (bw L)) with (gridwidth L) in *. change (ceil (PPFModel.H L) (bh L)) with (gridheight L) in *.
    pose proof (last_iff (W L) (bw L) X Hbw RX) as LX. pose proof (last_iff (PPFModel.H L) (bh L) Y Hbh RY) as LY. pose proof (first_iff (bw L) X Hbw (proj1 RX)) as FX. pose proof (first_iff (bh L) Y Hbh (proj1 RY)) as FY.
    pose proof (full_iff (W L) (bw L) X Hbw RX) as UX. pose proof (full_iff (PPFModel.H L) (bh L) Y Hbh RY) as UY.
    change (ceil (W L) (bw L)) with (gridwidth L) in *. change (ceil (PPFModel.H L) (bh L)) with (gridheight L) in *.
    change (part (W L) (bw L) (X / bw L)) with (tw L (X / bw L)) in *. change (part (PPFModel.H L) (bh L) (Y / bh L)) with (th L (Y / bh L)) in *.
    assert (GE : forall z, (z >? 0) = true <-> 0 < z) by (intros z; apply Z.gtb_lt).
    split.
    - intros [_ [[E D]|[[E D]|[[E D]|[E D]]]]]; apply orb_true_iff in E; destruct E as [E|E]; try apply Z.eqb_eq in E; try (left; split; [split; assumption|]; tauto);
        right; rewrite !andb_true_iff, !GE, ?Z.ltb_lt in E; destruct E as [[[_ E1] E2] E3].
      + exists X, (Y - 1). pose proof (prev_div (bh L) Y Hbh D) as PD. assert (Y <> 0) by (rewrite FY; clear - E1; lia). unfold missing, col, row, in_raster, adjacent. rewrite PD. split; [split; [clear LX LY FX FY UX UY; lia|exact E3]|]. clear LX LY FX FY UX UY; split; [lia|split; [lia|clear; lia]].
      + exists X, (Y + 1). pose proof (next_div (bh L) Y Hbh (proj1 (UY E1) D)) as PD. assert (Y <> PPFModel.H L - 1) by (rewrite LY; clear - E1; lia). unfold missing, col, row, in_raster, adjacent. rewrite PD. split; [split; [clear LX LY FX FY UX UY; lia|exact E3]|]. clear LX LY FX FY UX UY; split; [lia|split; [lia|clear; lia]].
      + exists (X - 1), Y. pose proof (prev_div (bw L) X Hbw D) as PD. assert (X <> 0) by (rewrite FX; clear - E2; lia). unfold missing, col, row, in_raster, adjacent. rewrite PD. split; [split; [clear LX LY FX FY UX UY; lia|exact E3]|]. clear LX LY FX FY UX UY; split; [lia|split; [lia|clear; lia]].
      + exists (X + 1), Y. pose proof (next_div (bw L) X Hbw (proj1 (UX E2) D)) as PD. assert (X <> W L - 1) by (rewrite LX; clear - E2; lia). unfold missing, col, row, in_raster, adjacent. rewrite PD. split; [split; [clear LX LY FX FY UX UY; lia|exact E3]|]. clear LX LY FX FY UX UY; split; [lia|split; [lia|clear; lia]].
    - intros HV. split; [exact HP|]. destruct HV as [[_ OE]|[x' [y' [[[MX MY] MN] [CX [CY AD]]]]]].
      + destruct OE as [E|[E|[E|E]]].
        * right. right. left. apply FX in E. destruct E as [E1 E2]. rewrite E1. rewrite orb_true_r. auto.
        * left. apply FY in E. destruct E as [E1 E2]. rewrite E1. rewrite orb_true_r. auto.
        * right. right. right. apply LX in E. destruct E as [E1 E2]. rewrite E1 at 3. rewrite Z.eqb_refl, orb_true_r. auto.
        * right. left. apply LY in E. destruct E as [E1 E2]. rewrite E1 at 3. rewrite Z.eqb_refl, orb_true_r. auto.
      + unfold col, row, adjacent in *.
        assert (EM : many L = true) by (apply not_false_iff_true; intros EM; apply (Hmode EM x' y'); split; [split; assumption|exact MN]).
        rewrite EM. assert (CA : x' = X /\ y' = Y - 1 \/ x' = X /\ y' = Y + 1 \/ x' = X - 1 /\ y' = Y \/ x' = X + 1 /\ y' = Y) by (clear - AD; lia).
        destruct (part_div (W L) (bw L) x' Hbw MX) as [GX' _]. destruct (part_div (PPFModel.H L) (bh L) y' Hbh MY) as [GY' _]. change (ceil (W L) (bw L)) with (gridwidth L) in *. change (ceil (PPFModel.H L) (bh L)) with (gridheight L) in *.
        destruct CA as [[-> ->]|[[-> ->]|[[-> ->]|[-> ->]]]].
        * destruct (Z.eq_dec (Y mod bh L) 0) as [Z0|NZ]; [|rewrite (prev_same (bh L) Y Hbh NZ) in MN; congruence]. rewrite (prev_div (bh L) Y Hbh Z0) in *. left. split; [|exact Z0].
          apply orb_true_iff. left. rewrite !andb_true_iff, !GE. auto.
        * destruct (Z.eq_dec (Y mod bh L) (bh L - 1)) as [Z0|NZ]; [|rewrite (next_same (bh L) Y Hbh NZ) in MN; congruence]. rewrite (next_div (bh L) Y Hbh Z0) in *. right. left. split; [|apply UY; [lia|exact Z0]].
          apply orb_true_iff. left. rewrite !andb_true_iff, !GE, Z.ltb_lt. split; [split; [split; [auto|lia]|exact CX]|exact MN].
        * destruct (Z.eq_dec (X mod bw L) 0) as [Z0|NZ]; [|rewrite (prev_same (bw L) X Hbw NZ) in MN; congruence]. rewrite (prev_div (bw L) X Hbw Z0) in *. right. right. left. split; [|exact Z0].
          apply orb_true_iff. left. rewrite !andb_true_iff, !GE. auto.
        * destruct (Z.eq_dec (X mod bw L) (bw L - 1)) as [Z0|NZ]; [|rewrite (next_same (bw L) X Hbw NZ) in MN; congruence]. rewrite (next_div (bw L) X Hbw Z0) in *. right. right. right. split; [|apply UX; [lia|exact Z0]].
          apply orb_true_iff. left. rewrite !andb_true_iff, !GE, Z.ltb_lt. split; [split; [split; [auto|exact CY]|lia]|exact MN].
  Qed.

  Lemma esc_off z P : esc nb8 (present L) (outl L) (E0 L) z P <-> runs_off L z (fst P) (snd P).
  Proof.
    split.
    - induction 1 as [P HP OP Le|P Q HP Le N E IH]; rewrite E0_mosaic in Le.
      + apply ro_leaves; auto. apply leaves_iff; auto.
      + eapply ro_step; eauto.
    - intros R. destruct P as [x y]. cbn [fst snd] in R. induction R as [x y HP OP Le|x y x' y' HP Le N R IH].
      + apply esc_out; [exact HP|apply leaves_iff; auto|rewrite E0_mosaic; exact Le].
      + apply (esc_step _ _ _ _ _ (x, y) (x', y')); [exact HP|rewrite E0_mosaic; exact Le|exact N|exact IH].
  Qed.
  Lemma lev_off P v : lev nb8 (present L) (outl L) (E0 L) P v <-> off_level L (fst P) (snd P) v.
  Proof. unfold lev, off_level. split; intros [A B]; (split; [apply esc_off; exact A|intros z' Hz; apply B, esc_off; exact Hz]). Qed.

  Theorem run_off : m <> Cache -> 0 < limit -> (exists x y, here L x y) -> exists outp, run L m limit tb lowest arrive fs0 = Ok outp /\
    (forall x y, here L x y -> exists v, out_at L outp x y = Some v /\ off_level L x y v) /\ (forall x y, missing L x y -> out_at L outp x y = None).
  Proof.
    intros A B C. destruct (run_level A B C) as [outp [E [F G]]]. exists outp. split; [exact E|]. split.
    - intros x y HP. destruct (F (x, y) HP) as [v [Ev Lv]]. exists v. split; [exact Ev|]. apply lev_off in Lv. exact Lv.
    - intros x y [_ MN]. unfold out_at. rewrite G; [reflexivity|]. rewrite tiles_In. cbn [fst snd]. unfold col, row in MN. intros [_ [_ X]]. unfold col, row in X. congruence.
  Qed.

  (** With a cache directory the second round cannot read the labels back. *)
  Theorem run_cache : m = Cache -> (exists x y, here L x y) -> (forall t, fs0 (Labelsdat t) = None) -> run L m limit tb lowest arrive fs0 = Thrown.
  Proof.
    intros EM [x0 [y0 HE]] NF. unfold run. destruct first_round as [wd [-> [_ FS]]]. cbn [bind]. fold jobs. destruct jobs_ok as [J1 J2].
    destruct (calc_level L Hbw Hbh r (fun t Ht => proj2 (load_ok t Ht)) jobs J1) with (tb := tb) (lowest := lowest) as [offs [ge [-> LV]]].
    { intros tx ty _ _ N. change (jobs tx ty) with (jobs (fst (tx, ty)) (snd (tx, ty))). rewrite (J2 (tx, ty)); [reflexivity|]. rewrite tiles_In. cbn [fst snd]. intros [_ [_ X]]. congruence. }
    { exact mode'. }
    { intros P HP. rewrite E0_mosaic. apply Hlow. exact HP. }
    { exists (x0, y0). exact HE. }
    cbn [bind]. pose proof (numbered_snd (tiles L)) as NS. destruct (present_tile L Hbw Hbh (x0, y0) HE) as [TP _].
    destruct (numbered (tiles L)) as [|[i t] q]; [cbn in NS; rewrite <- NS in TP; destruct TP|]. cbn [forM bind reload]. subst m. cbn [reload snd]. rewrite (FS t), (NF t). destruct (w_fs wd (Demdat t)); reflexivity.
  Qed.
End Top.

(** Without missing tiles water leaves at the border only. *)
Lemma off_drains L : complete L -> forall z x y, runs_off L z x y <-> drains D8 (W L) (PPFModel.H L) (mosaic L) z x y.
Proof.
  intros HC z x y. split.
  - induction 1 as [x y [R N] [OE|[x' [y' [M _]]]] Le|x y x' y' [R N] Le A D IH]; [apply drains_edge; auto|destruct (HC _ _ M)|eapply drains_step; eauto].
  - assert (HR : forall x y, in_raster (W L) (PPFModel.H L) x y -> here L x y).
    { intros a b R. split; [exact R|]. destruct (nul L (col L a) (row L b)) eqn:N; [destruct (HC a b); split; assumption|reflexivity]. }
    induction 1 as [x y OE Le|x y x' y' R Le A D IH]; [apply ro_leaves; auto; [apply HR, OE|left; auto]|eapply ro_step; eauto].
Qed.
