From Coq Require Import ZArith List Lia Bool Permutation QArith Qcanon Relations.
From Verif Require Import Base Res Kahn RasterSpec RasterFacts ArrProofs3 FlowModel FlowSpec FlowProofs FAModel FASpec.
Open Scope Z_scope.

Lemma posq_iff q : posq q = true <-> (0 < q)%Qc.
Proof. unfold posq. destruct (Qclt_le_dec 0 q) as [H|H]; split; intros; auto; try discriminate. exfalso. exact (Qclt_not_le _ _ H0 H). Qed.
Lemma posq_false q : posq q = false <-> (q <= 0)%Qc.
Proof. unfold posq. destruct (Qclt_le_dec 0 q) as [H|H]; split; intros; auto; try discriminate. exfalso. exact (Qclt_not_le _ _ H H0). Qed.
Lemma eqq_iff a b : eqq a b = true <-> a = b.
Proof. unfold eqq. destruct (Qc_eq_dec a b); split; intros; congruence. Qed.
Lemma eqq_false a b : eqq a b = false <-> a <> b.
Proof. rewrite <- eqq_iff. destruct (eqq a b); split; intros; congruence. Qed.

Lemma nshift8_eq w n : (1 <= n <= 8)%nat -> nshift8 w n = dy D8 n * w + dx D8 n.
Proof.
  intros H. do 9 (destruct n as [|n]; [unfold nshift8, dx, dy; cbn [nth d8x d8y]; lia|]). lia.
Qed.

Lemma kwhile_sim {W : Type} (add : Qc -> Qc -> Qc) (out : Z -> list (Z * W)) g hh
  (body : Z -> fstate -> res fstate) (V : list Z) (out_V : forall d m, In d V -> edge out d m -> In m V) :
  (forall c s s', In c V -> keq s s' -> exists s2, body c s = Ok s2 /\ keq s2 (kbody Z.eqb add out g hh c s')) ->
  forall fuel i s s', keq s s' -> (forall m, In m (k_q s') -> In m V) ->
  match while_pop kpop (kbody Z.eqb add out g hh) fuel i s' with
  | Some t' => exists t, whileR kpop body fuel i s = Some (Ok t) /\ keq t t'
  | None => whileR kpop body fuel i s = None
  end.
Proof.
  intros Hb.
  assert (Hqb : forall c s, (forall m, In m (k_q s) -> In m V) -> In c V ->
     forall m, In m (k_q (kbody Z.eqb add out g hh c s)) -> In m V).
  { intros c s Hq Hc m. unfold kbody.
    assert (G : forall (es : list (Z * W)) s0, (forall e, In e es -> In (fst e) V) -> (forall m, In m (k_q s0) -> In m V) ->
      forall m, In m (k_q (fold_left (relax Z.eqb add g c (k_val s c)) es s0)) -> In m V).
    { induction es as [|e es IH]; intros s0 He H0 m' Hm'; cbn [fold_left] in Hm'; [auto|].
      apply (IH (relax Z.eqb add g c (k_val s c) s0 e)); auto.
      - intros e' He'. apply He. right; auto.
      - intros m1. unfold relax. cbn [k_q]. destruct (_ =? 0); [|auto]. rewrite in_app_iff. intros [?|[<-|[]]]; [auto|].
        apply He. left; auto. }
    apply G; [|exact Hq]. intros [m' u] He. cbn [fst]. apply (out_V c m' Hc). exists u. auto. }
  induction fuel as [|f IH]; intros i s s' HE Hq; pose proof HE as [E1 [E2 E3]]; cbn [whileR while_pop].
  - unfold kpop. rewrite E3. destruct (k_q s') as [|c q]; [|reflexivity]. exists s. auto.
  - assert (P1 : kpop i s' = match k_q s' with [] => None | c :: q => Some (c, mkK (k_dep s') (k_val s') q) end) by reflexivity.
    assert (P2 : kpop i s = match k_q s' with [] => None | c :: q => Some (c, mkK (k_dep s) (k_val s) q) end) by (unfold kpop; rewrite E3; reflexivity).
    rewrite P1, P2. clear P1 P2. destruct (k_q s') as [|c q] eqn:Eq; [exists s; auto|].
    assert (Hc : In c V) by (apply Hq; left; auto).
    destruct (Hb c (mkK (k_dep s) (k_val s) q) (mkK (k_dep s') (k_val s') q) Hc) as [s2 [Es2 Hs2]].
    { split; [auto|split; auto]. }
    rewrite Es2. apply IH; [exact Hs2|]. apply Hqb; [|exact Hc]. cbn [k_q]. intros m Hm. apply Hq. right; auto.
Qed.

Section FA.
  Variables (w h : Z) (p : Z -> nat -> Qc) (nd : Qc).
  Hypothesis Hw : 0 <= w.
  Hypothesis Hh : 0 <= h.
  Hypothesis HQ : quiet_border w h p nd.
  Let sz := w * h.

  Definition dat (i : Z) : bool := (0 <=? i) && (i <? sz) && negb (eqq (p i 0%nat) nd).
  Definition outs (i : Z) : list (Z * Qc) :=
    if dat i then flat_map (fun n => if posq (p i n) && dat (i + nshift8 w n) then [(i + nshift8 w n, p i n)] else []) (dirs D8) else [].
  Definition VV : list Z := filter dat (zrange 0 (Z.to_nat sz)).
  Definition cellof (i : Z) : Z * Z := (i mod w, i / w).

  Lemma sz_nonneg : 0 <= sz. Proof. unfold sz. nia. Qed.
  Lemma dat_iff i : dat i = true <-> 0 <= i < sz /\ p i 0%nat <> nd.
  Proof. unfold dat. rewrite !andb_true_iff, negb_true_iff, eqq_false, Z.leb_le, Z.ltb_lt. tauto. Qed.
  Lemma VV_In i : In i VV <-> dat i = true.
  Proof.
    unfold VV. rewrite filter_In, zrange_In. pose proof sz_nonneg. split; [tauto|]. intros D. split; [|auto]. apply dat_iff in D. lia.
  Qed.
  Lemma VV_NoDup : NoDup VV.
  Proof. apply NoDup_filter, zrange_NoDup. Qed.

  Lemma at_range c : in_raster w h (fst c) (snd c) -> 0 <= at_ w c < sz.
  Proof. intros [H1 H2]. unfold at_, sz. nia. Qed.
  Lemma cellof_at c : in_raster w h (fst c) (snd c) -> cellof (at_ w c) = c.
  Proof.
    intros [H1 H2]. destruct c as [x y]. unfold cellof, at_. cbn [fst snd] in *. f_equal.
    - rewrite Z.add_comm, Z.mod_add by lia. apply Z.mod_small. lia.
    - rewrite Z.add_comm, Z.div_add by lia. rewrite Z.div_small by lia. lia.
  Qed.
  Lemma at_cellof i : 0 <= i < sz -> at_ w (cellof i) = i /\ in_raster w h (fst (cellof i)) (snd (cellof i)).
  Proof.
    intros Hi. assert (0 < w) by (unfold sz in Hi; nia). unfold at_, cellof, in_raster. cbn [fst snd].
    pose proof (Z.div_mod i w ltac:(lia)). pose proof (Z.mod_pos_bound i w ltac:(lia)).
    split; [lia|]. split; [lia|]. split; [apply Z.div_pos; lia|]. apply Z.div_lt_upper_bound; [lia|]. exact (proj2 Hi).
  Qed.
  Lemma at_inj c d : in_raster w h (fst c) (snd c) -> in_raster w h (fst d) (snd d) -> at_ w c = at_ w d -> c = d.
  Proof. intros Hc Hd E. rewrite <- (cellof_at c Hc), <- (cellof_at d Hd), E. reflexivity. Qed.
  Lemma has_data_dat c : in_raster w h (fst c) (snd c) -> (has_data w h p nd c <-> dat (at_ w c) = true).
  Proof. intros Hc. rewrite dat_iff. pose proof (at_range c Hc). unfold has_data. tauto. Qed.
  Lemma has_data_VV c : has_data w h p nd c -> In (at_ w c) VV.
  Proof. intros Hc. apply VV_In. apply has_data_dat; [apply Hc|auto]. Qed.
  Lemma VV_has_data i : In i VV -> has_data w h p nd (cellof i) /\ at_ w (cellof i) = i.
  Proof.
    rewrite VV_In, dat_iff. intros [H1 H2]. destruct (at_cellof i H1) as [E H3]. split; [|auto]. split; [auto|]. rewrite E. auto.
  Qed.

  (** a positive proportion at a data cell means the cell is interior *)
  Lemma pos_interior c n : has_data w h p nd c -> (1 <= n <= 8)%nat -> posq (p (at_ w c) n) = true -> ~ on_edge w h (fst c) (snd c).
  Proof.
    intros [Hc Hd] Hn Hp He. pose proof (HQ c n He Hd Hn) as C. apply posq_false in C. congruence.
  Qed.
  Definition nb (c : Z * Z) (n : nat) : Z * Z := (fst c + dx D8 n, snd c + dy D8 n).
  Lemma at_nb c n : (1 <= n <= 8)%nat -> at_ w (nb c n) = at_ w c + nshift8 w n.
  Proof. intros Hn. rewrite nshift8_eq by auto. unfold at_, nb. cbn [fst snd]. lia. Qed.
  Lemma pos_nb c n : has_data w h p nd c -> (1 <= n <= 8)%nat -> posq (p (at_ w c) n) = true -> in_raster w h (fst (nb c n)) (snd (nb c n)).
  Proof. intros Hc Hn Hp. apply interior_nbr; [apply Hc|eapply pos_interior; eauto]. Qed.

  Lemma toward_nb n c d : (1 <= n <= 8)%nat -> (toward (Z.of_nat n) (fst c) (snd c) (fst d) (snd d) <-> d = nb c n).
  Proof.
    intros Hn. rewrite toward_iff, Nat2Z.id. unfold nb. destruct d as [a b]. cbn [fst snd]. split.
    - intros [_ [-> ->]]. reflexivity.
    - intros E. inversion E. split; [lia|auto].
  Qed.

  Lemma sends_iff c n d : has_data w h p nd c -> has_data w h p nd d ->
    (sends w h p nd c n d <-> In n (dirs D8) /\ posq (p (at_ w c) n) = true /\ at_ w c + nshift8 w n = at_ w d).
  Proof.
    intros Hc Hd. unfold sends. rewrite dirs_In. cbn [nmax]. split.
    - intros [_ [_ [Hn [T Hp]]]]. split; [auto|]. apply posq_iff in Hp. split; [auto|].
      apply toward_nb in T; [|auto]. rewrite T, at_nb by auto. reflexivity.
    - intros [Hn [Hp E]]. split; [auto|]. split; [auto|]. split; [auto|]. split; [|apply posq_iff; auto].
      apply toward_nb; [auto|]. apply at_inj; [apply Hd|apply pos_nb; auto|]. rewrite at_nb by auto. auto.
  Qed.

  Lemma edge_feeds c d : has_data w h p nd c -> has_data w h p nd d -> (edge outs (at_ w c) (at_ w d) <-> feeds w h p nd c d).
  Proof.
    intros Hc Hd. unfold edge, feeds, outs.
    rewrite (proj1 (has_data_dat c (proj1 Hc)) Hc). split.
    - intros [q Hq]. apply in_flat_map in Hq. destruct Hq as [n [Hn H]].
      destruct (posq (p (at_ w c) n) && dat (at_ w c + nshift8 w n)) eqn:B; [|destruct H].
      destruct H as [E|[]]. apply andb_true_iff in B. exists n. apply sends_iff; auto. split; [auto|]. split; [tauto|].
      congruence.
    - intros [n Hs]. apply sends_iff in Hs; auto. destruct Hs as [Hn [Hp E]]. exists (p (at_ w c) n).
      apply in_flat_map. exists n. split; [auto|]. rewrite Hp, E.
      rewrite (proj1 (has_data_dat d (proj1 Hd)) Hd). cbn. auto.
  Qed.

  Lemma outs_V d m : In d VV -> edge outs d m -> In m VV.
  Proof.
    intros Hd [q Hq]. unfold outs in Hq. apply VV_In in Hd. rewrite Hd in Hq. apply in_flat_map in Hq.
    destruct Hq as [n [Hn H]]. destruct (posq (p d n) && dat (d + nshift8 w n)) eqn:B; [|destruct H].
    destruct H as [E|[]]. inversion E; subst. apply andb_true_iff in B. apply VV_In. tauto.
  Qed.

  Lemma reach_feeds c d : has_data w h p nd c -> reach outs (at_ w c) (at_ w d) -> in_raster w h (fst d) (snd d) ->
    clos_refl_trans _ (feeds w h p nd) c d.
  Proof.
    intros Hc Hr. remember (at_ w c) as i. remember (at_ w d) as j. revert c d Heqi Heqj Hc.
    induction Hr as [v|v m k Hr IH He]; intros c d E1 E2 Hc Hd.
    - replace d with c; [apply rt_refl|]. apply at_inj; [apply Hc|auto|congruence].
    - subst. assert (Hv : In (at_ w c) VV) by (apply has_data_VV; auto).
      assert (Hm : In m VV) by (eapply reach_V; eauto using outs_V).
      pose proof (outs_V m (at_ w d) Hm He) as Hdv.
      destruct (VV_has_data m Hm) as [Hmd Em].
      assert (Hdd : has_data w h p nd d) by (apply has_data_dat; [auto|apply VV_In; auto]).
      eapply rt_trans; [apply (IH c (cellof m)); auto; apply Hmd|]. apply rt_step.
      apply edge_feeds; auto. rewrite Em. auto.
  Qed.
  Lemma feeds_reach c d : clos_refl_trans _ (feeds w h p nd) c d -> has_data w h p nd c -> reach outs (at_ w c) (at_ w d) /\ has_data w h p nd d.
  Proof.
    intros H. apply clos_rt_rtn1 in H. induction H as [|m d H1 H2 IH]; intros Hc; [split; [constructor|auto]|].
    destruct (IH Hc) as [R Hm].
    assert (Hd : has_data w h p nd d) by (destruct H1 as [n Hs]; apply Hs). split; [|auto].
    eapply reach_step; [exact R|]. apply edge_feeds; auto.
  Qed.

  Lemma loop_iff c : has_data w h p nd c -> (loop_upstream outs VV (at_ w c) <-> downstream_of_loop w h p nd c).
  Proof.
    intros Hc. unfold loop_upstream, downstream_of_loop, on_cycle, on_loop. split.
    - intros [v [Hv [[d [R1 E]] R2]]]. destruct (VV_has_data v Hv) as [Hvd Ev].
      assert (HdV : In d VV) by (eapply reach_V; eauto using outs_V).
      destruct (VV_has_data d HdV) as [Hdd Ed].
      exists (cellof v). split.
      + apply clos_rt_t with (y := cellof d).
        * apply reach_feeds; [auto|rewrite Ev, Ed; auto|apply Hdd].
        * constructor. apply edge_feeds; auto. rewrite Ev, Ed. auto.
      + apply reach_feeds; [auto|rewrite Ev; auto|apply Hc].
    - intros [l [L R]]. apply clos_trans_tn1 in L.
      assert (HL : exists d, clos_refl_trans _ (feeds w h p nd) l d /\ feeds w h p nd d l).
      { inversion L as [H|d ? H1 H2]; subst; [exists l; split; [apply rt_refl|auto]|].
        exists d. split; [apply clos_tn1_trans in H2; clear - H2; induction H2; [apply rt_step; auto|eapply rt_trans; eauto]|auto]. }
      destruct HL as [d [R1 F]].
      assert (Hl : has_data w h p nd l) by (destruct F as [n Hs]; apply Hs).
      assert (Hd : has_data w h p nd d) by (destruct F as [n Hs]; apply Hs).
      exists (at_ w l). split; [apply has_data_VV; auto|]. split.
      + exists (at_ w d). split; [apply feeds_reach; auto|apply edge_feeds; auto].
      + apply feeds_reach; auto.
  Qed.

  (** *** the dependency loop *)
  Lemma interior_In i : In i (interior_cells w h) <-> exists x y, i = y * w + x /\ 1 <= x < w - 1 /\ 1 <= y < h - 1.
  Proof.
    unfold interior_cells. rewrite in_flat_map. split.
    - intros [y [Hy H]]. apply in_map_iff in H. destruct H as [x [E Hx]]. rewrite zrange_In in *. exists x, y. split; [auto|lia].
    - intros [x [y [E [Hx Hy]]]]. exists y. rewrite zrange_In. split; [lia|]. apply in_map_iff. exists x. rewrite zrange_In. split; [auto|lia].
  Qed.
  Lemma interior_raster x y : 1 <= x < w - 1 -> 1 <= y < h - 1 -> in_raster w h x y /\ ~ on_edge w h x y.
  Proof. unfold on_edge, in_raster. lia. Qed.
  Lemma interior_NoDup : NoDup (interior_cells w h).
  Proof.
    unfold interior_cells. apply flat_map_NoDup; [apply zrange_NoDup| |].
    - intros y _. apply FinFun.Injective_map_NoDup; [intros a b E; lia|apply zrange_NoDup].
    - intros y y' c Hy Hy' H H'. apply in_map_iff in H. apply in_map_iff in H'. destruct H as [a [<- Ha]], H' as [a' [E Ha']].
      rewrite zrange_In in *.
      assert (E2 : (a, y) = (a', y')); [|congruence].
      apply at_inj; cbn [fst snd]; [unfold in_raster; lia|unfold in_raster; lia|]. unfold at_. cbn [fst snd]. lia.
  Qed.

  Definition pts (i m : Z) : nat :=
    if dat i then length (filter (fun n => posq (p i n) && (i + nshift8 w n =? m)) (dirs D8)) else 0%nat.
  Fixpoint ptsum (L : list Z) (m : Z) : nat := match L with [] => 0%nat | i :: L' => (pts i m + ptsum L' m)%nat end.

  Lemma pts_cnt i m : dat m = true -> pts i m = cnt Z.eqb m (outs i).
  Proof.
    intros Hm. unfold pts, outs, cnt. destruct (dat i); [|reflexivity].
    generalize (dirs D8) as l. induction l as [|n l IH]; [reflexivity|]. cbn [filter flat_map].
    destruct (posq (p i n)); cbn [andb]; [|exact IH].
    destruct (Z.eqb_spec (i + nshift8 w n) m) as [->|Hn].
    - rewrite Hm. cbn [app filter fst length]. rewrite Z.eqb_refl. cbn [length]. rewrite IH. reflexivity.
    - destruct (dat (i + nshift8 w n)); cbn [app filter fst]; [|exact IH].
      destruct (Z.eqb_spec (i + nshift8 w n) m); [congruence|]. exact IH.
  Qed.

  Lemma fa_deps_ok : exists deps, fa_deps sz w h p nd = Ok deps /\ forall m, deps m = Z.of_nat (ptsum (interior_cells w h) m).
  Proof.
    unfold fa_deps.
    destruct (forM_inv (fun done deps => forall m, deps m = Z.of_nat (ptsum done m))
      (fun ci deps => do b <- isND sz p nd ci; if b then Ok deps else forM (dirs D8) (fa_dep_dir sz w p ci) deps) (interior_cells w h))
      with (s := fun _ : Z => 0) as [deps [E H]]; [|intros; reflexivity|exists deps; auto].
    intros done i rest deps Eo Hdeps.
    assert (Hi : In i (interior_cells w h)) by (rewrite Eo; apply in_app_iff; right; left; auto).
    apply interior_In in Hi. destruct Hi as [x [y [Ei [Hx Hy]]]].
    destruct (interior_raster x y Hx Hy) as [Hin Hne].
    assert (Ec : i = at_ w (x, y)) by (unfold at_; cbn [fst snd]; exact Ei).
    pose proof (at_range (x, y) Hin) as Hr. rewrite <- Ec in Hr.
    assert (Hpt : forall m, ptsum (done ++ [i]) m = (ptsum done m + pts i m)%nat).
    { intros m. clear. induction done as [|a l IH]; cbn [app ptsum]; [lia|]. rewrite IH. lia. }
    unfold isND, getIN. replace ((0 <=? i) && (i <? sz)) with true by (symmetry; apply andb_true_iff; rewrite Z.leb_le, Z.ltb_lt; lia).
    cbn [bind]. destruct (eqq (p i 0%nat) nd) eqn:En.
    - exists deps. split; [auto|]. intros m. rewrite Hpt, Hdeps. unfold pts.
      replace (dat i) with false by (symmetry; unfold dat; rewrite En, andb_false_r; auto). lia.
    - assert (Di : dat i = true) by (apply dat_iff; apply eqq_false in En; auto).
      set (f := fun (done' : list nat) m => Z.of_nat (length (filter (fun n => posq (p i n) && (i + nshift8 w n =? m)) done'))).
      destruct (forM_inv (fun (done' : list nat) (d : Z -> Z) => forall m, d m = deps m + f done' m) (fa_dep_dir sz w p i) (dirs D8))
        with (s := deps) as [d' [E' H']].
      + intros done' n rest' d En' Hd.
        assert (Hn : (1 <= n <= 8)%nat) by (apply (dirs_In D8); rewrite En'; apply in_app_iff; right; left; auto).
        assert (Hf : forall m, f (done' ++ [n]) m = f done' m + (if posq (p i n) && (i + nshift8 w n =? m) then 1 else 0)).
        { intros m. unfold f. rewrite filter_app, app_length. cbn [filter]. destruct (_ && _); cbn [length]; lia. }
        unfold fa_dep_dir, getIN. replace ((0 <=? i) && (i <? sz)) with true by (symmetry; apply andb_true_iff; rewrite Z.leb_le, Z.ltb_lt; lia).
        cbn [bind]. destruct (posq (p i n)) eqn:Ep.
        * assert (Hnb : 0 <= i + nshift8 w n < sz).
          { rewrite Ec, <- at_nb by auto. apply at_range. apply interior_nbr; auto. }
          unfold aat. replace ((0 <=? i + nshift8 w n) && (i + nshift8 w n <? sz)) with true by (symmetry; apply andb_true_iff; rewrite Z.leb_le, Z.ltb_lt; lia).
          cbn [bind]. eexists. split; [reflexivity|]. intros m. rewrite Hf. cbn [andb]. unfold aset.
          destruct (Z.eqb_spec (i + nshift8 w n) m) as [<-|Hm].
          -- rewrite (kupd_same Z.eqb Z.eqb_spec), Hd. lia.
          -- rewrite (kupd_other Z.eqb Z.eqb_spec) by auto. rewrite Hd. lia.
        * exists d. split; [auto|]. intros m. rewrite Hf, Hd. cbn [andb]. lia.
      + intros m. unfold f. cbn. lia.
      + exists d'. split; [exact E'|]. intros m. rewrite H', Hpt, Hdeps. unfold pts, f. rewrite Di. lia.
  Qed.

  Lemma ptsum_indeg m : dat m = true -> ptsum (interior_cells w h) m = indeg Z.eqb outs VV m.
  Proof.
    intros Hm.
    assert (G : forall L, ptsum L m = indeg Z.eqb outs L m).
    { induction L as [|i L IH]; cbn [ptsum indeg]; [auto|]. rewrite IH, (pts_cnt i m Hm). reflexivity. }
    rewrite G. clear G.
    assert (HI : incl (interior_cells w h) (zrange 0 (Z.to_nat sz))).
    { intros i Hi. apply interior_In in Hi. destruct Hi as [x [y [-> [Hx Hy]]]]. apply zrange_In.
      destruct (interior_raster x y Hx Hy) as [Hin _]. pose proof (at_range (x, y) Hin) as Hr. unfold at_ in Hr. cbn [fst snd] in Hr. lia. }
    destruct (NoDup_incl_split _ _ interior_NoDup HI) as [R HR].
    assert (HF : forall L, indeg Z.eqb outs (filter dat L) m = indeg Z.eqb outs L m).
    { induction L as [|i L IH]; cbn [filter indeg]; [auto|]. destruct (dat i) eqn:Di; cbn [indeg]; rewrite IH; [auto|].
      unfold outs at 2. rewrite Di. reflexivity. }
    unfold VV. rewrite HF, (indeg_perm Z.eqb outs _ _ m HR), indeg_app.
    assert (Z0 : indeg Z.eqb outs R m = 0%nat); [|lia].
    apply (indeg_zero Z.eqb outs Z.eqb_spec). intros d Hd [q Hq].
    assert (Hni : ~ In d (interior_cells w h)).
    { pose proof (Permutation_NoDup HR (zrange_NoDup 0 (Z.to_nat sz))) as ND. intros C.
      clear - ND Hd C. induction (interior_cells w h) as [|a l IH]; [destruct C|].
      cbn [app] in ND. inversion ND as [|? ? Hn ND']; subst. destruct C as [->|C]; [apply Hn, in_app_iff; auto|auto]. }
    unfold outs in Hq. destruct (dat d) eqn:Dd; [|destruct Hq]. apply in_flat_map in Hq. destruct Hq as [n [Hn Hq]].
    destruct (posq (p d n)) eqn:Ep; cbn [andb] in Hq; [|destruct Hq].
    destruct (VV_has_data d) as [Hdd Ed]; [apply VV_In; auto|].
    apply (dirs_In D8) in Hn. cbn [nmax] in Hn.
    assert (Hne : ~ on_edge w h (fst (cellof d)) (snd (cellof d))) by (apply (pos_interior (cellof d) n); [auto|auto|rewrite Ed; auto]).
    apply Hni. apply interior_In. exists (fst (cellof d)), (snd (cellof d)). split; [rewrite <- Ed at 1; reflexivity|].
    destruct Hdd as [Hr _]. unfold on_edge in Hne.
    assert (Hne' : ~ (fst (cellof d) = 0 \/ snd (cellof d) = 0 \/ fst (cellof d) = w - 1 \/ snd (cellof d) = h - 1)) by tauto.
    unfold in_raster in Hr. clear - Hr Hne'. lia.
  Qed.

  (** *** the work queue *)
  Notation gq := (fun (_ : Z) (x : Qc) (q : Qc) => (q * x)%Qc).
  Notation pb := (kbody Z.eqb Qcplus outs gq (fun _ x => x)).

  Lemma fa_body_ok c s s' : In c VV -> keq s s' -> exists s2, fa_body sz w p nd c s = Ok s2 /\ keq s2 (pb c s').
  Proof.
    intros Hc HE. pose proof HE as [E1 [E2 E3]]. unfold fa_body, kbody. rewrite <- E2.
    assert (H0 : keq s (mkK (k_dep s') (kupd Z.eqb (k_val s') c (k_val s c)) (k_q s'))).
    { split; [auto|]. split; [|auto]. cbn [k_val]. intros m. unfold kupd. destruct (Z.eqb_spec m c) as [->|]; auto. }
    generalize dependent (mkK (k_dep s') (kupd Z.eqb (k_val s') c (k_val s c)) (k_q s')).
    unfold outs. pose proof Hc as Dc. apply VV_In in Dc. rewrite Dc. destruct (VV_has_data c Hc) as [Hcd Ec].
    generalize (k_val s c) as x. clear HE E1 E2 E3 s'. intros x.
    assert (Hl : forall n, In n (dirs D8) -> (1 <= n <= 8)%nat) by (intros n; apply (dirs_In D8)).
    revert Hl s. generalize (dirs D8) as l. induction l as [|n l IH]; intros Hl s s' HE; cbn [forM flat_map]; [exists s; auto|].
    assert (Hn : (1 <= n <= 8)%nat) by (apply Hl; left; auto).
    apply dat_iff in Dc. destruct Dc as [Hr _].
    unfold fa_send at 1, getIN. replace ((0 <=? c) && (c <? sz)) with true by (symmetry; apply andb_true_iff; rewrite Z.leb_le, Z.ltb_lt; lia).
    cbn [bind]. destruct (posq (p c n)) eqn:Ep; cbn [negb andb bind].
    - assert (Hnb : 0 <= c + nshift8 w n < sz).
      { rewrite <- Ec, <- at_nb by auto. apply at_range. apply pos_nb; auto. rewrite Ec. auto. }
      unfold isND at 1, getIN. replace ((0 <=? c + nshift8 w n) && (c + nshift8 w n <? sz)) with true by (symmetry; apply andb_true_iff; rewrite Z.leb_le, Z.ltb_lt; lia).
      cbn [bind]. unfold dat at 1. replace ((0 <=? c + nshift8 w n) && (c + nshift8 w n <? sz)) with true by (symmetry; apply andb_true_iff; rewrite Z.leb_le, Z.ltb_lt; lia).
      destruct (eqq (p (c + nshift8 w n) 0%nat) nd); cbn [negb andb app bind].
      + apply IH; [intros; apply Hl; right; auto|auto].
      + cbn [fold_left].
        match goal with |- context [forM l _ ?s1] => assert (HE1 : keq s1 (relax Z.eqb Qcplus gq c x s' (c + nshift8 w n, p c n))) end.
        { pose proof HE as [E1 [E2 E3]]. unfold relax. cbn [fst snd]. split; [|split]; cbn [k_dep k_val k_q].
          - intros m. unfold aset, kupd. rewrite !E1. reflexivity.
          - intros m. unfold aset, kupd. rewrite !E2. reflexivity.
          - unfold aset. rewrite (kupd_same Z.eqb Z.eqb_spec), E1, E3. reflexivity. }
        apply IH; [intros; apply Hl; right; auto|exact HE1].
    - apply IH; [intros; apply Hl; right; auto|auto].
  Qed.

  Lemma qsum_asum l : qsum l = asum Qcplus 0%Qc l.
  Proof. induction l as [|a l IH]; cbn [asum]; [auto|]. rewrite <- IH. reflexivity. Qed.

  Definition donors_of (m : Z) : list ((Z * Z) * nat) :=
    flat_map (fun i => map (fun n => (cellof i, n)) (filter (fun n => posq (p i n) && (i + nshift8 w n =? m)) (dirs D8))) VV.

  Lemma inflow_donors X m : dat m = true ->
    inflow Z.eqb Qcplus 0%Qc outs gq VV X m = qsum (map (fun e => p (at_ w (fst e)) (snd e) * X (at_ w (fst e)))%Qc (donors_of m)).
  Proof.
    intros Hm. unfold inflow, donors_of.
    assert (HV : forall i, In i VV -> dat i = true /\ at_ w (cellof i) = i) by (intros i Hi; split; [apply VV_In; auto|apply VV_has_data; auto]).
    revert HV. generalize VV as L. induction L as [|i L IH]; intros HV; cbn [map asum flat_map]; [reflexivity|].
    rewrite IH by (intros; apply HV; right; auto). rewrite map_app, !qsum_asum.
    rewrite (asum_app Qcplus 0%Qc Qcplus_comm Qcplus_assoc) by (intros; ring).
    f_equal. unfold insum, outs. destruct (HV i (or_introl eq_refl)) as [Di Ei]. rewrite Di.
    generalize (dirs D8) as l. induction l as [|n l IHl]; [reflexivity|]. cbn [flat_map filter].
    destruct (posq (p i n)); cbn [andb]; [|exact IHl].
    destruct (Z.eqb_spec (i + nshift8 w n) m) as [->|Hn].
    - rewrite Hm. cbn [app filter fst map snd asum]. rewrite Z.eqb_refl. cbn [map asum fst snd]. rewrite IHl, Ei. reflexivity.
    - destruct (dat (i + nshift8 w n)); cbn [app filter fst]; [|exact IHl].
      destruct (Z.eqb_spec (i + nshift8 w n) m); [congruence|]. exact IHl.
  Qed.

  Lemma donors_NoDup m : NoDup (donors_of m).
  Proof.
    unfold donors_of. apply flat_map_NoDup; [apply VV_NoDup| |].
    - intros i _. apply FinFun.Injective_map_NoDup; [intros a b E; congruence|]. apply NoDup_filter, seq_NoDup.
    - intros i i' c Hi Hi' H H'. apply in_map_iff in H. apply in_map_iff in H'. destruct H as [n [<- _]], H' as [n' [E _]].
      rewrite <- (proj2 (VV_has_data i Hi)), <- (proj2 (VV_has_data i' Hi')). congruence.
  Qed.
  Lemma donors_In d c n : has_data w h p nd d -> (In (c, n) (donors_of (at_ w d)) <-> sends w h p nd c n d).
  Proof.
    intros Hd. unfold donors_of. rewrite in_flat_map. split.
    - intros [i [Hi H]]. apply in_map_iff in H. destruct H as [n' [E Hf]]. inversion E; subst c n'. clear E.
      apply filter_In in Hf. destruct Hf as [Hn B]. apply andb_true_iff in B. destruct B as [B1 B2]. apply Z.eqb_eq in B2.
      destruct (VV_has_data i Hi) as [Hid Ei]. apply sends_iff; auto. rewrite Ei. auto.
    - intros Hs. assert (Hc : has_data w h p nd c) by apply Hs. apply sends_iff in Hs; auto. destruct Hs as [Hn [Hp E]].
      exists (at_ w c). split; [apply has_data_VV; auto|]. apply in_map_iff. exists n. rewrite cellof_at by apply Hc. split; [auto|].
      apply filter_In. split; [auto|]. rewrite Hp, E, Z.eqb_refl. reflexivity.
  Qed.

  Definition sums (f : Z -> Qc) (L : list Z) : Qc := asum Qcplus 0%Qc (map f L).

  Lemma FA_run gen : exists A X P, FlowAccumulation w h p nd w h gen = Some (Ok A) /\
    ordered outs VV P /\ (forall m, In m P <-> In m VV /\ ~ loop_upstream outs VV m) /\
    (forall m, In m P -> A m = X m /\ X m = (gen m + inflow Z.eqb Qcplus 0%Qc outs gq VV X m)%Qc) /\
    (forall m, 0 <= m < sz -> p m 0%nat = nd -> A m = ACCUM_NO_DATA).
  Proof.
    unfold FlowAccumulation. rewrite !Z.eqb_refl. cbn [andb negb]. fold sz.
    destruct fa_deps_ok as [deps [Ed Hd]]. rewrite Ed.
    set (src := fa_sources sz p nd deps). set (s0 := mkK deps gen src).
    assert (HdV : forall m, In m VV -> deps m = Z.of_nat (indeg Z.eqb outs VV m)).
    { intros m Hm. rewrite Hd, ptsum_indeg; [auto|apply VV_In; auto]. }
    assert (Hsrc : forall m, In m src <-> In m VV /\ deps m = 0).
    { intros m. unfold src, fa_sources. rewrite filter_In, andb_true_iff, negb_true_iff, Z.eqb_eq, VV_In, zrange_In, dat_iff, eqq_false.
      pose proof sz_nonneg. split; [intros [H1 [H2 H3]]; split; [split; [lia|auto]|auto]|intros [[H1 H2] H3]; split; [lia|auto]]. }
    assert (GS : good_start Z.eqb outs VV gen s0).
    { split; [exact HdV|]. split; [reflexivity|]. split; [apply NoDup_filter, zrange_NoDup|exact Hsrc]. }
    destruct (krun_spec Z.eqb Qcplus 0%Qc outs gq (fun _ x => x) Z.eqb_spec Qcplus_comm Qcplus_assoc Qcplus_0_r
                VV VV_NoDup outs_V gen s0 (Z.to_nat sz) GS) as [P [X [s' [E [HO [HP [Hdec [HX Hno]]]]]]]].
    { unfold VV. rewrite <- (zrange_length 0 (Z.to_nat sz)) at 2. generalize (zrange 0 (Z.to_nat sz)) as l.
      induction l as [|a l IH]; cbn [filter length]; [lia|]. destruct (dat a); cbn [length]; lia. }
    pose proof (kwhile_sim Qcplus outs gq (fun _ x => x) (fa_body sz w p nd) VV outs_V fa_body_ok (Z.to_nat sz) 0 s0 s0 (keq_refl s0)) as HS.
    unfold krun in E. rewrite E in HS. destruct HS as [t [Et [K1 [K2 K3]]]].
    { intros m Hm. apply Hsrc in Hm. tauto. }
    rewrite Et. eexists. exists X, P. split; [reflexivity|]. split; [exact HO|]. split; [exact HP|]. split.
    - intros m Hm. pose proof (proj1 (HP m) Hm) as [HmV _]. apply VV_In, dat_iff in HmV. destruct HmV as [_ Hnd].
      apply eqq_false in Hnd. rewrite Hnd, andb_false_r, K2. destruct (HX m Hm). auto.
    - intros m Hm Hn. apply eqq_iff in Hn. rewrite Hn.
      replace ((0 <=? m) && (m <? sz)) with true by (symmetry; apply andb_true_iff; rewrite Z.leb_le, Z.ltb_lt; lia). reflexivity.
  Qed.

  Lemma FA_balanced gen : exists A, FlowAccumulation w h p nd w h gen = Some (Ok A) /\
    (forall c, has_data w h p nd c -> ~ downstream_of_loop w h p nd c -> balanced w h p nd gen A c) /\
    (forall c, in_raster w h (fst c) (snd c) -> p (at_ w c) 0%nat = nd -> A (at_ w c) = ACCUM_NO_DATA).
  Proof.
    destruct (FA_run gen) as [A [X [P [E [HO [HP [HX Hn]]]]]]]. exists A. split; [exact E|]. split.
    - intros c Hc Hl. assert (HcP : In (at_ w c) P) by (apply HP; split; [apply has_data_VV; auto|rewrite loop_iff; auto]).
      destruct (HX _ HcP) as [E1 E2].
      exists (donors_of (at_ w c)). split; [apply donors_NoDup|]. split; [intros; apply donors_In; auto|].
      rewrite E1, E2, inflow_donors by (apply has_data_dat; [apply Hc|auto]). f_equal. f_equal. apply map_ext_in.
      intros [d n] Hdn. cbn [fst snd]. f_equal. symmetry. apply HX.
      apply donors_In in Hdn; [|auto]. assert (Hd : has_data w h p nd d) by apply Hdn.
      apply HP. split; [apply has_data_VV; auto|]. rewrite loop_iff by auto. intros [l [L R]]. apply Hl.
      exists l. split; [auto|]. eapply rt_trans; [exact R|]. apply rt_step. exists n. auto.
    - intros c Hc Hnd. apply Hn; [apply at_range; auto|auto].
  Qed.

  (** *** conservation *)
  Lemma asum_plus {B} (f f' : B -> Qc) L : asum Qcplus 0%Qc (map (fun b => f b + f' b)%Qc L) = (asum Qcplus 0%Qc (map f L) + asum Qcplus 0%Qc (map f' L))%Qc.
  Proof. induction L as [|b L IH]; cbn [map asum]; [ring|]. rewrite IH. ring. Qed.
  Lemma asum_zeroQ {B} (L : list B) : asum Qcplus 0%Qc (map (fun _ => 0%Qc) L) = 0%Qc.
  Proof. induction L as [|b L IH]; cbn [map asum]; [auto|]. rewrite IH. ring. Qed.
  Lemma asum_swap {B C} (f : B -> C -> Qc) L M :
    asum Qcplus 0%Qc (map (fun b => asum Qcplus 0%Qc (map (f b) M)) L) = asum Qcplus 0%Qc (map (fun c => asum Qcplus 0%Qc (map (fun b => f b c) L)) M).
  Proof.
    induction L as [|b L IH]; cbn [map asum]; [rewrite asum_zeroQ; auto|]. rewrite IH, <- asum_plus. reflexivity.
  Qed.

  (** each edge is counted at exactly one receiver *)
  Lemma sum_over_receivers X d : asum Qcplus 0%Qc (map (fun m => insum Z.eqb Qcplus 0%Qc outs gq X d m) VV)
    = asum Qcplus 0%Qc (map (fun e => snd e * X d)%Qc (outs d)).
  Proof.
    unfold insum. assert (Ho : forall e, In e (outs d) -> In (fst e) VV).
    { intros e He. unfold outs in He. destruct (dat d); [|destruct He]. apply in_flat_map in He. destruct He as [n [_ H]].
      destruct (posq (p d n) && dat (d + nshift8 w n)) eqn:B; [|destruct H]. destruct H as [<-|[]]. apply andb_true_iff in B. apply VV_In. tauto. }
    revert Ho. generalize (outs d) as es. induction es as [|[a q] es IH]; intros Ho; cbn [map asum filter].
    - apply asum_zeroQ.
    - rewrite <- IH by (intros; apply Ho; right; auto). cbn [fst snd].
      assert (Ha : In a VV) by (apply (Ho (a, q)); left; auto).
      pose proof VV_NoDup as ND. revert Ha ND. generalize VV as L. clear - Hw.
      induction L as [|m L IHL]; intros Ha ND; [destruct Ha|]. inversion ND as [|? ? Hn ND']; subst. cbn [map asum].
      destruct (Z.eqb_spec a m) as [->|Hne].
      + cbn [map asum snd].
        assert (E : forall L, ~ In m L -> asum Qcplus 0%Qc (map (fun m0 => asum Qcplus 0%Qc (map (fun e : Z * Qc => snd e * X d)%Qc (if m =? m0 then (m, q) :: filter (fun e : Z * Qc => fst e =? m0) es else filter (fun e : Z * Qc => fst e =? m0) es))) L)
          = asum Qcplus 0%Qc (map (fun m0 => asum Qcplus 0%Qc (map (fun e : Z * Qc => snd e * X d)%Qc (filter (fun e : Z * Qc => fst e =? m0) es))) L)).
        { induction L0 as [|b L0 IH0]; intros Hb; cbn [map asum]; [auto|]. rewrite IH0 by (intros ?; apply Hb; right; auto).
          destruct (Z.eqb_spec m b) as [->|]; [exfalso; apply Hb; left; auto|reflexivity]. }
        rewrite E by auto. ring.
      + destruct Ha as [?|Ha]; [congruence|]. rewrite (IHL Ha ND'). ring.
  Qed.

  Lemma FA_conserves gen A cs ss : FlowAccumulation w h p nd w h gen = Some (Ok A) ->
    (forall c, ~ on_loop w h p nd c) -> lossless w h p nd ->
    NoDup cs -> (forall c, In c cs <-> has_data w h p nd c) ->
    NoDup ss -> (forall c, In c ss <-> has_data w h p nd c /\ is_sink w p c) ->
    qsum (map (fun c => gen (at_ w c)) cs) = qsum (map (fun c => A (at_ w c)) ss).
  Proof.
    intros E HL HLo N1 I1 N2 I2.
    destruct (FA_run gen) as [A' [X [P [E' [HO [HP [HX _]]]]]]]. assert (EA : A' = A) by congruence. subst A'.
    assert (HPV : forall m, In m VV -> In m P).
    { intros m Hm. apply HP. split; [auto|]. destruct (VV_has_data m Hm) as [Hd Em]. rewrite <- Em, loop_iff by auto.
      intros [l [L _]]. apply (HL l L). }
    assert (P1 : Permutation (map (at_ w) cs) VV).
    { apply NoDup_Permutation; [|apply VV_NoDup|].
      - apply NoDup_map_in; [|auto]. intros a b Ha Hb Eab. apply at_inj; [apply I1; auto|apply I1; auto|auto].
      - intros m. rewrite in_map_iff. split.
        + intros [c [<- Hc]]. apply has_data_VV, I1, Hc.
        + intros Hm. destruct (VV_has_data m Hm) as [Hd Em]. exists (cellof m). split; [auto|apply I1; auto]. }
    set (sink := fun i => forallb (fun n => negb (posq (p i n))) (dirs D8)).
    assert (Hsink : forall c, has_data w h p nd c -> (sink (at_ w c) = true <-> is_sink w p c)).
    { intros c Hc. unfold sink, is_sink. rewrite forallb_forall. split.
      - intros H n Hn. apply posq_false. specialize (H n). rewrite negb_true_iff in H. apply H. apply (dirs_In D8). auto.
      - intros H n Hn. apply negb_true_iff, posq_false, H. apply (dirs_In D8) in Hn. auto. }
    assert (P2 : Permutation (map (at_ w) ss) (filter sink VV)).
    { apply NoDup_Permutation; [|apply NoDup_filter, VV_NoDup|].
      - apply NoDup_map_in; [|auto]. intros a b Ha Hb Eab. apply at_inj; [apply I2; auto|apply I2; auto|auto].
      - intros m. rewrite in_map_iff, filter_In. split.
        + intros [c [<- Hc]]. apply I2 in Hc. split; [apply has_data_VV; tauto|apply Hsink; tauto].
        + intros [Hm Hs]. destruct (VV_has_data m Hm) as [Hd Em]. exists (cellof m). split; [auto|]. apply I2. split; [auto|].
          apply Hsink; [auto|rewrite Em; auto]. }
    rewrite (qsum_asum (map (fun c => gen (at_ w c)) cs)), (qsum_asum (map (fun c => A (at_ w c)) ss)).
    rewrite <- (map_map (at_ w) gen cs), <- (map_map (at_ w) A ss).
    rewrite (asum_perm Qcplus 0%Qc Qcplus_comm Qcplus_assoc _ _ (Permutation_map gen P1)).
    rewrite (asum_perm Qcplus 0%Qc Qcplus_comm Qcplus_assoc _ _ (Permutation_map A P2)).
    assert (S1 : asum Qcplus 0%Qc (map X VV) = (asum Qcplus 0%Qc (map gen VV) + asum Qcplus 0%Qc (map (fun m => inflow Z.eqb Qcplus 0%Qc outs gq VV X m) VV))%Qc).
    { rewrite <- asum_plus. f_equal. apply map_ext_in. intros m Hm. apply HX, HPV, Hm. }
    unfold inflow in S1. rewrite asum_swap in S1.
    assert (S2 : asum Qcplus 0%Qc (map (fun c => asum Qcplus 0%Qc (map (fun b => insum Z.eqb Qcplus 0%Qc outs gq X c b) VV)) VV)
              = asum Qcplus 0%Qc (map (fun m => if sink m then 0%Qc else X m) VV)).
    { f_equal. apply map_ext_in. intros d Hd. rewrite sum_over_receivers.
      destruct (VV_has_data d Hd) as [Hdd Ed]. pose proof Hd as Dd. apply VV_In in Dd.
      destruct (sink d) eqn:Es.
      - assert (O : outs d = []); [|rewrite O; reflexivity].
        unfold outs. rewrite Dd. unfold sink in Es. rewrite forallb_forall in Es. revert Es. generalize (dirs D8) as l.
        induction l as [|n l IH]; intros Es; cbn [flat_map]; [auto|]. rewrite IH by (intros; apply Es; right; auto).
        specialize (Es n (or_introl eq_refl)). apply negb_true_iff in Es. rewrite Es. reflexivity.
      - destruct (HLo (cellof d) Hdd) as [C|[H1 H2]]; [apply Hsink in C; [rewrite Ed in C; congruence|auto]|]. rewrite Ed in H1, H2.
        transitivity (qsum (map (fun n => if Qclt_le_dec 0 (p d n) then p d n else 0%Qc) (seq 1 8)) * X d)%Qc; [|rewrite H2; ring].
        rewrite (qsum_asum (map (fun n => if Qclt_le_dec 0 (p d n) then p d n else 0%Qc) (seq 1 8))). unfold outs. rewrite Dd. change (dirs D8) with (seq 1 8).
        assert (Hn : forall n, In n (seq 1 8) -> posq (p d n) = true -> dat (d + nshift8 w n) = true).
        { intros n Hn Hp. apply in_seq in Hn. destruct (H1 n) as [e Hs]; [lia|apply posq_iff; auto|].
          assert (Hed : has_data w h p nd e) by apply Hs. apply sends_iff in Hs; auto. destruct Hs as [_ [_ Ee]]. rewrite Ed in Ee.
          rewrite Ee. apply has_data_dat; [apply Hed|auto]. }
        revert Hn. generalize (seq 1 8) as l. induction l as [|n l IH]; intros Hn; cbn [flat_map map asum]; [cbn; ring|].
        rewrite map_app, (asum_app Qcplus 0%Qc Qcplus_comm Qcplus_assoc) by (intros; ring).
        rewrite IH by (intros; apply Hn; [right|]; auto).
        pose proof (Hn n (or_introl eq_refl)) as Hnn. unfold posq in Hnn |- *. destruct (Qclt_le_dec 0 (p d n)) as [Hp|Hp]; cbn [andb].
        + rewrite Hnn by reflexivity. cbn [map asum snd]. ring.
        + cbn [map asum]. ring. }
    rewrite S2 in S1.
    assert (S3 : forall L, asum Qcplus 0%Qc (map X L) = (asum Qcplus 0%Qc (map X (filter sink L)) + asum Qcplus 0%Qc (map (fun m => if sink m then 0%Qc else X m) L))%Qc).
    { induction L as [|m L IH]; cbn [map asum filter]; [ring|]. rewrite IH. destruct (sink m); cbn [map asum]; ring. }
    assert (S4 : asum Qcplus 0%Qc (map A (filter sink VV)) = asum Qcplus 0%Qc (map X (filter sink VV))).
    { f_equal. apply map_ext_in. intros m Hm. apply filter_In in Hm. apply HX, HPV. tauto. }
    rewrite S4. rewrite (S3 VV) in S1.
    set (a := asum Qcplus 0%Qc (map X (filter sink VV))) in *.
    set (b := asum Qcplus 0%Qc (map (fun m => if sink m then 0%Qc else X m) VV)) in *.
    set (c := asum Qcplus 0%Qc (map gen VV)) in *.
    transitivity (c + b - b)%Qc; [ring|]. rewrite <- S1. ring.
  Qed.
End FA.
