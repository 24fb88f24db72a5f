(** The generic accumulation adds the donors one at a time, in the order in which they come off the queue. *)
From Coq Require Import ZArith List Lia Bool QArith Qcanon Relations.
From Verif Require Import Base Res RasterSpec RasterFacts FlowSpec Kahn FlowModel FlowProofs FAModel FASpec FAProofs FAFModel.
Open Scope Z_scope.

Section G.
  Context {T V : Type}.
  Variables (pos nonpos isnd : T -> bool) (acc : V -> T -> V -> V) (accnd : V).
  Variables (w h : Z) (p : Z -> nat -> T).
  Hypothesis Hw : 0 <= w.
  Hypothesis Hh : 0 <= h.
  Hypothesis Hnp : forall i n, 0 <= i < w * h -> (1 <= n <= 8)%nat -> nonpos (p i n) = negb (pos (p i n)).
  Let sz := w * h.

  (** the same network with 0/1 proportions *)
  Definition skel (i : Z) (n : nat) : Qc :=
    match n with O => if isnd (p i O) then Q2Qc (-2) else 0%Qc | S _ => if pos (p i n) then 1%Qc else 0%Qc end.
  Definition snd_ : Qc := Q2Qc (-2).
  Hypothesis HQ : quiet_border w h skel snd_.

  Lemma skel_pos i n : (1 <= n)%nat -> posq (skel i n) = pos (p i n).
  Proof. clear. intros Hn. destruct n; [lia|]. unfold skel. destruct (pos (p i (S n))); reflexivity. Qed.
  Lemma skel_nd i : eqq (skel i 0%nat) snd_ = isnd (p i 0%nat).
  Proof. unfold skel. destruct (isnd (p i 0%nat)); reflexivity. Qed.

  Notation dt := (dat w h skel snd_).
  Notation os := (outs w h skel snd_).
  Notation VS := (VV w h skel snd_).
  Notation gq := (fun (_ : Z) (x : Qc) (q : Qc) => (q * x)%Qc).
  Notation pb := (kbody Z.eqb Qcplus os gq (fun _ x => x)).

  Lemma g_deps_skel : g_deps pos isnd sz w h p = fa_deps sz w h skel snd_.
  Proof.
    unfold g_deps, fa_deps. generalize (fun _ : Z => 0) as s. generalize (interior_cells w h) as l.
    induction l as [|i l IH]; intros s; [reflexivity|]. cbn [forM].
    assert (E : (do b <- gisND isnd sz p i; (if b then Ok s else forM (dirs D8) (g_dep_dir pos sz w p i) s)) =
                (do b <- isND sz skel snd_ i; (if b then Ok s else forM (dirs D8) (fa_dep_dir sz w skel i) s))).
    { unfold gisND, isND, ggetIN, getIN. destruct ((0 <=? i) && (i <? sz)) eqn:Ei; [|reflexivity]. cbn [bind]. rewrite skel_nd.
      destruct (isnd (p i 0%nat)); [reflexivity|].
      assert (Hl : forall n, In n (dirs D8) -> (1 <= n)%nat) by (intros n Hn; apply (dirs_In D8) in Hn; lia).
      revert Hl. revert s. generalize (dirs D8) as d. induction d as [|n d IHd]; intros s Hl; [reflexivity|]. cbn [forM].
      assert (E : g_dep_dir pos sz w p i n s = fa_dep_dir sz w skel i n s).
      { unfold g_dep_dir, fa_dep_dir, ggetIN, getIN. rewrite Ei. cbn [bind]. rewrite skel_pos by (apply Hl; left; auto). reflexivity. }
      rewrite E. destruct (fa_dep_dir sz w skel i n s); cbn [bind]; try reflexivity. apply IHd. intros; apply Hl; right; auto. }
    rewrite E. destruct (do b <- isND sz skel snd_ i; _); cbn [bind]; try reflexivity. apply IH.
  Qed.
  Lemma g_sources_skel deps : g_sources isnd sz p deps = fa_sources sz skel snd_ deps.
  Proof. unfold g_sources, fa_sources. apply filter_ext. intros i. rewrite skel_nd. reflexivity. Qed.

  (** [(c,n)] feeds [m] *)
  Definition gives (c : Z) (n : nat) (m : Z) : Prop :=
    dt c = true /\ dt m = true /\ (1 <= n <= 8)%nat /\ pos (p c n) = true /\ c + nshift8 w n = m.
  Lemma gives_edge c n m : gives c n m -> edge os c m.
  Proof.
    intros [Dc [Dm [Hn [Hp E]]]]. exists (skel c n). unfold outs. rewrite Dc. apply in_flat_map. exists n.
    split; [apply (dirs_In D8); auto|]. rewrite skel_pos, Hp by lia. rewrite E, Dm. left. reflexivity.
  Qed.

  Definition adds (val : Z -> V) (a : V) (e : Z * nat) : V := acc a (p (fst e) (snd e)) (val (fst e)).
  (** the value of every cell is what it started with plus the donors of [Q] that have been processed *)
  Definition recv (gen : Z -> V) (Q : Z -> nat -> Prop) (val : Z -> V) : Prop :=
    forall m, dt m = true -> exists l, NoDup l /\ (forall c n, In (c, n) l <-> gives c n m /\ Q c n) /\
      val m = fold_left (adds val) l (gen m).
  Definition frozen (P : list Z) (v v' : Z -> V) : Prop := forall c, In c P -> v c = v' c.

  Lemma fold_adds_ext v v' l : (forall e, In e l -> v (fst e) = v' (fst e)) -> forall a, fold_left (adds v) l a = fold_left (adds v') l a.
  Proof.
    induction l as [|e l IH]; intros H a; [reflexivity|]. cbn [fold_left]. unfold adds at 2 4. rewrite (H e) by (left; auto).
    apply IH. intros; apply H; right; auto.
  Qed.

  Definition lock (s : @kst Z V) (s' : @kst Z Qc) : Prop := (forall m, k_dep s m = k_dep s' m) /\ k_q s = k_q s'.

  (** one body *)
  Lemma body_lock gen P c s s' : In c VS -> ~ In c P -> (forall d m, In m (c :: P) -> edge os d m -> In d VS -> In d P) -> lock s s' ->
    recv gen (fun d _ => In d P) (k_val s) ->
    exists s2, g_body nonpos isnd acc sz w p c s = Ok s2 /\ lock s2 (pb c s') /\ recv gen (fun d _ => In d (c :: P)) (k_val s2).
  Proof.
    intros Hc HcP Hord HL HR. unfold g_body, kbody.
    set (x := k_val s c).
    assert (H0 : lock s (mkK (k_dep s') (kupd Z.eqb (k_val s') c (k_val s' c)) (k_q s'))) by (destruct HL; split; auto).
    generalize dependent (mkK (k_dep s') (kupd Z.eqb (k_val s') c (k_val s' c)) (k_q s')).
    unfold outs at 1. pose proof Hc as Dc. apply VV_In in Dc. rewrite Dc.
    destruct (VV_has_data w h skel snd_ Hw Hh c Hc) as [Hcd Ec].
    generalize (k_val s' c) as x'. clear HL s'. intros x'.
    assert (Hl : forall n, In n (dirs D8) -> (1 <= n <= 8)%nat) by (intros n; apply (dirs_In D8)).
    assert (HR0 : recv gen (fun d n => In d P \/ d = c /\ ~ In n (dirs D8)) (k_val s)).
    { intros m Dm. destruct (HR m Dm) as [l [N [I E]]]. exists l. split; [auto|]. split; [|auto]. intros d n. rewrite I. split; [tauto|].
      intros [G [H|[-> H]]]; [auto|]. exfalso. apply H, (dirs_In D8). apply G. }
    assert (Hx : k_val s c = x) by reflexivity. clearbody x. clear HR.
    assert (Hnd : NoDup (dirs D8)) by (apply seq_NoDup).
    assert (Hfin : forall s2 : @kst Z V, recv gen (fun d n => In d P \/ d = c /\ ~ In n []) (k_val s2) -> recv gen (fun d _ => In d (c :: P)) (k_val s2)).
    { intros s2 H m Dm. destruct (H m Dm) as [l [N [I E]]]. exists l. split; [auto|]. split; [|auto]. intros d n. rewrite I. cbn [In]. intuition congruence. }
    assert (Hfr : forall d m, In m (c :: P) -> edge os d m -> In d VS -> d = c -> False).
    { intros d m Hm He Hd ->. apply HcP. eapply Hord; eauto. }
    revert Hl HR0 Hx Hnd. revert s. generalize (dirs D8) as l.
    induction l as [|n l IH]; intros s Hl HR Hx Hnd s' HE; cbn [forM flat_map].
    { exists s. split; [auto|]. split; [auto|]. apply Hfin. exact HR. }
    apply NoDup_cons_iff in Hnd; destruct Hnd as [Hnl Hndl].
    assert (Hn : (1 <= n <= 8)%nat) by (apply Hl; left; auto).
    pose proof Dc as Dc'. apply dat_iff in Dc'; [|auto..]. destruct Dc' as [Hr _].
    unfold g_send at 1, ggetIN. fold sz in Hr.
    replace ((0 <=? c) && (c <? sz)) with true by (symmetry; apply andb_true_iff; rewrite Z.leb_le, Z.ltb_lt; lia).
    cbn [bind]. rewrite Hnp, skel_pos by (try exact Hr; lia). destruct (pos (p c n)) eqn:Ep; cbn [negb andb bind].
    - assert (Hnb : 0 <= c + nshift8 w n < sz).
      { unfold sz. rewrite <- Ec, <- at_nb by auto. apply at_range; auto. eapply pos_nb; eauto. rewrite Ec, skel_pos by lia. auto. }
      unfold gisND at 1, ggetIN. replace ((0 <=? c + nshift8 w n) && (c + nshift8 w n <? sz)) with true by (symmetry; apply andb_true_iff; rewrite Z.leb_le, Z.ltb_lt; lia).
      cbn [bind].
      assert (Ed : dt (c + nshift8 w n) = negb (isnd (p (c + nshift8 w n) 0%nat))).
      { unfold dat. fold sz. rewrite skel_nd. replace ((0 <=? c + nshift8 w n) && (c + nshift8 w n <? sz)) with true by (symmetry; apply andb_true_iff; rewrite Z.leb_le, Z.ltb_lt; lia). reflexivity. }
      rewrite Ed. destruct (isnd (p (c + nshift8 w n) 0%nat)) eqn:End; cbn [negb andb app bind] in *.
      + apply IH; [intros; apply Hl; right; auto| |exact Hx|auto|auto].
        intros m Dm. destruct (HR m Dm) as [l0 [N [I E]]]. exists l0. split; [auto|]. split; [|auto]. intros d k. rewrite I. cbn [In].
        split; [intros [G ?]; split; [auto|tauto]|]. intros [G [?|[-> ?]]]; split; auto. right. split; [auto|]. intros [<-|]; [|tauto].
        destruct G as [_ [_ [_ [_ G]]]]. rewrite G in Ed. congruence.
      + cbn [fold_left]. set (ni := c + nshift8 w n) in *.
        assert (Gn : gives c n ni) by (repeat split; auto; lia).
        assert (He : edge os c ni) by (eapply gives_edge; eauto).
        assert (HniP : ~ In ni (c :: P)) by (intros H; exact (Hfr c ni H He Hc eq_refl)).
        match goal with |- context [forM l _ ?s1] => assert (HE1 : lock s1 (relax Z.eqb Qcplus gq c x' s' (ni, skel c n))) end.
        { pose proof HE as [E1 E3]. unfold relax. cbn [fst snd]. split; cbn [k_dep k_q].
          - intros m. unfold aset, kupd. rewrite !E1. reflexivity.
          - unfold aset. rewrite (kupd_same Z.eqb Z.eqb_spec), E1, E3. reflexivity. }
        apply IH; [intros; apply Hl; right; auto| | |auto|exact HE1]; cbn [k_val].
        * assert (FZ : forall d, In d (c :: P) -> k_val s d = aset (k_val s) ni (acc (k_val s ni) (p c n) x) d).
          { intros d Hd. unfold aset, kupd. destruct (Z.eqb_spec d ni) as [->|]; [tauto|auto]. }
          intros m Dm. destruct (HR m Dm) as [l0 [N [I E]]].
          assert (Hl0 : forall e, In e l0 -> In (fst e) (c :: P)).
          { intros [d k] Hd. apply I in Hd. cbn [fst In]. intuition congruence. }
          destruct (Z.eq_dec m ni) as [->|Hm].
          -- exists (l0 ++ [(c, n)]). split; [|split].
             ++ apply NoDup_app_disj.
                ** exact N.
                ** repeat constructor; auto.
                ** intros e H1 [<-|[]]. apply I in H1. destruct H1 as [_ [H1|[_ H1]]]; [tauto|]. apply H1. left; auto.
             ++ intros d k. rewrite in_app_iff, I. cbn [In]. split.
                ** intros [[G H]|[H|[]]]; [split; [auto|tauto]|]. inversion H; subst. split; [auto|]. right. auto.
                ** intros [G [H|[-> H]]]; [left; auto|]. destruct (Nat.eq_dec k n) as [->|]; [right; left; auto|].
                   left. split; [auto|]. right. split; [auto|]. intros [|]; [congruence|tauto].
             ++ rewrite fold_left_app. cbn [fold_left]. unfold aset at 1. rewrite (kupd_same Z.eqb Z.eqb_spec).
                unfold adds at 1. cbn [fst snd]. rewrite <- (FZ c) by (left; auto). rewrite Hx. f_equal.
                etransitivity; [exact E|]. apply fold_adds_ext. intros e Hin. apply FZ. auto.
          -- exists l0. split; [auto|]. split.
             ++ intros d k. rewrite I. split; [intros [G H]; split; [auto|cbn [In] in H; tauto]|].
                intros [G [H|[-> H]]]; split; auto. right. split; [auto|]. intros [<-|]; [|tauto]. apply Hm. symmetry. apply G.
             ++ unfold aset at 1, kupd. destruct (Z.eqb_spec m ni); [congruence|]. rewrite E. apply fold_adds_ext. intros e Hin. apply FZ. auto.
        * unfold aset, kupd. destruct (Z.eqb_spec c ni); [|exact Hx]. exfalso. apply HniP. left; auto.
    - apply IH; [intros; apply Hl; right; auto| |exact Hx|auto|auto].
      intros m Dm. destruct (HR m Dm) as [l0 [N [I E]]]. exists l0. split; [auto|]. split; [|auto]. intros d k. rewrite I. cbn [In].
      split; [intros [G ?]; split; [auto|tauto]|]. intros [G [?|[-> ?]]]; split; auto. right. split; [auto|]. intros [<-|]; [|tauto].
      destruct G as [_ [_ [_ [G _]]]]. congruence.
    - exact Hw.
    - exact Hh.
  Qed.

  Lemma run_lock gen : forall fuel i P X s s', kinv Z.eqb Qcplus 0%Qc os gq (fun _ x => x) VS (fun _ => 0%Qc) P X s' -> lock s s' ->
    recv gen (fun d _ => In d P) (k_val s) -> (length VS <= length P + fuel)%nat ->
    exists t t' P' X', whileR kpop (g_body nonpos isnd acc sz w p) fuel i s = Some (Ok t) /\
      kinv Z.eqb Qcplus 0%Qc os gq (fun _ x => x) VS (fun _ => 0%Qc) P' X' t' /\ k_q t' = [] /\
      recv gen (fun d _ => In d P') (k_val t).
  Proof.
    assert (OV : forall d m, In d VS -> edge os d m -> In m VS) by (intros; eapply outs_V; eauto).
    assert (KS : forall P X s' c q, kinv Z.eqb Qcplus 0%Qc os gq (fun _ x => x) VS (fun _ => 0%Qc) P X s' -> k_q s' = c :: q ->
      kinv Z.eqb Qcplus 0%Qc os gq (fun _ x => x) VS (fun _ => 0%Qc) (c :: P) (kupd Z.eqb X c (k_val s' c)) (pb c (mkK (k_dep s') (k_val s') q))).
    { intros. apply kstep; auto using Z.eqb_spec, Qcplus_comm, Qcplus_assoc, Qcplus_0_r, VV_NoDup. }
    induction fuel as [|f IH]; intros i P X s s' K HL HR Hlen; cbn [whileR]; unfold kpop at 1.
    - destruct (k_q s) as [|c q] eqn:Eq.
      + exists s, s', P, X. split; [auto|]. split; [auto|]. split; [|auto]. destruct HL as [_ <-]. exact Eq.
      + exfalso. assert (Eq' : k_q s' = c :: q) by (destruct HL as [_ <-]; exact Eq). pose proof (KS _ _ _ _ _ K Eq') as K'.
        pose proof (ki_ord _ _ _ _ _ _ _ _ _ _ _ K') as HO.
        pose proof (NoDup_incl_length (ordered_nodup _ _ _ HO) (ordered_incl _ _ _ HO)) as HL'. cbn [length] in HL'. lia.
    - destruct (k_q s) as [|c q] eqn:Eq.
      + exists s, s', P, X. split; [auto|]. split; [auto|]. split; [|auto]. destruct HL as [_ <-]. exact Eq.
      + assert (Eq' : k_q s' = c :: q) by (destruct HL as [_ <-]; exact Eq). pose proof (KS _ _ _ _ _ K Eq') as K'.
        pose proof (ki_ord _ _ _ _ _ _ _ _ _ _ _ K') as HO. inversion HO as [|? ? HOP HcV HcP Hdon]; subst.
        destruct (body_lock gen P c (mkK (k_dep s) (k_val s) q) (mkK (k_dep s') (k_val s') q)) as [s2 [E2 [L2 R2]]]; auto.
        { intros d m [<-|Hm] He Hd; [auto|]. eapply ordered_donors; eauto. }
        { destruct HL; split; auto. }
        rewrite E2. apply (IH (S i) (c :: P) _ s2 _ K' L2 R2). cbn [length]. lia.
  Qed.

  Lemma ordered_rank P : ordered os VS P -> exists rank : Z -> nat, (forall m, In m P -> (rank m < length P)%nat) /\
    (forall d m, In m P -> In d VS -> edge os d m -> (rank d < rank m)%nat).
  Proof.
    induction 1 as [|m P HO IH HV HnP Hd].
    - exists (fun _ => 0%nat). split; [intros m []|intros d m []].
    - destruct IH as [r [H1 H2]]. exists (fun x => if Z.eqb x m then length P else r x). split.
      + intros m' [<-|Hm']; [rewrite Z.eqb_refl; cbn [length]; lia|]. destruct (Z.eqb_spec m' m); [congruence|]. apply H1 in Hm'. cbn [length]. lia.
      + intros d m' [<-|Hm'] HdV He.
        * rewrite Z.eqb_refl. assert (In d P) by auto. destruct (Z.eqb_spec d m); [congruence|]. auto.
        * assert (In d P) by (eapply ordered_donors; eauto). destruct (Z.eqb_spec d m); [congruence|]. destruct (Z.eqb_spec m' m); [congruence|]. eauto.
  Qed.

  Lemma FAG_run gen : exists A (rank : Z -> nat), FlowAccumulationG pos nonpos isnd acc accnd w h p w h gen = Some (Ok A) /\
    (forall m, In m VS -> ~ loop_upstream os VS m -> (rank m < length VS)%nat /\
      exists l, NoDup l /\ (forall c n, In (c, n) l <-> gives c n m) /\ A m = fold_left (adds A) l (gen m)) /\
    (forall c n m, gives c n m -> ~ loop_upstream os VS m -> (rank c < rank m)%nat) /\
    (forall m, 0 <= m < sz -> isnd (p m 0%nat) = true -> A m = accnd).
  Proof.
    unfold FlowAccumulationG. rewrite !Z.eqb_refl. cbn [andb negb]. fold sz. rewrite g_deps_skel.
    destruct (fa_deps_ok w h skel snd_ Hw Hh) as [deps [Ed Hd]]. fold sz in Ed. rewrite Ed. rewrite g_sources_skel.
    set (src := fa_sources sz skel snd_ deps). set (s0 := mkK deps (fun _ : Z => 0%Qc) src).
    assert (HdV : forall m, In m VS -> deps m = Z.of_nat (indeg Z.eqb os VS m)).
    { intros m Hm. rewrite Hd, ptsum_indeg; auto. apply VV_In; auto. }
    assert (Hsrc : forall m, In m src <-> In m VS /\ deps m = 0).
    { intros m. unfold src, fa_sources. rewrite filter_In, andb_true_iff, negb_true_iff, Z.eqb_eq, VV_In, zrange_In, dat_iff, eqq_false by auto.
      assert (0 <= sz) by (unfold sz; nia). fold sz. split; [intros [H1 [H2 H3]]; split; [split; [lia|auto]|auto]|intros [[H1 H2] H3]; split; [lia|auto]]. }
    assert (GS : good_start Z.eqb os VS (fun _ => 0%Qc) s0).
    { split; [exact HdV|]. split; [reflexivity|]. split; [apply NoDup_filter, zrange_NoDup|exact Hsrc]. }
    pose proof (kinv_start Z.eqb Qcplus 0%Qc os gq (fun _ x => x) Qcplus_0_r VS (fun _ => 0%Qc) s0 (fun _ => 0%Qc) GS) as K0.
    assert (HlV : (length VS <= Z.to_nat sz)%nat).
    { unfold VV. fold sz. rewrite <- (zrange_length 0 (Z.to_nat sz)) at 2. generalize (zrange 0 (Z.to_nat sz)) as l.
      induction l as [|a l IH]; cbn [filter length]; [lia|]. destruct (dt a); cbn [length]; lia. }
    destruct (run_lock gen (Z.to_nat sz) 0 [] _ (mkK deps gen src) s0 K0) as [t [t' [P [X [E [K [Eq HR]]]]]]].
    { split; reflexivity. }
    { intros m _. exists []. split; [constructor|]. split; [|reflexivity]. intros c n. cbn [In]. tauto. }
    { cbn [length]. lia. }
    rewrite E.
    assert (OV : forall d m, In d VS -> edge os d m -> In m VS) by (intros; eapply outs_V; eauto).
    pose proof (ki_ord _ _ _ _ _ _ _ _ _ _ _ K) as HO.
    assert (HP : forall m, In m P <-> In m VS /\ ~ loop_upstream os VS m).
    { eapply final_popped; eauto using Z.eqb_spec, Qcplus_comm, Qcplus_assoc, Qcplus_0_r, VV_NoDup. }
    destruct (ordered_rank P HO) as [rank [R1 R2]].
    eexists. exists rank. split; [reflexivity|].
    assert (Hv : forall m, dt m = true -> (if (0 <=? m) && (m <? sz) && isnd (p m 0%nat) then accnd else k_val t m) = k_val t m).
    { intros m Dm. unfold dat in Dm. rewrite skel_nd in Dm. apply andb_true_iff in Dm. destruct Dm as [_ Dm]. apply negb_true_iff in Dm.
      rewrite Dm, andb_false_r. reflexivity. }
    split; [|split].
    - intros m Hm Hl. assert (HmP : In m P) by (apply HP; auto). split.
      { apply R1 in HmP. pose proof (NoDup_incl_length (ordered_nodup _ _ _ HO) (ordered_incl _ _ _ HO)). lia. }
      pose proof Hm as Dm. apply VV_In in Dm; [|auto..]. destruct (HR m Dm) as [l [N [I EV]]]. exists l. split; [auto|].
      assert (I' : forall c n, In (c, n) l <-> gives c n m).
      { intros c n. rewrite I. split; [tauto|]. intros G. split; [auto|]. eapply ordered_donors; eauto using gives_edge. apply VV_In; [auto..|apply G]. }
      split; [exact I'|]. rewrite Hv by auto. rewrite EV. apply fold_adds_ext. intros [c n] Hin. cbn [fst]. symmetry. apply Hv. apply I' in Hin. apply Hin.
    - intros c n m G Hl. apply R2; [|apply VV_In; [auto..|apply G]|eapply gives_edge; eauto]. apply HP. split; [|auto]. apply VV_In; [auto..|apply G].
    - intros m Hm Hn. rewrite Hn. replace ((0 <=? m) && (m <? sz)) with true by (symmetry; apply andb_true_iff; rewrite Z.leb_le, Z.ltb_lt; lia). reflexivity.
  Qed.
End G.
