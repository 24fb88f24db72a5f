(** MoveWaterInDepHier: the water of a depression, and of everything upstream of it. *)
From Coq Require Import ZArith List Lia Bool Permutation QArith Qcanon.
From Verif Require Import Base Res QcTac RasterSpec FlatsSpec FlowModel DHModel DHSpec DHTree DHTerrain FSMModel FSMSpec FSMPits FSMPits2 FSMRoute FSMRoute2.
Open Scope Z_scope.

Section Amounts.
  Variables (n : Z) (deps : list dep).
  Hypothesis WF : well_formed n deps.
  Hypothesis Hn : n <= 2 ^ 31.
  Hypothesis VO : volumes_ok n deps.
  Notation N := (length deps).
  Notation len := (Z.of_nat (length deps)).
  Notation dp := (FSMRoute.dp deps).
  Notation V := (FSMRoute.V deps).
  Notation par i := (d_parent (dp i)).
  Notation sib i := (d_odep (dp i)).
  Notation lch i := (d_lchild (dp i)).
  Notation rch i := (d_rchild (dp i)).
  Local Notation dp_ix := (FSMRoute.dp_ix deps).
  Local Notation n_pos := (FSMRoute.n_pos n deps WF).
  Local Notation len_small := (FSMRoute.len_small n deps WF Hn).
  Local Notation wplace := (FSMRoute.wplace n deps WF).
  Local Notation wmeta := (FSMRoute.wmeta n deps WF VO).
  Local Notation wleaf := (FSMRoute.wleaf n deps WF).
  Local Notation child_link := (FSMRoute.child_link n deps WF Hn).
  Notation fok := (FSMRoute.fok n deps).
  Notation full := (FSMRoute.full deps).
  Notation tsum := (FSMRoute.tsum n deps).
  Notation own := (FSMRoute.own n deps).
  Notation closed := (FSMRoute.closed deps).
  Notation all := (fun _ : Z => true).

  (** *** deciding part_of *)
  Fixpoint chain (f : nat) (i : Z) : list Z :=
    i :: match f with O => [] | S f' => if (0 <? i) && negb (d_ocean_parent (dp i)) then chain f' (par i) else [] end.
  Definition partb (t i : Z) : bool := existsb (Z.eqb t) (chain N i).
  Lemma link_par i p : links deps i p -> 0 < i < len /\ d_ocean_parent (dp i) = false /\ p = par i.
  Proof.
    intros L. pose proof (wlink n deps WF _ _ L) as W. destruct L as [r [E [O [_ P]]]]. assert (Hi := ixr _ _ _ E).
    assert (r = dp i) by (pose proof (dp_ix i Hi) as E2; rewrite E in E2; congruence). subst r. split; [lia|]. auto.
  Qed.
  Lemma chain_sound f : forall i t, 0 <= i < len -> In t (chain f i) -> part_of deps i t.
  Proof.
    induction f as [|f IH]; intros i t Hi [<-|H]; try constructor; [destruct H|].
    destruct (Z.ltb_spec 0 i); [|destruct H]. destruct (d_ocean_parent (dp i)) eqn:E; cbn [negb andb] in H; [destruct H|].
    eapply part_left; [apply child_link; auto; lia|]. apply IH; auto. apply (par_in n deps WF). lia.
  Qed.
  Lemma chain_complete f : forall i t, part_of deps i t -> 0 <= i < len -> (Z.to_nat (t - i) <= f)%nat -> In t (chain f i).
  Proof.
    induction f as [|f IH]; intros i t P Hi Hf; pose proof (wpart_le n deps WF _ _ P).
    - left. lia.
    - destruct (part_front _ _ _ P) as [->|[p [L P']]]; [left; auto|]. right.
      destruct (link_par _ _ L) as [A [B ->]]. pose proof (wlink n deps WF _ _ L).
      destruct (Z.ltb_spec 0 i); [|lia]. rewrite B. cbn [negb andb]. apply IH; auto; [apply (par_in n deps WF); lia|lia].
  Qed.
  Lemma partb_iff t i : 0 <= i < len -> partb t i = true <-> part_of deps i t.
  Proof.
    intros Hi. unfold partb. rewrite existsb_exists. split.
    - intros [x [A B]]. apply Z.eqb_eq in B. subst x. eapply chain_sound; eauto.
    - intros P. exists t. split; [|apply Z.eqb_refl]. apply chain_complete; auto.
      pose proof (wpart_in n deps WF _ _ P Hi). lia.
  Qed.
  Definition upb (d i : Z) : bool := existsb (Z.eqb i) (postorder deps N d).
  Lemma upb_iff d i : 0 <= d < len -> upb d i = true <-> upstream deps i d.
  Proof.
    intros Hd. destruct (hgt_ex n deps WF d Hd) as [m Hm]. rewrite <- (po_in n deps WF Hn VO N d m Hm) by lia. unfold upb. rewrite existsb_exists. split.
    - intros [x [A B]]. apply Z.eqb_eq in B. subst x. auto.
    - intros P. exists i. split; auto. apply Z.eqb_refl.
  Qed.

  (** *** sums over disjoint sets *)
  Lemma tsum_split S S1 S2 f : (forall i, 0 <= i < len -> S i = S1 i || S2 i /\ (S1 i = true -> S2 i = true -> False)) ->
    (tsum S f = tsum S1 f + tsum S2 f)%Qc.
  Proof.
    intros H. unfold FSMRoute.tsum. assert (G : forall L, (forall i, In i L -> 0 <= i < len) ->
      (qsum (map (fun i => if S i then own i (f i) else 0) L) =
       qsum (map (fun i => if S1 i then own i (f i) else 0) L) + qsum (map (fun i => if S2 i then own i (f i) else 0) L))%Qc).
    { induction L as [|a L IH]; intros HL; unfold qsum in *; cbn [map fold_right]; [ring|]. rewrite IH by (intros; apply HL; right; auto).
      destruct (H a (HL a (or_introl eq_refl))) as [E D]. rewrite E. destruct (S1 a), (S2 a); cbn [orb]; try ring. exfalso; auto. }
    apply G. intros i Hi. apply zrange_In in Hi. lia.
  Qed.
  Lemma tsum_same S1 S2 f : (forall i, 0 <= i < len -> S1 i = S2 i) -> tsum S1 f = tsum S2 f.
  Proof. intros H. unfold FSMRoute.tsum. f_equal. apply map_ext_in. intros i Hi. apply zrange_In in Hi. rewrite H by lia. reflexivity. Qed.
  Lemma tsum_one d f : 0 <= d < len -> tsum (fun i => i =? d) f = own d (f d).
  Proof.
    intros Hd. unfold FSMRoute.tsum.
    assert (G : forall L, NoDup L -> qsum (map (fun i => if i =? d then own i (f i) else 0%Qc) L) = if existsb (Z.eqb d) L then own d (f d) else 0%Qc).
    { induction L as [|b L IH]; intros HN; cbn [map existsb]; [reflexivity|]. inversion HN; subst. unfold qsum in *. cbn [fold_right].
      rewrite IH by auto. rewrite (Z.eqb_sym b d). destruct (Z.eqb_spec d b) as [<-|]; cbn [orb].
      - replace (existsb (Z.eqb d) L) with false; [ring|]. symmetry. apply not_true_is_false.
        intros X. apply existsb_exists in X. destruct X as [y [Y1 Y2]]. apply Z.eqb_eq in Y2. congruence.
      - ring. }
    rewrite G by apply zrange_NoDup. replace (existsb (Z.eqb d) (zrange 0 N)) with true; [reflexivity|].
    symmetry. apply existsb_exists. exists d. split; [apply zrange_In; lia|apply Z.eqb_refl].
  Qed.
  Lemma tsum_none f : tsum (fun _ => false) f = 0%Qc.
  Proof. unfold FSMRoute.tsum. generalize (zrange 0 N). induction l as [|a l IH]; [reflexivity|]. unfold qsum in *. cbn [map fold_right]. rewrite IH. ring. Qed.

  Lemma tsum_leaf d f : 0 <= d < n -> tsum (partb d) f = f d.
  Proof.
    intros Hd. pose proof (wf_size _ _ WF). rewrite (tsum_same _ (fun i => i =? d)).
    - rewrite tsum_one by lia. unfold FSMRoute.own. destruct (Z.ltb_spec d n); [reflexivity|lia].
    - intros i Hi. apply eq_true_iff_eq. rewrite partb_iff, Z.eqb_eq by auto. split; [|intros ->; constructor].
      intros P. destruct (part_inv _ _ _ P) as [|[q [_ L]]]; auto. pose proof (wlink n deps WF _ _ L). lia.
  Qed.
  Lemma tsum_meta d f : n <= d < len -> (tsum (partb d) f = own d (f d) + (tsum (partb (lch d)) f + tsum (partb (rch d)) f))%Qc.
  Proof.
    intros Hd. pose proof n_pos. destruct (wmeta d Hd) as [A [B [C [D [E [F [G _]]]]]]].
    assert (LL : links deps (lch d) d) by (rewrite <- D at 2; apply child_link; auto; lia).
    assert (LR : links deps (rch d) d) by (rewrite <- E at 2; apply child_link; auto; lia).
    rewrite <- (tsum_split (fun i => partb (lch d) i || partb (rch d) i)).
    - rewrite <- (tsum_one d f) by lia. apply tsum_split. intros i Hi. split.
      + apply eq_true_iff_eq. rewrite !orb_true_iff, !partb_iff, Z.eqb_eq by auto. split.
        * intros P. destruct (Z.eq_dec i d) as [|Hne]; [auto|right]. apply (wchild n deps WF d (dp d)); auto; [apply dp_ix; lia|lia].
        * intros [->|[P|P]]; [constructor|eapply part_step; eauto|eapply part_step; eauto].
      + intros X Y. apply Z.eqb_eq in X. subst i. apply orb_true_iff in Y. rewrite !partb_iff in Y by auto.
        destruct Y as [Y|Y]; apply (wpart_le n deps WF) in Y; lia.
    - intros i Hi. split; [reflexivity|]. rewrite !partb_iff by auto. intros P1 P2.
      destruct (part_chain deps _ _ _ P1 P2) as [P|P].
      + destruct (part_front _ _ _ P) as [X|[p [L P']]]; [congruence|]. apply (link_fun deps _ _ _ LL) in L. subst p. apply (wpart_le n deps WF) in P'. lia.
      + destruct (part_front _ _ _ P) as [X|[p [L P']]]; [congruence|]. apply (link_fun deps _ _ _ LR) in L. subst p. apply (wpart_le n deps WF) in P'. lia.
  Qed.

  (** *** the water of a depression *)
  Definition capped (f : Z -> Qc) : Prop := forall x, 0 < x < len -> (f x <= V x)%Qc.
  Lemma full_amount f : fok f -> capped f -> forall k d, (Z.to_nat d < k)%nat -> 0 < d < len -> full f d -> tsum (partb d) f = V d.
  Proof.
    intros FO CP. pose proof n_pos. induction k as [|k IH]; intros d Hk Hd FD; [lia|]. unfold FSMRoute.full in FD.
    assert (FV : f d = V d) by (apply Qcle_antisym; auto).
    destruct (Z_lt_ge_dec d n); [rewrite tsum_leaf; [auto|lia]|].
    rewrite tsum_meta by lia. destruct (wmeta d) as [A [B [C [D [E [F [G [_ [_ HV]]]]]]]]]; [lia|].
    assert (CF : full f (lch d) /\ full f (rch d)).
    { destruct (qeqP (f d) 0) as [Z0|Z0]; [|apply (fk_meta _ _ _ FO); auto; lia].
      assert (0 <= V (lch d))%Qc by (apply (V_nonneg n deps VO); lia). assert (0 <= V (rch d))%Qc by (apply (V_nonneg n deps VO); lia).
      pose proof (fk_pos _ _ _ FO (lch d)). pose proof (fk_pos _ _ _ FO (rch d)). unfold FSMRoute.full. rewrite FV in Z0. rewrite Z0 in HV. split; qlra. }
    destruct CF as [CL CR]. rewrite (IH (lch d)), (IH (rch d)) by (auto; lia). unfold FSMRoute.own. destruct (Z.ltb_spec d n); [lia|].
    rewrite FV. destruct (qeqP (V d) 0) as [Z0|Z0]; [|ring].
    assert (0 <= V (lch d))%Qc by (apply (V_nonneg n deps VO); lia). assert (0 <= V (rch d))%Qc by (apply (V_nonneg n deps VO); lia). qlra.
  Qed.

  Definition tidy (f : Z -> Qc) : Prop := capped f \/ forall x, n <= x -> f x = 0%Qc.
  Lemma holds_amount wv : length wv = N -> fok (wat wv) -> tidy (wat wv) -> forall d q, holds deps wv d q -> 0 <= d < len /\ tsum (partb d) (wat wv) = q.
  Proof.
    intros HL FO TD. pose proof n_pos. pose proof (wf_size _ _ WF) as SZ. pose proof len_small.
    induction 1 as [d r q E L Q|d r q E L Q NZ|d r a b E L Q HA IHA HB IHB]; assert (Hd := ixr _ _ _ E);
      (assert (Er : r = dp d) by (pose proof (dp_ix d Hd) as E2; rewrite E in E2; congruence)); subst r; split; auto;
      assert (QW : ix wv d = Some (wat wv d)) by (apply wat_ix; lia); rewrite Q in QW; injection QW as QW.
    - rewrite QW. apply tsum_leaf. destruct (Z_lt_ge_dec d n); [lia|]. destruct (wmeta d) as [A _]; lia.
    - destruct (Z_lt_ge_dec d n); [destruct (wleaf d) as [X _]; [lia|contradiction]|].
      destruct (wmeta d) as [A [B _]]; [lia|]. rewrite QW in NZ |- *.
      destruct TD as [CP|M0]; [|exfalso; apply NZ, M0; lia].
      destruct (fk_meta _ _ _ FO d) as [FL FR]; [lia|auto|]. rewrite tsum_meta by lia.
      rewrite (full_amount _ FO CP (S (Z.to_nat (lch d)))), (full_amount _ FO CP (S (Z.to_nat (rch d)))) by (auto; lia).
      unfold FSMRoute.own. destruct (Z.ltb_spec d n); [lia|]. destruct (qeqP (wat wv d) 0); [contradiction|ring].
    - destruct (Z_lt_ge_dec d n); [destruct (wleaf d) as [X _]; [lia|contradiction]|].
      rewrite tsum_meta by lia. destruct IHA as [_ ->]. destruct IHB as [_ ->]. rewrite <- QW. unfold FSMRoute.own.
      destruct (Z.ltb_spec d n); [lia|]. destruct (qeqP 0 0) as [_|X]; [ring|congruence].
  Qed.
  Lemma holds_total wv : length wv = N -> forall k d, (Z.to_nat d < k)%nat -> 0 <= d < len -> exists q, holds deps wv d q.
  Proof.
    intros HL. pose proof n_pos. pose proof len_small. induction k as [|k IH]; intros d Hk Hd; [lia|].
    pose proof (wat_ix wv d ltac:(lia)) as W. destruct (Z_lt_ge_dec d n).
    - exists (wat wv d). eapply hl_leaf; [apply dp_ix; lia|apply wleaf; lia|exact W].
    - destruct (wmeta d) as [A [B _]]; [lia|]. destruct (qeqP (wat wv d) 0) as [Z0|Z0].
      + rewrite Z0 in W. destruct (IH (lch d)) as [a HA]; [lia|lia|]. destruct (IH (rch d)) as [b HB]; [lia|lia|].
        exists (a + b)%Qc. eapply hl_split; [apply dp_ix; lia|lia|exact W|exact HA|exact HB].
      + exists (wat wv d). eapply hl_merged; [apply dp_ix; lia|lia|exact W|exact Z0].
  Qed.

  (** *** the water upstream of a depression *)
  Lemma part_up_stream i t : part_of deps i t -> upstream deps i t.
  Proof.
    revert i t. apply part_ind'; [constructor|]. intros k d p P U L. destruct (link_par _ _ L) as [A [B ->]].
    eapply up_trans; eauto. eapply up_par; eauto. constructor.
  Qed.
  Definition tops (d : Z) : list Z := filter (fun t => (t =? d) || (negb (t =? d) && upb d t && d_ocean_parent (dp t))) (zrange 0 N).
  Lemma tops_iff d : 0 <= d < len -> forall t, In t (tops d) <->
    t = d \/ (t <> d /\ upstream deps t d /\ exists r, ix deps t = Some r /\ d_ocean_parent r = true).
  Proof.
    intros Hd t. unfold tops. rewrite filter_In, zrange_In, orb_true_iff, !andb_true_iff, Z.eqb_eq, upb_iff, negb_true_iff, Z.eqb_neq by auto. split.
    - intros [Hr [->|[[A B] C]]]; [auto|]. right. split; auto. split; auto. exists (dp t). split; [apply dp_ix; lia|auto].
    - intros [->|[A [B [r [E O]]]]]; [split; [lia|auto]|]. assert (Hr := ixr _ _ _ E). split; [lia|]. right. split; auto.
      unfold FSMRoute.dp. rewrite E. exact O.
  Qed.
  Lemma tops_cover d i : upstream deps i d -> 0 <= d < len -> exists t, In t (tops d) /\ part_of deps i t.
  Proof.
    intros U Hd. revert i d U Hd. apply (up_ind' n deps WF (fun i d => 0 <= d < len -> exists t, In t (tops d) /\ part_of deps i t)).
    - intros d Hd. exists d. split; [apply tops_iff; auto|constructor].
    - intros x c Hx U IH Hc. destruct (Z.eq_dec x c) as [->|Hne]; [exists c; split; [apply tops_iff; auto|constructor]|].
      destruct (IH Hc) as [t [T1 T2]]. destruct (d_ocean_parent (dp x)) eqn:E.
      + exists x. split; [|constructor]. apply tops_iff; auto. right. split; auto. split; [apply (up_par n deps WF Hn); auto|].
        exists (dp x). split; [apply dp_ix; lia|auto].
      + exists t. split; auto. eapply part_left; [apply child_link; auto|exact T2].
  Qed.
  Lemma tops_apart d : 0 <= d < len -> forall i t t', In t (tops d) -> In t' (tops d) -> part_of deps i t -> part_of deps i t' -> t = t'.
  Proof.
    intros Hd.
    assert (G : forall t t', In t (tops d) -> In t' (tops d) -> part_of deps t t' -> t = t').
    { intros t t' T T' P. destruct (part_front _ _ _ P) as [|[p [L P']]]; [auto|]. apply (tops_iff d Hd) in T. apply (tops_iff d Hd) in T'.
      destruct T as [->|[_ [_ [r [E O]]]]].
      - destruct T' as [->|[A [B _]]]; [auto|]. apply part_up_stream in P. destruct (hgt_ex n deps WF d Hd) as [m Hm].
        destruct (hgt_ex n deps WF t') as [m' Hm']; [eapply up_in; eauto|].
        destruct (up_hgt n deps WF _ _ P _ _ Hm Hm'). destruct (up_hgt n deps WF _ _ B _ _ Hm' Hm). assert (m = m') by lia. subst. symmetry. auto.
      - destruct L as [r' [E' [O' _]]]. congruence. }
    intros i t t' T T' P P'. destruct (part_chain deps _ _ _ P P') as [X|X]; [eauto|symmetry; eauto].
  Qed.
  Lemma tsum_tops f : forall l, NoDup l -> (forall i t t', In t l -> In t' l -> 0 <= i < len -> partb t i = true -> partb t' i = true -> t = t') ->
    (tsum (fun i => existsb (fun t => partb t i) l) f = qsum (map (fun t => tsum (partb t) f) l))%Qc.
  Proof.
    induction l as [|a l IH]; intros ND H; cbn [existsb map]; [apply tsum_none|]. inversion ND; subst. unfold qsum in *. cbn [fold_right].
    rewrite <- IH; auto; [|intros i t t' T T'; apply H; right; auto]. apply tsum_split. intros i Hi. split; [reflexivity|].
    intros X Y. apply existsb_exists in Y. destruct Y as [t [T1 T2]]. assert (a = t) by (apply (H i); auto; [left|right]; auto). congruence.
  Qed.
  Lemma up_amount wv : length wv = N -> fok (wat wv) -> tidy (wat wv) -> forall d q, 0 <= d < len -> holds_upstream deps wv d q -> tsum (upb d) (wat wv) = q.
  Proof.
    intros HL FO TD d q Hd [l [f [ND [IN [HO ->]]]]].
    assert (IT : forall t, In t l <-> In t (tops d)) by (intros t; rewrite (tops_iff d Hd); auto).
    rewrite (tsum_same _ (fun i => existsb (fun t => partb t i) l)).
    - rewrite tsum_tops; auto.
      + f_equal. apply map_ext_in. intros t Ht. apply (holds_amount wv HL FO TD); auto.
      + intros i t t' T T' Hi P P'. apply partb_iff in P; auto. apply partb_iff in P'; auto. apply (tops_apart d Hd i); auto; apply IT; auto.
    - intros i Hi. apply eq_true_iff_eq. rewrite upb_iff, existsb_exists by auto. split.
      + intros U. destruct (tops_cover d i U Hd) as [t [T1 T2]]. exists t. split; [apply IT; auto|]. apply partb_iff; auto.
      + intros [t [T P]]. apply partb_iff in P; auto. apply part_up_stream in P. apply IN in T. destruct T as [->|[_ [U _]]]; auto.
        eapply up_trans; eauto.
  Qed.
  Lemma up_total wv : length wv = N -> forall d, 0 <= d < len -> exists q, holds_upstream deps wv d q.
  Proof.
    intros HL d Hd.
    assert (G : forall l, (forall t, In t l -> 0 <= t < len) -> exists f : Z -> Qc, forall t, In t l -> holds deps wv t (f t)).
    { induction l as [|a l IH]; intros H; [exists (fun _ => 0%Qc); intros t []|].
      destruct IH as [f Hf]; [intros; apply H; right; auto|]. destruct (holds_total wv HL (S (Z.to_nat a)) a) as [q Hq]; [lia|apply H; left; auto|].
      exists (fun t => if t =? a then q else f t). intros t [<-|Ht]; [rewrite Z.eqb_refl; auto|]. destruct (Z.eqb_spec t a) as [->|]; auto. }
    destruct (G (tops d)) as [f Hf].
    { intros t Ht. unfold tops in Ht. apply filter_In in Ht. destruct Ht as [Ht _]. apply zrange_In in Ht. lia. }
    exists (qsum (map f (tops d))), (tops d), f. split; [apply NoDup_filter, zrange_NoDup|]. split; [apply tops_iff; auto|]. auto.
  Qed.

  Lemma part_closed d : closed (partb d) d.
  Proof.
    intros x Hx P Hne. apply partb_iff in P; [|lia]. destruct (part_front _ _ _ P) as [|[p [L P']]]; [congruence|].
    destruct (link_par _ _ L) as [_ [O ->]]. pose proof (par_in n deps WF x Hx). split; [apply partb_iff; auto|].
    intros _ y Y. apply partb_iff; [eapply (geo_in n deps WF); eauto|].
    destruct (wplace x Hx) as [A1 A2 A3|A1 A2 A3 A4 A5 A6 A7 A8 A9 A10 A11 A12]; [congruence|].
    eapply part_trans; [exact Y|]. eapply part_left; [apply child_link; auto|]. rewrite A8. exact P'.
  Qed.
  Lemma up_closed d : 0 <= d < len -> closed (upb d) d.
  Proof.
    intros Hd x Hx P Hne. apply upb_iff in P; auto. destruct (up_inv n deps WF _ _ P) as [|[_ U]]; [congruence|]. split; [apply upb_iff; auto|].
    intros O y Y. apply upb_iff; auto. eapply (up_trans n deps WF Hn); [apply part_up_stream; exact Y|].
    destruct (wplace x Hx) as [A1 A2 A3|A1 A2 A3 A4 A5 A6 A7 A8 A9 A10 A11 A12]; [congruence|].
    apply (up_par n deps WF Hn); auto. rewrite A8. exact U.
  Qed.

  (** *** the result *)
  Lemma pits_fok wv : pits_only n deps wv -> fok (wat wv) /\ tidy (wat wv).
  Proof.
    intros [HL H]. assert (G : forall i, (0 <= wat wv i)%Qc /\ (n <= i -> wat wv i = 0%Qc)).
    { intros i. unfold wat. destruct (ix wv i) as [q|] eqn:E; [apply (H i); auto|]. split; auto. apply Qcle_refl. }
    split; [|right; intros x Hx; apply G; auto]. constructor; [intros i; apply G| |]; intros d Hd X; exfalso; apply X, G; lia.
  Qed.
  Lemma fok_levelled wv : length wv = N -> fok (wat wv) -> capped (wat wv) -> levelled deps wv.
  Proof.
    intros HL FO CP. pose proof n_pos. pose proof len_small. split; [exact HL|]. split; [|split].
    - intros d r q E Q. assert (Hd := ixr _ _ _ E). assert (QW : ix wv d = Some (wat wv d)) by (apply wat_ix; lia). rewrite Q in QW. injection QW as ->.
      split; [apply (fk_pos _ _ _ FO)|]. intros Nd. destruct (vol_dp n deps VO d) as [z [E1 [E2 _]]]; [lia|].
      assert (r = dp d) by (pose proof (dp_ix d Hd) as E3; rewrite E in E3; congruence). subst r. exists z. split; auto. rewrite <- E2. apply CP. lia.
    - intros d r q c rc E NL Q NZ Hc Ec. assert (Hd := ixr _ _ _ E). assert (QW : ix wv d = Some (wat wv d)) by (apply wat_ix; lia). rewrite Q in QW. injection QW as ->.
      assert (r = dp d) by (pose proof (dp_ix d Hd) as E3; rewrite E in E3; congruence). subst r.
      destruct (Z_lt_ge_dec d n); [destruct (wleaf d) as [X _]; [lia|contradiction]|]. destruct (wmeta d) as [A [B _]]; [lia|].
      destruct (fk_meta _ _ _ FO d) as [FL FR]; [lia|auto|]. assert (Hcr : 0 < c < len) by (destruct Hc as [->| ->]; lia).
      destruct (vol_dp n deps VO c Hcr) as [z [E1 [E2 _]]].
      assert (rc = dp c) by (pose proof (dp_ix c ltac:(lia)) as E3; rewrite Ec in E3; congruence). subst rc. exists z. split; auto.
      rewrite <- E2. rewrite wat_ix by lia. f_equal. apply Qcle_antisym; [apply CP; auto|]. unfold FSMRoute.full in *. destruct Hc as [->| ->]; auto.
    - intros d r q rl rr vl vr E Q NZ El Er Vl Vr. assert (Hd := ixr _ _ _ E). assert (QW : ix wv d = Some (wat wv d)) by (apply wat_ix; lia). rewrite Q in QW. injection QW as ->.
      assert (r = dp d) by (pose proof (dp_ix d Hd) as E3; rewrite E in E3; congruence). subst r.
      destruct (Z_lt_ge_dec d n); [destruct (wleaf d) as [X _]; [lia|]; rewrite X in El; apply ixr in El; lia|].
      pose proof (fk_held _ _ _ FO d ltac:(lia) NZ) as H1. 
      assert (Dl : dp (lch d) = rl) by (unfold FSMRoute.dp at 1; rewrite El; reflexivity). assert (Dr : dp (rch d) = rr) by (unfold FSMRoute.dp at 1; rewrite Er; reflexivity).
      unfold FSMRoute.V in H1. rewrite Dl, Dr, Vl, Vr in H1. exact H1.
  Qed.
  Lemma levelled_fok wv : levelled deps wv -> length wv = N /\ fok (wat wv) /\ capped (wat wv).
  Proof.
    intros [HL [LA [LB LC]]]. pose proof n_pos. pose proof len_small. pose proof (wf_size _ _ WF). split; [exact HL|].
    assert (W : forall d, 0 <= d < len -> ix wv d = Some (wat wv d)) by (intros; apply wat_ix; lia).
    split; [constructor|].
    - intros i. destruct (ix wv i) as [q|] eqn:E; [|unfold wat; rewrite E; apply Qcle_refl].
      assert (Hi : 0 <= i < len) by (apply ixr in E; lia). destruct (LA i (dp i) (wat wv i) (dp_ix i Hi) (W i Hi)) as [X _]. exact X.
    - intros d Hd NZ. destruct (wmeta d Hd) as [A [B [C [D _]]]].
      assert (G : forall c, c = lch d \/ c = rch d -> full (wat wv) c).
      { intros c Hc. assert (Hcr : 0 < c < len) by (destruct Hc as [->| ->]; lia).
        destruct (LB d (dp d) (wat wv d) c (dp c)) as [v [Ev Wv]]; auto; [apply dp_ix; lia|lia|apply W; lia|apply dp_ix; lia|].
        rewrite W in Wv by lia. injection Wv as Wv. unfold FSMRoute.full, FSMRoute.V. rewrite Ev, Wv. apply Qcle_refl. }
      split; apply G; auto.
    - intros d Hd NZ. destruct (wmeta d Hd) as [A [B _]].
      destruct (vol_dp n deps VO (lch d)) as [zl [El1 [El2 _]]]; [lia|]. destruct (vol_dp n deps VO (rch d)) as [zr [Er1 [Er2 _]]]; [lia|].
      rewrite El2, Er2. apply (LC d (dp d) (wat wv d) (dp (lch d)) (dp (rch d))); auto; try (apply dp_ix; lia). apply W; lia.
    - intros x Hx. destruct (LA x (dp x) (wat wv x) (dp_ix x ltac:(lia)) (W x ltac:(lia))) as [_ X]. destruct X as [v [Ev Lv]]; [lia|].
      unfold FSMRoute.V. rewrite Ev. exact Lv.
  Qed.

  Lemma route_correct wv : pits_only n deps wv ->
    exists wv', route_water deps wv = Some (Ok wv') /\ levelled deps wv' /\
      (forall a b, holds_upstream deps wv 0 a -> holds_upstream deps wv' 0 b -> (a - zq len * fp_error <= b /\ b <= a)%Qc) /\
      (forall d r v q, ix deps d = Some r -> d <> 0 -> d_vol r = Some v -> ix wv' d = Some q -> (q < zq v)%Qc ->
         (forall a b, holds deps wv d a -> holds deps wv' d b -> (a - zq len * fp_error <= b)%Qc) /\
         (forall a b, holds_upstream deps wv d a -> holds_upstream deps wv' d b -> (a - zq len * fp_error <= b)%Qc)).
  Proof.
    intros PO. pose proof PO as [HL _]. destruct (pits_fok wv PO) as [FO TD]. pose proof n_pos as NP. pose proof (wf_size _ _ WF) as SZ.
    destruct (route_ok n deps WF Hn VO wv HL FO) as [s [E [[K1 K2 _ K4 K5 K6] PM]]].
    unfold route_water. rewrite E. exists (s_wv s). split; [reflexivity|].
    assert (CP : capped (wat (s_wv s))).
    { intros x Hx. apply K4; auto. eapply Permutation_in; [symmetry; exact PM|]. apply zrange_In. lia. }
    assert (LP : length (postorder deps N 0) = N) by (rewrite (Permutation_length PM); apply zrange_length).
    assert (TD' : tidy (wat (s_wv s))) by (left; exact CP).
    split; [apply fok_levelled; auto|]. rewrite LP in K5. split.
    - intros a b HA HB. assert (H0 : 0 <= 0 < len) by lia.
      pose proof (up_amount wv HL FO TD 0 a H0 HA) as EA. pose proof (up_amount _ K1 K2 TD' 0 b H0 HB) as EB.
      assert (AL : forall f, tsum (upb 0) f = tsum all f).
      { intros f. apply tsum_same. intros i Hi. apply upb_iff; auto. destruct (hgt_ex n deps WF i Hi) as [m Hm]. clear Hi.
        induction Hm; [constructor|]. apply (up_par n deps WF Hn); auto. }
      rewrite AL in EA, EB. rewrite <- EA, <- EB. split; [|exact K6].
      destruct (K5 all 0) as [[X _]|X]; [intros x _ _ _; split; auto|lia|exact X].
    - intros d r v q Ed Nd Ev Q LT. assert (Hd := ixr _ _ _ Ed).
      assert (r = dp d) by (pose proof (dp_ix d Hd) as E3; rewrite Ed in E3; congruence). subst r.
      assert (QW : ix (s_wv s) d = Some (wat (s_wv s) d)) by (apply wat_ix; lia). rewrite Q in QW. injection QW as ->.
      assert (NF : ~ full (wat (s_wv s)) d).
      { unfold FSMRoute.full, FSMRoute.V. rewrite Ev. apply Qclt_not_le. exact LT. }
      split.
      + intros a b HA HB. destruct (holds_amount wv HL FO TD d a HA) as [_ <-]. destruct (holds_amount _ K1 K2 TD' d b HB) as [_ <-].
        destruct (K5 (partb d) d (part_closed d)) as [[_ X]|X]; [contradiction|exact X].
      + intros a b HA HB. rewrite <- (up_amount wv HL FO TD d a Hd HA), <- (up_amount _ K1 K2 TD' d b Hd HB).
        destruct (K5 (upb d) d (up_closed d Hd)) as [[_ X]|X]; [contradiction|exact X].
  Qed.

  (** before: all the water there is is the sum of the entries *)
  Lemma pits_total wv : pits_only n deps wv -> forall a, holds_upstream deps wv 0 a -> a = qsum wv.
  Proof.
    intros PO a HA. pose proof PO as [HL H]. destruct (pits_fok wv PO) as [FO TD]. pose proof n_pos as NP. pose proof (wf_size _ _ WF) as SZ.
    assert (H0 : 0 <= 0 < len) by lia. rewrite <- (up_amount wv HL FO TD 0 a H0 HA), <- (wsum_all wv).
    rewrite (tsum_same _ all).
    - unfold FSMRoute.tsum, wsum. rewrite HL. f_equal. apply map_ext_in. intros i Hi. apply zrange_In in Hi. unfold FSMRoute.own.
      destruct (Z.ltb_spec i n); [reflexivity|]. pose proof (wat_ix wv i ltac:(lia)) as W. destruct (H _ _ W) as [_ X]. rewrite (X H1).
      destruct (qeqP 0 0); [reflexivity|congruence].
    - intros i Hi. apply upb_iff; auto. destruct (hgt_ex n deps WF i Hi) as [m Hm]. clear Hi.
      induction Hm; [constructor|]. apply (up_par n deps WF Hn); auto.
  Qed.
End Amounts.
