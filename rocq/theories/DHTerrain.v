(** The hierarchy against the terrain: outlets are lowest passes, and outlet elevations are escape levels. *)
From Coq Require Import ZArith List Lia Bool Permutation Sorting.Sorted Relations.
From Verif Require Import Base Res RasterSpec RasterFacts UFModel UFProofs UFSpec FlowModel FlowProofs FlatsSpec FlatsModel FlatsProofs DHModel DHSpec DHFlood DHTree.
Open Scope Z_scope.
Local Notation "g @ c" := (elev_at g c) (at level 20).

(** ** Parts of a well-formed hierarchy *)
Section Tree.
  Variables (n : Z) (deps : list dep).
  Hypothesis WF : well_formed n deps.
  Hypothesis Hn : n <= 2 ^ 31.
  Let len := Z.of_nat (length deps).

  Lemma wlink k p : links deps k p -> 0 < k < p /\ p < len /\ n <= p /\ 0 <= k.
  Proof.
    intros [r [E [O [N <-]]]]. assert (Hk : k <> 0).
    { intros ->. destruct (wf_ocean _ _ WF) as [r0 [E0 [N0 _]]]. assert (r = r0) by congruence. subst r0. auto. }
    pose proof (ixr _ _ _ E).
    destruct (wf_parent _ _ WF k r E Hk) as [[A _]|[_ [A [B _]]]]; [congruence|]. unfold len. lia.
  Qed.
  Lemma wpart_le k d : part_of deps k d -> k <= d.
  Proof. intros H. apply (part_ind' deps (fun k d => k <= d)); [intros; lia| |auto]. intros k0 d0 p _ I L. apply wlink in L. lia. Qed.
  Lemma wpart_in k d : part_of deps k d -> 0 <= k < len -> 0 <= d < len.
  Proof. intros H. revert k d H. apply (part_ind' deps (fun k d => 0 <= k < len -> 0 <= d < len)); [auto|]. intros k0 d0 p _ I L Hk. apply wlink in L. specialize (I Hk). lia. Qed.
  Lemma wpart0 d : part_of deps 0 d -> d = 0.
  Proof.
    intros H. remember 0 as z eqn:Ez. revert Ez. pattern z, d. apply (part_ind' deps); auto.
    intros k d0 p _ I L Hk. specialize (I Hk). subst. apply wlink in L. lia.
  Qed.
  Lemma wpart_of0 k : 0 <= k -> part_of deps k 0 -> k = 0.
  Proof. intros Hk H. apply wpart_le in H. lia. Qed.
  Lemma part_front k d : part_of deps k d -> k = d \/ exists p, links deps k p /\ part_of deps p d.
  Proof.
    intros H. pattern k, d. apply (part_ind' deps); auto. intros k0 d0 p P [->|[q [L Q]]] L2; right.
    - exists p. split; auto. apply part_refl.
    - exists q. split; auto. eapply part_step; eauto.
  Qed.
  Lemma link_fun k p q : links deps k p -> links deps k q -> p = q.
  Proof. intros [r [E [_ [_ A]]]] [r' [E' [_ [_ B]]]]. congruence. Qed.
  Lemma link_dec k : (exists p, links deps k p) \/ ~ exists p, links deps k p.
  Proof.
    destruct (ix deps k) as [r|] eqn:E; [|right; intros [p [r [E' _]]]; congruence].
    destruct (d_ocean_parent r) eqn:O; [right; intros [p [r' [E' [O' _]]]]; congruence|].
    destruct (Z.eq_dec (d_parent r) NO_PARENT) as [N|N].
    - right. intros [p [r' [E' [_ [N' _]]]]]. congruence.
    - left. exists (d_parent r), r. auto.
  Qed.
  Lemma part_dec k d : part_of deps k d \/ ~ part_of deps k d.
  Proof.
    remember (Z.to_nat (len - k)) as m eqn:Em. revert k Em. induction m as [m IH] using (well_founded_induction lt_wf).
    intros k Em. destruct (Z.eq_dec k d) as [->|Hne]; [left; apply part_refl|].
    destruct (link_dec k) as [[p L]|N].
    - pose proof (wlink _ _ L). destruct (IH (Z.to_nat (len - p)) ltac:(lia) p eq_refl) as [Y|Y].
      + left. eapply part_left; eauto.
      + right. intros P. apply part_front in P. destruct P as [|[q [L2 P]]]; [auto|]. rewrite (link_fun _ _ _ L L2) in Y. auto.
    - right. intros H. apply part_front in H. destruct H as [|[q [L2 H]]]; eauto.
  Qed.
  (** ancestors of one depression form a chain *)
  Lemma part_chain k a b : part_of deps k a -> part_of deps k b -> part_of deps a b \/ part_of deps b a.
  Proof.
    intros A. revert b. pattern k, a. apply (part_ind' deps); auto.
    intros k0 d p P I L b B. destruct (I b B) as [H|H]; [|right; eapply part_step; eauto].
    apply part_front in H. destruct H as [<-|[q [L2 H]]]; [right; eapply part_step; [apply part_refl|eauto]|]. rewrite (link_fun _ _ _ L L2). auto.
  Qed.
  Lemma wchild d r k : ix deps d = Some r -> n <= d -> part_of deps k d -> k <> d -> part_of deps k (d_lchild r) \/ part_of deps k (d_rchild r).
  Proof.
    intros E Hd P Hk. apply part_inv in P. destruct P as [|[c [P L]]]; [contradiction|].
    destruct L as [q [Eq [O [N Hp]]]].
    assert (Hc : c <> 0). { assert (L : links deps c d) by (exists q; auto). apply wlink in L. lia. }
    destruct (wf_parent _ _ WF c q Eq Hc) as [[A _]|[_ [_ [_ [p [Ep [[[A _]|[A _]] _]]]]]]]; [congruence| |]; rewrite Hp in Ep; assert (p = r) by congruence; subst p c; auto.
  Qed.
  Lemma wchild_link d r c : ix deps d = Some r -> n <= d -> c = d_lchild r \/ c = d_rchild r -> 1 <= c < d /\ links deps c d.
  Proof.
    intros E Hd Hc. destruct (wf_meta _ _ WF d r E Hd) as [_ B]. destruct (B c Hc) as [C [q [Eq [P O]]]]. split; auto.
    exists q. split; auto. split; auto. split; auto. rewrite P. pose proof (ixr _ _ _ E). pose proof (wf_size _ _ WF).
    unfold NO_PARENT. lia.
  Qed.
  Lemma level_mono k d : part_of deps k d -> k <> 0 -> forall rk rd zk zd, ix deps k = Some rk -> ix deps d = Some rd -> d_out_elev rk = Some zk -> d_out_elev rd = Some zd -> zk <= zd.
  Proof.
    intros P. revert k d P. apply (part_ind' deps (fun k d => k <> 0 -> forall rk rd zk zd, ix deps k = Some rk -> ix deps d = Some rd -> d_out_elev rk = Some zk -> d_out_elev rd = Some zd -> zk <= zd)).
    - intros k _ rk rd zk zd A B C D. assert (rk = rd) by congruence. subst. assert (zk = zd) by congruence. lia.
    - intros k d p P I L Hk rk rp zk zp A B C D. pose proof (wlink d p L). destruct L as [rd [Ed [O [Np Hp]]]].
      destruct (wf_levels _ _ WF d rd Ed ltac:(lia)) as [zd [Zd M]]. specialize (I Hk rk rd zk zd A Ed C Zd).
      rewrite <- Hp in B. specialize (M rp zp O B D). lia.
  Qed.

End Tree.

Section Terrain.
  Variables (t : topology) (w h : Z) (dem lab0 fd0 lab fd : grid Z) (pits : list cellt) (db : list outlet).
  Hypothesis Hval : valid_labels w h lab0.
  Hypothesis W : watersheds t w h dem lab0 fd0 lab fd pits.
  Hypothesis HDB : all_passes t w h dem lab (Z.of_nat (length pits) + 1) db.
  Let n := Z.of_nat (length pits) + 1.
  Notation inside := (FlatsSpec.inside w h).
  Notation neighbours := (DHSpec.neighbours t).
  Notation ocean := (ocean_cell w h lab0).

  (** ** All watersheds hang together *)
  Lemma adj_pass p q : inside p -> inside q -> neighbours p q -> lab @ p <> lab @ q ->
    exists o, In o db /\ ((o_a o = lab @ p /\ o_b o = lab @ q) \/ (o_a o = lab @ q /\ o_b o = lab @ p)) /\ o_elev o <= Z.max (dem @ p) (dem @ q).
  Proof.
    intros Hp Hq N D. destruct HDB as [_ [PASS ALL]].
    assert (HH : forall p q, inside p -> inside q -> neighbours p q -> lab @ p < lab @ q ->
      exists o, In o db /\ o_a o = lab @ p /\ o_b o = lab @ q /\ o_elev o <= Z.max (dem @ p) (dem @ q)).
    { intros p1 q1 H1 H2 N1 L1. destruct (ALL p1 q1 H1 H2 N1 L1) as [o [Io [A B]]]. exists o. split; auto. split; auto. split; auto.
      destruct (PASS o Io) as [_ [_ [_ LOW]]].
      destruct (Z_le_gt_dec (dem @ p1) (dem @ q1)).
      - apply (LOW q1). exists p1, q1. rewrite Z.max_r by lia. auto 10.
      - apply (LOW p1). exists p1, q1. rewrite Z.max_l by lia. auto 10. }
    destruct (Z.lt_trichotomy (lab @ p) (lab @ q)) as [L|[L|L]]; [|contradiction|].
    - destruct (HH p q Hp Hq N L) as [o [A [B [C D']]]]. exists o. auto.
    - destruct (HH q p Hq Hp (neighbours_sym _ _ _ N) L) as [o [A [B [C D']]]]. exists o. rewrite Z.max_comm. auto.
  Qed.

  Notation J := (joined (map (fun o => (o_a o, o_b o)) db)).
  Lemma adj_joined p q : inside p -> inside q -> neighbours p q -> J (lab @ p) (lab @ q).
  Proof.
    intros Hp Hq N. destruct (Z.eq_dec (lab @ p) (lab @ q)) as [->|D]; [apply rst_refl|].
    destruct (adj_pass p q Hp Hq N D) as [o [Io [[[A B]|[A B]] _]]].
    - apply rst_step. apply in_map_iff. exists o. rewrite A, B. auto.
    - apply rst_sym, rst_step. apply in_map_iff. exists o. rewrite A, B. auto.
  Qed.
  Lemma inside_iff x y : inside (x, y) <-> 0 <= x < w /\ 0 <= y < h.
  Proof. reflexivity. Qed.
  Lemma adj_down x y : adjacent t x y x (y + 1).
  Proof. destruct t; unfold adjacent; [split; [intros E; inversion E; lia|lia]|lia]. Qed.
  Lemma row_joined y m : forall x, inside (x, y) -> inside (x + Z.of_nat m, y) -> J (lab @ (x, y)) (lab @ (x + Z.of_nat m, y)).
  Proof.
    induction m as [|m IH]; intros x H1 H2; [replace (x + Z.of_nat 0) with x by lia; apply rst_refl|].
    rewrite inside_iff in *. apply rst_trans with (lab @ (x + Z.of_nat m, y)); [apply IH; rewrite inside_iff; lia|].
    apply adj_joined; try (rewrite inside_iff; lia). unfold DHSpec.neighbours. cbn [fst snd].
    replace (x + Z.of_nat (S m)) with (x + Z.of_nat m + 1) by lia. apply adjacent_right.
  Qed.
  Lemma col_joined x m : forall y, inside (x, y) -> inside (x, y + Z.of_nat m) -> J (lab @ (x, y)) (lab @ (x, y + Z.of_nat m)).
  Proof.
    induction m as [|m IH]; intros y H1 H2; [replace (y + Z.of_nat 0) with y by lia; apply rst_refl|].
    rewrite inside_iff in *. apply rst_trans with (lab @ (x, y + Z.of_nat m)); [apply IH; rewrite inside_iff; lia|].
    apply adj_joined; try (rewrite inside_iff; lia). unfold DHSpec.neighbours. cbn [fst snd].
    replace (y + Z.of_nat (S m)) with (y + Z.of_nat m + 1) by lia. apply adj_down.
  Qed.
  Lemma all_joined p q : inside p -> inside q -> J (lab @ p) (lab @ q).
  Proof.
    assert (O : forall p, inside p -> J (lab @ (0, 0)) (lab @ p)).
    { intros [x y] Hp. pose proof Hp as Hp'. rewrite inside_iff in Hp'.
      apply rst_trans with (lab @ (x, 0)).
      - replace x with (0 + Z.of_nat (Z.to_nat x)) by lia. apply row_joined; rewrite inside_iff; lia.
      - replace y with (0 + Z.of_nat (Z.to_nat y)) by lia. apply col_joined; rewrite inside_iff; lia. }
    intros Hp Hq. apply rst_trans with (lab @ (0, 0)); [apply rst_sym|]; apply O; assumption.
  Qed.
  Lemma labels_joined k : (exists p, ocean p) -> 0 <= k < n -> J k 0.
  Proof.
    intros [p0 H0] Hk. destruct (ws_ocean _ _ _ _ _ _ _ _ _ W p0 H0) as [L0 _].
    assert (E : exists p, inside p /\ lab @ p = k).
    { destruct (Z.eq_dec k 0) as [->|Hk0]; [exists p0; split; [apply H0|auto]|].
      destruct (nth_error pits (Z.to_nat (k - 1))) as [p|] eqn:Ep.
      - destruct (ws_pit _ _ _ _ _ _ _ _ _ W _ _ Ep) as [[[Hp _] _] [A _]]. exists p. split; auto. lia.
      - apply nth_error_None in Ep. unfold n in Hk. lia. }
    destruct E as [p [Hp <-]]. apply rst_trans with (lab @ p0); [apply all_joined; auto; apply H0|rewrite L0; apply rst_refl].
  Qed.

  (** ** Outlets are lowest passes *)
  Variable deps : list dep.
  Hypothesis WF : well_formed n deps.
  Hypothesis Hn : n <= 2 ^ 31.
  Hypothesis HOUT : forall d r, ix deps d = Some r -> d <> 0 -> exists o, In o db /\ d_out_elev r = Some (o_elev o) /\ d_out r = Some (o_cell o) /\
        spills deps d (d_geolink r) o /\ forall o', In o' db -> crosses deps d o' -> o_elev o <= o_elev o'.
  Hypothesis HSEA : forall k r d r', ix deps k = Some r -> d_ocean_parent r = true -> part_of deps (d_parent r) d -> ix deps d = Some r' -> d <> 0 ->
      exists z z', d_out_elev r = Some z /\ d_out_elev r' = Some z' /\ z' <= z.
  Notation part := (part_of deps).

  Lemma lab_in p : inside p -> 0 <= lab @ p < Z.of_nat (length deps).
  Proof. intros Hp. pose proof (ws_label _ _ _ _ _ _ _ _ _ W p Hp). pose proof (wf_size _ _ WF). unfold n, cellt in *. lia. Qed.
  Lemma lab_leaf p : inside p -> 0 <= lab @ p < n.
  Proof. intros Hp. pose proof (ws_label _ _ _ _ _ _ _ _ _ W p Hp). unfold n, cellt in *. lia. Qed.

  (** the outlet of [d], as a pair of neighbouring cells *)
  Lemma outlet_cells d r : ix deps d = Some r -> d <> 0 -> exists z p q, d_out_elev r = Some z /\ d_out r <> None /\
    inside p /\ inside q /\ neighbours p q /\ part (lab @ p) d /\ ~ part (lab @ q) d /\ lab @ q = d_geolink r /\
    z = Z.max (dem @ p) (dem @ q) /\ (d_out r = Some p \/ d_out r = Some q) /\ (forall c, d_out r = Some c -> dem @ c = z) /\
    (forall p' q', inside p' -> inside q' -> neighbours p' q' -> part (lab @ p') d -> ~ part (lab @ q') d -> z <= Z.max (dem @ p') (dem @ q')).
  Proof.
    intros E Hd. destruct (HOUT d r E Hd) as [o [Io [A [B [S M]]]]].
    destruct HDB as [_ [PASS _]]. destruct (PASS o Io) as [_ [_ [[p [q [Hp [Hq [Lp [Lq [N [Ez [Ec Ed]]]]]]]]] _]]].
    assert (MIN : forall p' q', inside p' -> inside q' -> neighbours p' q' -> part (lab @ p') d -> ~ part (lab @ q') d -> o_elev o <= Z.max (dem @ p') (dem @ q')).
    { intros p' q' Hp' Hq' N' P' Q'. destruct (adj_pass p' q' Hp' Hq' N') as [o' [Io' [C' E']]]; [intros X; rewrite X in P'; contradiction|].
      assert (o_elev o <= o_elev o'); [|lia]. apply M; auto. unfold crosses. destruct C' as [[-> ->]|[-> ->]]; auto. }
    assert (CC : forall c, d_out r = Some c -> dem @ c = o_elev o) by (intros c; congruence).
    exists (o_elev o). destruct S as [[S1 [S2 S3]]|[S1 [S2 S3]]].
    - exists p, q. rewrite Lp, Lq. split; auto. split; [congruence|]. do 6 (split; [solve [auto | congruence]|]). split; [exact Ez|].
      split; [destruct Ec; [left|right]; rewrite B; f_equal; assumption|]. auto.
    - exists q, p. rewrite Lp, Lq. split; auto. split; [congruence|]. split; auto. split; auto. split; [apply neighbours_sym; auto|].
      split; auto. split; auto. split; auto. split; [rewrite Z.max_comm; exact Ez|].
      split; [destruct Ec; [right|left]; rewrite B; f_equal; assumption|]. auto.
  Qed.

  Lemma outlet_pass d r : ix deps d = Some r -> d <> 0 -> exists c z, d_out r = Some c /\ d_out_elev r = Some z /\
    lowest_pass t w h dem (region lab deps d) (outside lab deps d) c z.
  Proof.
    intros E Hd. destruct (outlet_cells d r E Hd) as [z [p [q [A [B [Hp [Hq [N [P [Q [G [Ez [Ec [Ed M]]]]]]]]]]]]]].
    destruct (d_out r) as [c|] eqn:Eo; [|congruence]. exists c, z. split; auto. split; auto. split.
    - exists p, q. split; auto. split; auto. split; auto. split; auto. split; auto. split; auto.
      split; [destruct Ec as [X|X]; inversion X; auto|]. apply Ed; auto.
    - intros c' z' [p' [q' [Hp' [Hq' [P' [Q' [N' [-> _]]]]]]]]. apply M; auto.
  Qed.

  (** ** Connections below a level *)
  Inductive con (L : Z) : cellt -> cellt -> Prop :=
  | con_refl p : inside p -> dem @ p <= L -> con L p p
  | con_step p q r : inside p -> dem @ p <= L -> neighbours p q -> con L q r -> con L p r.
  Lemma con_trans L p q r : con L p q -> con L q r -> con L p r.
  Proof. intros A B. induction A; auto. apply con_step with q; auto. Qed.
  Lemma con_snoc L p q r : con L p q -> neighbours q r -> inside r -> dem @ r <= L -> con L p r.
  Proof. intros A N Hr Er. apply con_trans with q; auto. assert (I : inside q /\ dem @ q <= L) by (induction A; auto).
    destruct I. apply con_step with r; auto. apply con_refl; auto. Qed.
  Lemma con_sym L p q : con L p q -> con L q p.
  Proof.
    intros A. induction A as [p H1 H2|p q r H1 H2 N A IH]; [apply con_refl; auto|].
    apply con_snoc with q; auto. apply neighbours_sym; auto.
  Qed.
  Lemma runs_con L p r : runs_to t w h dem lab fd p r -> dem @ p <= L -> con L p r /\ inside r.
  Proof.
    intros R. induction R as [p Hp|p m q r Hp Hm Ef Eq El Ed R IH]; intros HL; [split; auto; apply con_refl; auto|].
    destruct IH as [A B]; [lia|]. split; auto. apply con_step with q; auto. apply neighbours_iff. exists m. auto.
  Qed.
  Lemma con_escapes O L p q : con L p q -> escapes t w h dem O L q -> escapes t w h dem O L p.
  Proof. intros A H. induction A; auto. apply esc_step with q; auto. Qed.

  (** the cells of a watershed are connected through its pit *)
  Lemma leaf_con L p q : inside p -> inside q -> lab @ p = lab @ q -> lab @ p <> 0 -> dem @ p <= L -> dem @ q <= L -> con L p q.
  Proof.
    intros Hp Hq E H0 Lp Lq.
    destruct (ws_drain _ _ _ _ _ _ _ _ _ W p Hp) as [r [R [[X _]|[k [K1 K2]]]]]; [congruence|].
    destruct (ws_drain _ _ _ _ _ _ _ _ _ W q Hq) as [r' [R' [[X _]|[k' [K1' K2']]]]]; [congruence|].
    assert (k = k') by lia. subst k'. assert (r = r') by congruence. subst r'.
    destruct (runs_con L p r R Lp), (runs_con L q r R' Lq). apply con_trans with r; auto. apply con_sym; auto.
  Qed.

  Lemma region_con : forall d, 0 < d < Z.of_nat (length deps) -> forall L p q, inside p -> inside q -> part (lab @ p) d -> part (lab @ q) d ->
    dem @ p <= L -> dem @ q <= L -> (forall k r z, part k d -> k <> d -> k <> 0 -> ix deps k = Some r -> d_out_elev r = Some z -> z <= L) -> con L p q.
  Proof.
    intros d. remember (Z.to_nat d) as m eqn:Em. revert d Em. induction m as [m IH] using (well_founded_induction lt_wf).
    intros d Em Hd L p q Hp Hq Pp Pq Lp Lq Hin.
    destruct (Z_lt_ge_dec d n) as [Hl|Hl].
    - assert (A : forall x, part x d -> x = d).
      { intros x X. apply part_inv in X. destruct X as [|[c [_ L2]]]; auto. apply (wlink n) in L2; auto. lia. }
      assert (lab @ p = d) by auto. assert (lab @ q = d) by auto. apply leaf_con; congruence || lia.
    - destruct (proj2 (ix_some_iff deps d) ltac:(lia)) as [r E].
      pose proof (wchild_link n deps WF Hn d r (d_lchild r) E ltac:(lia) (or_introl eq_refl)) as [Cl Ll].
      pose proof (wchild_link n deps WF Hn d r (d_rchild r) E ltac:(lia) (or_intror eq_refl)) as [Cr Lr].
      assert (SUB : forall c, c = d_lchild r \/ c = d_rchild r -> forall a b, inside a -> inside b -> part (lab @ a) c -> part (lab @ b) c -> dem @ a <= L -> dem @ b <= L -> con L a b).
      { intros c Hc a b Ha Hb Pa Pb La Lb. assert (CL : 1 <= c < d /\ links deps c d) by (destruct Hc; subst; auto). destruct CL as [C1 C2].
        apply (IH (Z.to_nat c)) with c; auto; try lia. intros k rk z Pk Hk Hk0 Ek Zk. apply (Hin k rk z); auto.
        - eapply part_step; eauto.
        - intros ->. apply (wpart_le n) in Pk; auto. lia. }
      (* crossing from the left to the right child *)
      destruct (proj2 (ix_some_iff deps (d_lchild r)) ltac:(lia)) as [rl El].
      destruct (outlet_cells (d_lchild r) rl El ltac:(lia)) as [z [a [b [A1 [A2 [Ha [Hb [N [Pa [_ [G [Ez _]]]]]]]]]]]].
      assert (Hz : z <= L).
      { apply (Hin (d_lchild r) rl z); auto; try lia. eapply part_step; [apply part_refl|eauto]. }
      assert (Pb : part (lab @ b) (d_rchild r)).
      { rewrite G. destruct (wf_parent _ _ WF (d_lchild r) rl El ltac:(lia)) as [[X _]|[_ [_ [_ [pr [Ep [O [_ Pg]]]]]]]].
        - destruct Ll as [rr [Er [Or _]]]. congruence.
        - destruct Ll as [rr [Er [Or [_ Pr]]]]. assert (rr = rl) by congruence. subst rr. rewrite Pr in Ep. assert (pr = r) by congruence. subst pr.
          destruct O as [[_ O]|[O _]]; [rewrite <- O; auto|]. destruct (wf_meta _ _ WF d r E ltac:(lia)) as [X _]. contradiction. }
      assert (LR : forall u v, inside u -> inside v -> part (lab @ u) (d_lchild r) -> part (lab @ v) (d_rchild r) -> dem @ u <= L -> dem @ v <= L -> con L u v).
      { intros u v Hu Hv Pu Pv Lu Lv. apply con_trans with a; [apply (SUB (d_lchild r)); auto; lia|].
        apply con_step with b; auto; [lia|]. apply (SUB (d_rchild r)); auto; lia. }
      pose proof (lab_leaf p Hp). pose proof (lab_leaf q Hq).
      destruct (wchild n deps WF d r (lab @ p) E ltac:(lia) Pp ltac:(lia)) as [Kp|Kp], (wchild n deps WF d r (lab @ q) E ltac:(lia) Pq ltac:(lia)) as [Kq|Kq].
      + apply (SUB (d_lchild r)); auto.
      + apply LR; auto.
      + apply con_sym. apply LR; auto.
      + apply (SUB (d_rchild r)); auto.
  Qed.

  (** ** Spill levels *)
  Lemma escapes_low L p : escapes t w h dem ocean L p -> dem @ p <= L /\ inside p /\
    forall d r z, part (lab @ p) d -> ix deps d = Some r -> d <> 0 -> d_out_elev r = Some z -> z <= L.
  Proof.
    intros H. induction H as [p Hp Op Lp|p q Hp Lp N H IH]; (split; [auto|split; [auto|]]).
    - intros d r z P E Hd Z. exfalso. destruct (ws_ocean _ _ _ _ _ _ _ _ _ W p Op) as [X _]. rewrite X in P. apply (wpart0 n) in P; auto.
    - intros d r z P E Hd Z. destruct IH as [Lq [Hq IH]]. destruct (part_dec n deps WF (lab @ q) d) as [Q|Q]; [eapply IH; eauto|].
      destruct (outlet_cells d r E Hd) as [z' [_ [_ [A [_ [_ [_ [_ [_ [_ [_ [_ [_ [_ M]]]]]]]]]]]]]].
      assert (z' = z) by congruence. subst z'. specialize (M p q Hp Hq N P Q). lia.
  Qed.

  Lemma escapes_from L k : flows_to_ocean deps k -> forall p, inside p -> part (lab @ p) k -> dem @ p <= L ->
    (forall d r z, part (lab @ p) d -> ix deps d = Some r -> d <> 0 -> d_out_elev r = Some z -> z <= L) -> escapes t w h dem ocean L p.
  Proof.
    intros F. induction F as [|k r E Np F IH]; intros p Hp P Lp M.
    - pose proof (lab_leaf p Hp). apply (wpart_of0 n) in P; auto; [|lia].
      destruct (ws_drain _ _ _ _ _ _ _ _ _ W p Hp) as [s [R [[_ O]|[j [K1 _]]]]]; [|unfold cellt in *; lia].
      destruct (runs_con L p s R Lp) as [C Hs]. apply con_escapes with s; auto. apply esc_here; auto.
      clear - C. induction C; auto.
    - destruct (d_ocean_parent r) eqn:O.
      + assert (Hk : k <> 0). { intros ->. destruct (wf_ocean _ _ WF) as [r0 [E0 [N0 [O0 _]]]]. congruence. }
        pose proof (ixr _ _ _ E).
        destruct (outlet_cells k r E Hk) as [z [a [b [A1 [_ [Ha [Hb [N [Pa [_ [G [Ez _]]]]]]]]]]]].
        assert (Hz : z <= L) by (apply (M k r z); auto).
        assert (Gp : d_geolink r = d_parent r) by (destruct (wf_parent _ _ WF k r E Hk) as [[_ [_ [X _]]]|[X _]]; [auto|congruence]).
        apply con_escapes with b.
        * apply con_snoc with a; auto; [|lia]. apply region_con with k; auto; try lia.
          intros k2 r2 z2 P2 N2 Z2 E2 V2. pose proof (level_mono n deps WF k2 k P2 Z2 r2 r z2 z E2 E V2 A1). lia.
        * apply IH; auto; [rewrite G, Gp; apply part_refl|lia|].
          intros d2 r2 z2 P2 E2 N2 V2. rewrite G, Gp in P2. destruct (HSEA k r d2 r2 E O P2 E2 N2) as [z3 [z4 [X [Y Y2]]]].
          assert (z3 = z) by congruence. assert (z4 = z2) by congruence. lia.
      + apply IH; auto. eapply part_step; eauto. exists r. auto.
  Qed.

  Theorem spill_level L p : inside p -> (escapes t w h dem ocean L p <-> dem @ p <= L /\
    forall d r z, part (lab @ p) d -> ix deps d = Some r -> d <> 0 -> d_out_elev r = Some z -> z <= L).
  Proof.
    intros Hp. split.
    - intros H. apply escapes_low in H. tauto.
    - intros [Lp M]. apply (escapes_from L (lab @ p)); auto; [|apply part_refl]. apply (wf_flows _ _ WF). apply lab_in; auto.
  Qed.
End Terrain.
