(** The depressions of the hierarchy as basins. *)
From Coq Require Import ZArith List Lia Bool Permutation QArith Qcanon Wellfounded.
From Verif Require Import Base Res QcTac RasterSpec RasterFacts FlowModel FlatsSpec FlatsProofs DHModel DHSpec DHTree DHTerrain
  FSMModel FSMPits FSMPits2 FSMRoute FSMRoute2 FSMRoute3 FSMFill FSMFill3 FSMSpec.
Open Scope Z_scope.

Section Joined.
  Variables (w h : Z) (dem lab : grid Z) (labels : list Z).
  Notation in_dep := (FSMSpec.in_dep w h lab labels).
  Notation joined := (FSMSpec.joined w h dem lab labels).
  Lemma nb_sym p q : neighbours D8 p q -> neighbours D8 q p.
  Proof. unfold neighbours, adjacent. intros [A [B C]]. repeat split; try lia; try tauto. intros X. apply A. congruence. Qed.
  Lemma joined_in z p q : joined z p q -> in_dep p /\ elev_at dem p <= z /\ in_dep q /\ elev_at dem q <= z.
  Proof. induction 1; tauto. Qed.
  Lemma joined_trans z p q r : joined z p q -> joined z q r -> joined z p r.
  Proof. intros A B. induction B as [|a b J IH N D E]; auto. apply jn_step with a; auto. Qed.
  Lemma joined_one z p q : in_dep p -> elev_at dem p <= z -> neighbours D8 p q -> in_dep q -> elev_at dem q <= z -> joined z p q.
  Proof. intros A B C D E. apply jn_step with p; auto. apply jn_here; auto. Qed.
  Lemma joined_sym z p q : joined z p q -> joined z q p.
  Proof.
    induction 1 as [|a b J IH N D E]; [apply jn_here; auto|]. apply joined_trans with a; auto.
    pose proof (joined_in _ _ _ J) as [_ [_ [X Y]]]. apply joined_one; auto. apply nb_sym; auto.
  Qed.
End Joined.

Section Geo.
  Variables (w h : Z) (dem lab0 fd0 lab fd : grid Z) (pits : list cellt) (deps : list dep).
  Notation n := (Z.of_nat (length pits) + 1).
  Notation len := (Z.of_nat (length deps)).
  Hypothesis WS : watersheds D8 w h dem lab0 fd0 lab fd pits.
  Hypothesis WF : well_formed n deps.
  Hypothesis Hn : n <= 2 ^ 31.
  Hypothesis VO : volumes_ok n deps.
  Hypothesis PITS : forall k p, nth_error pits k = Some p -> exists r, ix deps (Z.of_nat k + 1) = Some r /\ d_pit r = Some p /\ d_pit_elev r = Some (elev_at dem p).
  Hypothesis PASS : forall d r, ix deps d = Some r -> d <> 0 -> exists c z, d_out r = Some c /\ d_out_elev r = Some z /\
       lowest_pass D8 w h dem (region lab deps d) (outside lab deps d) c z.
  Hypothesis LINKS : forall d r, ix deps d = Some r -> d <> 0 -> exists z p q c, d_out_elev r = Some z /\ d_out r = Some c /\ (c = p \/ c = q) /\ elev_at dem c = z /\
      inside w h p /\ inside w h q /\ neighbours D8 p q /\ part_of deps (elev_at lab p) d /\ ~ part_of deps (elev_at lab q) d /\ elev_at lab q = d_geolink r /\
      z = Z.max (elev_at dem p) (elev_at dem q).
  Hypothesis VOLS : forall d r, ix deps d = Some r -> d <> 0 -> exists z l, d_out_elev r = Some z /\ cells_under w h dem lab deps d z l /\
       d_count r = Z.of_nat (length l) /\ d_vol r = Some (depth_sum dem z l) /\ d_total r = zsum (map (elev_at dem) l).
  Notation dp := (FSMRoute.dp deps).
  Notation V := (FSMRoute.V deps).
  Notation par i := (d_parent (dp i)).
  Notation lch i := (d_lchild (dp i)).
  Notation rch i := (d_rchild (dp i)).
  Notation part := (part_of deps).
  Notation e c := (elev_at dem c).
  Local Notation dp_ix := (FSMRoute.dp_ix deps).
  Local Notation n_pos := (FSMRoute.n_pos n deps WF).
  Local Notation wmeta := (FSMRoute.wmeta n deps WF VO).
  Local Notation wleaf := (FSMRoute.wleaf n deps WF).
  Local Notation wplace := (FSMRoute.wplace n deps WF).
  Local Notation child_link := (FSMRoute.child_link n deps WF Hn).

  Definition zz (d : Z) : Z := match d_out_elev (dp d) with Some z => z | None => 0 end.
  Definition oc (d : Z) : cellt := match d_out (dp d) with Some c => c | None => (0, 0) end.
  Definition pc (d : Z) : cellt := match d_pit (dp d) with Some c => c | None => (0, 0) end.

  Lemma lab_n p : inside w h p -> 0 <= elev_at lab p < n.
  Proof. intros Hp. pose proof (ws_label _ _ _ _ _ _ _ _ _ WS p Hp). unfold cellt in *. lia. Qed.
  Lemma lab_len p : inside w h p -> 0 <= elev_at lab p < len.
  Proof. intros Hp. pose proof (lab_n p Hp). pose proof (wf_size _ _ WF). lia. Qed.

  (** *** outlets *)
  Lemma out_ok d : 0 < d < len -> exists p q, d_out (dp d) = Some (oc d) /\ d_out_elev (dp d) = Some (zz d) /\ (oc d = p \/ oc d = q) /\ e (oc d) = zz d /\
    inside w h p /\ inside w h q /\ neighbours D8 p q /\ part (elev_at lab p) d /\ ~ part (elev_at lab q) d /\ elev_at lab q = d_geolink (dp d) /\
    zz d = Z.max (e p) (e q).
  Proof.
    intros Hd. destruct (LINKS d (dp d)) as [z [p [q [c [A [B H]]]]]]; [apply dp_ix; lia|lia|].
    exists p, q. unfold oc, zz. rewrite A, B. auto.
  Qed.
  Lemma out_min d p q : 0 < d < len -> inside w h p -> inside w h q -> neighbours D8 p q -> part (elev_at lab p) d -> ~ part (elev_at lab q) d -> zz d <= Z.max (e p) (e q).
  Proof.
    intros Hd Hp Hq N P Q. destruct (PASS d (dp d)) as [c [z [A [B [_ M]]]]]; [apply dp_ix; lia|lia|]. unfold zz. rewrite B.
    destruct (Z_le_gt_dec (e q) (e p)).
    - apply (M p). exists p, q. unfold region, outside. repeat split; auto; try apply Hp; try apply Hq; try apply N. lia.
    - apply (M q). exists p, q. unfold region, outside. repeat split; auto; try apply Hp; try apply Hq; try apply N. lia.
  Qed.
  Lemma out_inside d : 0 < d < len -> inside w h (oc d).
  Proof. intros Hd. destruct (out_ok d Hd) as [p [q [_ [_ [[->| ->] [_ [A [B _]]]]]]]]; auto. Qed.
  Lemma zz_mono k d : part k d -> 0 < k -> 0 < d < len -> zz k <= zz d.
  Proof.
    intros P Hk Hd. pose proof (wpart_le n deps WF _ _ P). destruct (out_ok k) as [_ [_ [_ [A _]]]]; [lia|]. destruct (out_ok d) as [_ [_ [_ [B _]]]]; [lia|].
    eapply (level_mono n deps WF k d P); [lia|apply dp_ix; lia|apply dp_ix; lia|exact A|exact B].
  Qed.
  Lemma child_geo c : 0 < c < len -> d_ocean_parent (dp c) = false -> exists p q, inside w h p /\ inside w h q /\ neighbours D8 p q /\
    part (elev_at lab p) c /\ part (elev_at lab q) (d_odep (dp c)) /\ zz c = Z.max (e p) (e q).
  Proof.
    intros Hc O. destruct (out_ok c Hc) as [p [q [_ [_ [_ [_ [Hp [Hq [N [P [_ [G Z]]]]]]]]]]]].
    destruct (wplace c Hc) as [X|_ _ _ _ _ _ _ _ _ _ _ K]; [congruence|]. exists p, q. rewrite G. auto 10.
  Qed.
  (** regions of siblings are apart *)
  Lemma sib_apart d k : n <= d < len -> part k (lch d) -> part k (rch d) -> False.
  Proof.
    intros Hd P1 P2. pose proof n_pos. destruct (wmeta d Hd) as [A [B [C [D [E [F [G _]]]]]]].
    assert (LL : links deps (lch d) d) by (rewrite <- D at 2; apply child_link; auto; lia).
    assert (LR : links deps (rch d) d) by (rewrite <- E at 2; apply child_link; auto; lia).
    destruct (part_chain deps _ _ _ P1 P2) as [P|P].
    - destruct (part_front _ _ _ P) as [X|[p [L P']]]; [congruence|]. apply (link_fun deps _ _ _ LL) in L. subst p. apply (wpart_le n deps WF) in P'. lia.
    - destruct (part_front _ _ _ P) as [X|[p [L P']]]; [congruence|]. apply (link_fun deps _ _ _ LR) in L. subst p. apply (wpart_le n deps WF) in P'. lia.
  Qed.
  Lemma child_part d : n <= d < len -> part (lch d) d /\ part (rch d) d.
  Proof.
    intros Hd. pose proof n_pos. destruct (wmeta d Hd) as [A [B [C [D [E [F [G _]]]]]]].
    split; (eapply part_left; [apply child_link; auto; lia|]); [rewrite D|rewrite E]; constructor.
  Qed.
  Lemma split_part d k : n <= d < len -> k < n -> part k d -> part k (lch d) \/ part k (rch d).
  Proof. intros Hd Hk P. apply (wchild n deps WF d (dp d)); auto; [apply dp_ix; pose proof n_pos; lia|lia|lia]. Qed.
  Lemma sib_level d : n <= d < len -> zz (lch d) = zz (rch d).
  Proof.
    intros Hd. pose proof n_pos. destruct (wmeta d Hd) as [A [B [C [D [E [F [G [S1 [S2 _]]]]]]]]].
    destruct (child_geo (lch d)) as [p [q [Hp [Hq [N [P [Q Z]]]]]]]; [lia|auto|]. destruct (child_geo (rch d)) as [p' [q' [Hp' [Hq' [N' [P' [Q' Z']]]]]]]; [lia|auto|].
    rewrite S1 in Q. rewrite S2 in Q'. apply Z.le_antisymm.
    - rewrite Z', Z.max_comm. apply out_min; auto; [lia|apply nb_sym; auto|]. intros X. apply (sib_apart d (elev_at lab p') Hd); auto.
    - rewrite Z, Z.max_comm. apply out_min; auto; [lia|apply nb_sym; auto|]. intros X. apply (sib_apart d (elev_at lab p) Hd); auto.
  Qed.

  (** *** pits *)
  Lemma leaf_pit d : 0 < d < n -> nth_error pits (Z.to_nat (d - 1)) = Some (pc d) /\ d_pit (dp d) = Some (pc d).
  Proof.
    intros Hd. pose proof (wf_size _ _ WF). destruct (nth_error pits (Z.to_nat (d - 1))) as [p|] eqn:Ep; [|apply nth_error_None in Ep; lia].
    destruct (PITS _ _ Ep) as [r [E [P _]]]. replace (Z.of_nat (Z.to_nat (d - 1)) + 1) with d in E by lia.
    assert (r = dp d) by (unfold FSMRoute.dp; rewrite E; reflexivity). subst r. unfold pc. rewrite P. auto.
  Qed.
  Lemma pit_leaf_low d c : 0 < d < n -> inside w h c -> elev_at lab c = d -> runs_to D8 w h dem lab fd c (pc d) /\ e (pc d) <= e c.
  Proof.
    intros Hd Hc L. destruct (leaf_pit d Hd) as [NP _]. destruct (ws_drain _ _ _ _ _ _ _ _ _ WS c Hc) as [r [R [[X _]|[k [K1 K2]]]]]; [unfold cellt in *; lia|].
    assert (k = Z.to_nat (d - 1)) by (unfold cellt in *; lia). subst k. unfold cellt in *. rewrite NP in K2. injection K2 as <-. split; auto.
    clear - R. induction R as [p Hp|p m q r Hp Hm Ef Eq El Ed R IH]; lia.
  Qed.
  Lemma pit_ok : forall d, 0 < d < len -> d_pit (dp d) = Some (pc d) /\ inside w h (pc d) /\ part (elev_at lab (pc d)) d /\
    exists k, 0 < k < n /\ elev_at lab (pc d) = k /\ pc d = pc k /\ (n <= d -> part k (lch d)).
  Proof.
    intros d. remember (Z.to_nat d) as m eqn:Em. revert d Em. induction m as [m IH] using (well_founded_induction lt_wf). intros d Em Hd.
    destruct (Z_lt_ge_dec d n) as [Hl|Hl].
    - destruct (leaf_pit d ltac:(lia)) as [NP PP]. destruct (ws_pit _ _ _ _ _ _ _ _ _ WS _ _ NP) as [[[I _] _] [L _]].
      assert (EL : elev_at lab (pc d) = d) by (unfold cellt in *; lia). split; auto. split; auto. rewrite EL. split; [constructor|]. exists d. split; [lia|]. split; [exact eq_refl|]. split; [reflexivity|lia].
    - destruct (wmeta d) as [A [B _]]; [lia|]. destruct (wf_pit _ _ WF d (dp d)) as [q [Eq Pq]]; [apply dp_ix; lia|lia|].
      assert (q = dp (lch d)) by (unfold FSMRoute.dp at 1; rewrite Eq; reflexivity). subst q.
      destruct (IH (Z.to_nat (lch d))) with (d := lch d) as [I1 [I2 [I3 [k [K1 [K2 [K3 K4]]]]]]]; try lia.
      assert (EP : pc d = pc (lch d)) by (unfold pc; rewrite Pq; reflexivity).
      rewrite EP. split; [congruence|]. split; auto. split; [eapply part_trans; [exact I3|apply child_part; lia]|].
      exists k. split; auto. split; auto. split; auto. intros _. rewrite <- K2. exact I3.
  Qed.
  Lemma pit_below d : 0 < d < len -> e (pc d) <= zz d.
  Proof.
    intros Hd. destruct (pit_ok d Hd) as [_ [I [P [k [K1 [K2 [K3 _]]]]]]]. rewrite K2 in P. apply Z.le_trans with (zz k); [|apply zz_mono; auto; lia].
    rewrite K3. destruct (out_ok k) as [p [q [_ [_ [_ [_ [Hp [_ [_ [Pp [_ [_ Z]]]]]]]]]]]]; [pose proof (wf_size _ _ WF); lia|].
    assert (elev_at lab p = k).
    { destruct (part_inv _ _ _ Pp) as [|[x [_ L]]]; auto. apply (wlink n) in L; auto. lia. }
    destruct (pit_leaf_low k p K1 Hp H). lia.
  Qed.

  (** *** basins *)
  (** the level from which [d] fills as one basin *)
  Definition ss (d : Z) : Z := if d <? n then e (pc d) else zz (lch d).

  Section One.
    Variables (d : Z) (labels : list Z).
    Hypothesis Hd : 0 < d < len.
    Hypothesis HL : forall k, 0 <= k < len -> In k labels <-> part k d.
    Lemma in_dep_iff c : FSMSpec.in_dep w h lab labels c <-> inside w h c /\ region lab deps d c.
    Proof. unfold FSMSpec.in_dep, region. split; intros [A B]; split; auto; apply HL; auto using lab_len. Qed.
    Notation joined := (FSMSpec.joined w h dem lab labels).
    Lemma run_joined z p r : runs_to D8 w h dem lab fd p r -> inside w h p -> part (elev_at lab p) d -> e p <= z -> joined z p r.
    Proof.
      intros R. induction R as [p Hp|p m q r Hp Hm Ef Eq El Ed R IH]; intros Hi P Z.
      - apply jn_here; auto. apply in_dep_iff. auto.
      - assert (Hq : inside w h q) by (inversion R; auto). apply joined_trans with q; [|apply IH; auto; [rewrite El; auto|lia]].
        apply joined_one; auto; [apply in_dep_iff; split; auto| |apply in_dep_iff; split; auto; unfold region; rewrite El; auto|lia].
        unfold neighbours. apply (adjacent_iff D8). exists m. subst q. auto.
    Qed.
    Lemma leaf_joined k z p q : 0 < k < n -> part k d -> inside w h p -> inside w h q -> elev_at lab p = k -> elev_at lab q = k -> e p <= z -> e q <= z -> joined z p q.
    Proof.
      intros Hk Pk Hp Hq Lp Lq Zp Zq. destruct (pit_leaf_low k p Hk Hp Lp) as [R _]. destruct (pit_leaf_low k q Hk Hq Lq) as [R' _].
      apply joined_trans with (pc k); [apply run_joined; auto; rewrite Lp; auto|]. apply joined_sym. apply run_joined; auto. rewrite Lq. auto.
    Qed.
    Lemma sub_joined : forall x, 0 < x < len -> part x d -> forall z p q, inside w h p -> inside w h q -> part (elev_at lab p) x -> part (elev_at lab q) x ->
      e p <= z -> e q <= z -> (n <= x -> zz (lch x) <= z) -> joined z p q.
    Proof.
      intros x. remember (Z.to_nat x) as m eqn:Em. revert x Em. induction m as [m IH] using (well_founded_induction lt_wf).
      intros x Em Hx Px z p q Hp Hq Pp Pq Zp Zq HZ. destruct (Z_lt_ge_dec x n) as [Hl|Hl].
      - assert (A : forall y, part y x -> y = x).
        { intros y X. apply part_inv in X. destruct X as [|[c [_ L2]]]; auto. apply (wlink n) in L2; auto. lia. }
        apply (leaf_joined x); auto; lia.
      - assert (Hm : n <= x < len) by lia. destruct (wmeta x Hm) as [A [B [C [D [E [F [G [S1 [S2 _]]]]]]]]]. destruct (child_part x Hm) as [CP1 CP2].
        pose proof (sib_level x Hm) as SL. specialize (HZ ltac:(lia)).
        assert (SUB : forall c, c = lch x \/ c = rch x -> forall a b, inside w h a -> inside w h b -> part (elev_at lab a) c -> part (elev_at lab b) c -> e a <= z -> e b <= z -> joined z a b).
        { intros c Hc a b Ha Hb Pa Pb Za Zb. assert (CX : 0 < c < x /\ part c x) by (destruct Hc; subst c; auto). destruct CX as [C1 C2].
          assert (CZ : zz c = zz (lch x)) by (destruct Hc; subst c; auto).
          apply (IH (Z.to_nat c)) with (x := c); auto; try lia; [eapply part_trans; eauto|]. intros Hcn.
          apply Z.le_trans with (zz c); [|lia]. apply zz_mono; [apply child_part; lia|pose proof n_pos; destruct (wmeta c); lia|lia]. }
        destruct (child_geo (lch x)) as [a [b [Ha [Hb [N [Pa [Pb Z]]]]]]]; [lia|auto|]. rewrite S1 in Pb.
        assert (LR : forall u v, inside w h u -> inside w h v -> part (elev_at lab u) (lch x) -> part (elev_at lab v) (rch x) -> e u <= z -> e v <= z -> joined z u v).
        { intros u v Hu Hv Pu Pv Zu Zv. apply joined_trans with a; [apply (SUB (lch x)); auto; lia|].
          apply joined_trans with b; [|apply (SUB (rch x)); auto; lia].
          apply joined_one; auto; try lia; apply in_dep_iff; split; auto; unfold region; eapply part_trans; try exact Px; eapply part_trans; eauto. }
        pose proof (lab_n p Hp). pose proof (lab_n q Hq).
        destruct (split_part x (elev_at lab p) Hm ltac:(lia) Pp) as [Kp|Kp], (split_part x (elev_at lab q) Hm ltac:(lia) Pq) as [Kq|Kq].
        + apply (SUB (lch x)); auto.
        + apply LR; auto.
        + apply joined_sym. apply LR; auto.
        + apply (SUB (rch x)); auto.
    Qed.

    Lemma basin_ok R : cells_under w h dem lab deps d (zz d) R -> basin w h dem lab labels (pc d) (oc d) (ss d) R.
    Proof.
      intros [ND IN]. destruct (pit_ok d Hd) as [_ [PI [PP [k [K1 [K2 [K3 K4]]]]]]].
      destruct (out_ok d Hd) as [_ [_ [_ [_ [_ [EO _]]]]]]. pose proof (wf_size _ _ WF).
      assert (PS : e (pc d) <= ss d).
      { unfold ss. destruct (Z.ltb_spec d n); [lia|]. destruct (wmeta d) as [A _]; [lia|]. rewrite K3.
        apply Z.le_trans with (zz k); [apply pit_below; lia|]. apply zz_mono; auto; lia. }
      constructor.
      - split; auto. apply in_dep_iff. auto.
      - split; [apply out_inside; auto|]. rewrite EO. unfold ss. destruct (Z.ltb_spec d n); [apply pit_below; auto|].
        destruct (wmeta d) as [A _]; [lia|]. apply zz_mono; [apply child_part; lia|lia|auto].
      - split; auto. intros c. rewrite in_dep_iff, EO, IN. tauto.
      - intros z c [Z1 Z2] Hc Le. apply in_dep_iff in Hc. destruct Hc as [Hc Rc]. apply (sub_joined d); auto; [constructor|lia|].
        intros Hm. unfold ss in Z1. destruct (Z.ltb_spec d n); [lia|exact Z1].
    Qed.
    Lemma under_leaf R : cells_under w h dem lab deps d (zz d) R -> d < n -> forall c, In c R -> ss d <= e c.
    Proof.
      intros [_ IN] Hl c Hc. apply IN in Hc. destruct Hc as [Hc [Rc _]]. unfold ss. destruct (Z.ltb_spec d n); [|lia].
      apply (pit_leaf_low d); auto; [lia|]. destruct (part_inv _ _ _ Rc) as [|[x [_ L]]]; auto. apply (wlink n) in L; auto. lia.
    Qed.
    Lemma under_meta R : cells_under w h dem lab deps d (zz d) R -> n <= d -> (zq (volume_under dem (ss d) R) = V (lch d) + V (rch d))%Qc.
    Proof.
      intros [ND IN] Hm. assert (Hm' : n <= d < len) by lia. pose proof n_pos. destruct (wmeta d Hm') as [A [B _]].
      destruct (child_part d Hm') as [CP1 CP2]. pose proof (sib_level d Hm') as SL.
      assert (SS : ss d = zz (lch d)) by (unfold ss; destruct (Z.ltb_spec d n); [lia|reflexivity]).
      destruct (VOLS (lch d) (dp (lch d))) as [zl [Rl [Zl [[NDl INl] [_ [Vl _]]]]]]; [apply dp_ix; lia|lia|].
      destruct (VOLS (rch d) (dp (rch d))) as [zr [Rr [Zr [[NDr INr] [_ [Vr _]]]]]]; [apply dp_ix; lia|lia|].
      assert (zl = ss d) by (rewrite SS; unfold zz; rewrite Zl; reflexivity). assert (zr = ss d) by (rewrite SS, SL; unfold zz; rewrite Zr; reflexivity). subst zl zr.
      unfold FSMRoute.V. rewrite Vl, Vr, <- zq_add. f_equal. unfold volume_under, depth_sum.
      assert (SD : ss d <= zz d) by (rewrite SS; apply zz_mono; auto; lia).
      rewrite <- zsum_app, <- map_app.
      rewrite <- (zsum_incl_eq (fun c => Z.max 0 (ss d - e c)) (Rl ++ Rr) R); auto.
      - f_equal. apply map_ext_in. intros c Hc. apply in_app_iff in Hc. rewrite INl, INr in Hc. lia.
      - apply NoDup_app_disj; auto. intros c X Y. apply INl in X. apply INr in Y. apply (sib_apart d (elev_at lab c) Hm'); [apply X|apply Y].
      - intros c Hc. apply in_app_iff in Hc. rewrite INl, INr in Hc. apply IN. unfold region in *.
        destruct Hc as [[X [Y Z]]|[X [Y Z]]]; (split; [auto|split; [eapply part_trans; eauto|lia]]).
      - intros c Hc Nc. apply IN in Hc. destruct Hc as [Hc [Rc Zc]]. destruct (Z_le_gt_dec (e c) (ss d)) as [Hz|]; [|lia]. exfalso. apply Nc.
        apply in_app_iff. rewrite INl, INr. destruct (split_part d (elev_at lab c) Hm' (proj2 (lab_n c Hc)) Rc) as [X|X]; [left|right]; auto.
    Qed.
  End One.
End Geo.
