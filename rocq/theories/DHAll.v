(** GetDepressionHierarchy as a whole. *)
From Coq Require Import ZArith List Lia Bool Permutation Sorting.Sorted Relations.
From Verif Require Import Base Res RasterSpec RasterFacts UFModel UFProofs UFSpec FlowModel FlowProofs FlatsSpec FlatsModel FlatsProofs DHModel DHSpec DHFlood DHTree DHTerrain DHVol.
Open Scope Z_scope.
Local Notation "g @ c" := (elev_at g c) (at level 20).

(** ** Volumes do not change the shape *)
Section Shape.
  Variables (deps ds : list dep) (c : Z -> Z) (v : Z -> option Z) (t : Z -> Z).
  Hypothesis HV : with_values deps ds c v t.
  Lemma wv_back k r : ix ds k = Some r -> exists r0, ix deps k = Some r0 /\ r = setv r0 (c k) (v k) (t k).
  Proof.
    intros E. destruct HV as [HL H]. pose proof (ixr _ _ _ E). destruct (proj2 (ix_some_iff deps k) ltac:(lia)) as [r0 E0].
    exists r0. split; auto. rewrite (H k r0 E0) in E. congruence.
  Qed.
  Lemma wv_links k p : links deps k p <-> links ds k p.
  Proof.
    split.
    - intros [r [E [O [N P]]]]. exists (setv r (c k) (v k) (t k)). split; [apply HV; auto|]. auto.
    - intros [r [E [O [N P]]]]. apply wv_back in E. destruct E as [r0 [E ->]]. exists r0. auto.
  Qed.
  Lemma wv_part k d : part_of deps k d <-> part_of ds k d.
  Proof. apply part_same. apply wv_links. Qed.
  Lemma wv_flows k : flows_to_ocean deps k -> flows_to_ocean ds k.
  Proof. intros F. induction F as [|k r E N F IH]; [apply fto_ocean|]. apply fto_parent with (setv r (c k) (v k) (t k)); auto. apply HV; auto. Qed.
  Lemma wv_wf n : well_formed n deps -> well_formed n ds.
  Proof.
    intros WF. destruct HV as [HL H]. constructor.
    - rewrite HL. apply WF.
    - destruct (wf_ocean _ _ WF) as [r [E X]]. eexists. split; [apply H; eauto|]. exact X.
    - intros d r E Hd. apply wv_back in E. destruct E as [r0 [E ->]]. cbn [setv d_ocean_parent d_parent d_geolink d_odep]. rewrite HL.
      destruct (wf_parent _ _ WF d r0 E Hd) as [X|[A [B [C [p [D [F [G I]]]]]]]]; [left; exact X|right].
      split; auto. split; auto. split; auto. eexists. split; [apply H; eauto|]. split; auto. split; auto. apply wv_part; auto.
    - intros d r E. apply wv_back in E. destruct E as [r0 [E ->]]. apply (wf_leaf _ _ WF d r0 E).
    - intros d r E Hd. apply wv_back in E. destruct E as [r0 [E ->]]. destruct (wf_meta _ _ WF d r0 E Hd) as [A B]. split; auto.
      intros x Hx. destruct (B x Hx) as [C [q [D F]]]. split; auto. eexists. split; [apply H; eauto|]. exact F.
    - intros d r E. apply wv_back in E. destruct E as [r0 [E ->]]. destruct (wf_linked _ _ WF d r0 E) as [A B]. split; auto.
      intros k. cbn [setv d_ocean_linked]. rewrite B. split.
      + intros [q [X Y]]. eexists. split; [apply H; eauto|]. exact Y.
      + intros [q [X Y]]. apply wv_back in X. destruct X as [q0 [X ->]]. exists q0. auto.
    - intros d Hd. apply wv_flows. apply (wf_flows _ _ WF). lia.
    - intros d r E Hd. apply wv_back in E. destruct E as [r0 [E ->]]. destruct (wf_levels _ _ WF d r0 E Hd) as [z [A B]]. exists z. split; auto.
      intros p z' O Ep Z. apply wv_back in Ep. destruct Ep as [p0 [Ep ->]]. eapply B; eauto.
    - intros d r E. apply wv_back in E. destruct E as [r0 [E ->]]. apply (wf_label _ _ WF d r0 E).
    - intros d r E Hd. apply wv_back in E. destruct E as [r0 [E ->]]. destruct (wf_pit _ _ WF d r0 E Hd) as [q [A B]]. eexists.
      split; [apply H; eauto|]. exact B.
  Qed.
End Shape.

(** ** Bad labels *)
Lemma check_labels_bad w h lab0 : ~ valid_labels w h lab0 -> check_labels w h lab0 = Thrown.
Proof.
  intros H. unfold check_labels.
  assert (G : forall l, (forall c, In c l -> inside w h c) ->
    forM l (fun c _ => do l <- gat w h lab0 (fst c) (snd c); if l =? OCEAN then Ok tt else if l =? NO_DEP then Ok tt else Thrown) tt = Thrown \/
    forall c, In c l -> lab0 @ c = 0 \/ lab0 @ c = 2 ^ 32 - 1).
  { induction l as [|c l IH]; intros Hl; [right; intros c []|]. cbn [forM]. rewrite gat_in by (apply Hl; left; auto). cbn [bind]. fold (lab0 @ c).
    unfold OCEAN, NO_DEP in *. destruct (Z.eqb_spec (lab0 @ c) 0) as [E|E].
    - cbn [bind]. destruct IH as [X|X]; [intros; apply Hl; right; auto|left; exact X|right]. intros c' [<-|I]; auto.
    - destruct (Z.eqb_spec (lab0 @ c) (2 ^ 32 - 1)) as [E2|E2]; [|left; reflexivity].
      cbn [bind]. destruct IH as [X|X]; [intros; apply Hl; right; auto|left; exact X|right]. intros c' [<-|I]; auto. }
  destruct (G (scan w h)) as [X|X]; [intros c Hc; apply (scan_inside w h); auto|exact X|].
  exfalso. apply H. intros p Hp. apply X. apply (scan_inside w h); auto.
Qed.
Lemma gdh_bad_labels t w h dem tb sorted parts lab0 fd0 : ~ valid_labels w h lab0 ->
  GetDepressionHierarchy t w h dem tb sorted parts lab0 fd0 = Some Thrown.
Proof. intros H. unfold GetDepressionHierarchy, dh_flood. rewrite (check_labels_bad w h lab0 H). reflexivity. Qed.
Lemma gdh_no_coast t w h dem tb sorted parts lab0 fd0 : valid_labels w h lab0 -> w * h < 2 ^ 31 -> ~ has_coast t w h lab0 ->
  GetDepressionHierarchy t w h dem tb sorted parts lab0 fd0 = Some Thrown.
Proof. intros H S C. unfold GetDepressionHierarchy. rewrite dh_flood_throws by auto. reflexivity. Qed.

Section Whole.
  Variables (t : topology) (w h : Z) (dem lab0 fd0 : grid Z) (tb : nat -> nat) (sorted : list outlet -> list outlet) (parts : list (list cellt)).
  Hypothesis Hval : valid_labels w h lab0.
  Hypothesis Hsize : w * h < 2 ^ 31.
  Hypothesis Hcoast : has_coast t w h lab0.
  Hypothesis Hsorted : forall db, sorting_of db (sorted db).

  (** flood and tree *)
  Lemma gdh_front : exists s pits deps, let n := Z.of_nat (length pits) + 1 in
    dh_flood t w h dem tb lab0 fd0 = Some (Ok s) /\ build (sorted (f_db s)) (f_deps s) = Ok deps /\
    watersheds t w h dem lab0 fd0 (f_lab s) (f_fd s) pits /\ all_passes t w h dem (f_lab s) n (f_db s) /\
    1 <= n <= 2 ^ 31 /\ Z.of_nat (length (f_deps s)) = n /\
    (forall k r, ix (f_deps s) k = Some r -> (k = 0 /\ r = ocean_dep) \/ exists p, nth_error pits (Z.to_nat (k - 1)) = Some p /\ 0 < k /\ r = leaf_dep p (dem @ p) k) /\
    well_formed n deps /\
    (forall d r, ix deps d = Some r -> d <> 0 -> exists o, In o (f_db s) /\ d_out_elev r = Some (o_elev o) /\ d_out r = Some (o_cell o) /\
        spills deps d (d_geolink r) o /\ forall o', In o' (f_db s) -> crosses deps d o' -> o_elev o <= o_elev o') /\
    (forall k r d r', ix deps k = Some r -> d_ocean_parent r = true -> part_of deps (d_parent r) d -> ix deps d = Some r' -> d <> 0 ->
      exists z z', d_out_elev r = Some z /\ d_out_elev r' = Some z' /\ z' <= z) /\
    (forall k r0, ix (f_deps s) k = Some r0 -> exists r, ix deps k = Some r /\ d_pit r = d_pit r0 /\ d_pit_elev r = d_pit_elev r0 /\
       d_count r = d_count r0 /\ d_vol r = d_vol r0 /\ d_total r = d_total r0) /\
    n <= 2 ^ 31 /\
    (forall c, inside w h c -> 0 <= f_lab s @ c < Z.of_nat (length deps)) /\
    (forall k r, ix deps k = Some r -> d_count r = 0 /\ d_total r = 0 /\ d_vol r = Some 0).
  Proof.
    destruct (flood_spec t w h dem lab0 fd0 Hval Hsize tb Hcoast) as [s [pits [EF [ED [WS [AP PL]]]]]].
    set (n := Z.of_nat (length pits) + 1) in *.
    assert (Hn : 1 <= n <= 2 ^ 31). { pose proof (ncells_small w h Hsize). unfold n. unfold cellt in *. lia. }
    destruct (Hsorted (f_db s)) as [SP SS].
    assert (Hos : forall o, In o (sorted (f_db s)) -> 0 <= o_a o < o_b o /\ o_b o < n).
    { intros o Io. apply (Permutation_in _ SP) in Io. destruct AP as [_ [A _]]. destruct (A o Io) as [X [Y _]]. auto. }
    assert (Hlen0 : Z.of_nat (length (f_deps s)) = n) by (rewrite ED; cbn [length]; rewrite leaves_length; unfold n, cellt in *; lia).
    assert (H0 : forall k r, ix (f_deps s) k = Some r -> (k = 0 /\ r = ocean_dep) \/ exists p, nth_error pits (Z.to_nat (k - 1)) = Some p /\ 0 < k /\ r = leaf_dep p (dem @ p) k).
    { intros k r E. rewrite ED in E. unfold ix in E. destruct (Z.ltb_spec k 0); [discriminate|].
      destruct (Z.to_nat k) as [|j] eqn:Ej; [left; cbn in E; split; [lia|congruence]|]. right. cbn [nth_error] in E.
      assert (j < length pits)%nat by (rewrite <- (leaves_length dem); apply nth_error_Some; congruence).
      destruct (nth_error pits j) as [p|] eqn:Ep; [|apply nth_error_None in Ep; lia].
      replace (Z.to_nat (k - 1)) with j by lia. exists p. split; auto. split; [lia|]. rewrite (leaves_nth dem pits j p Ep) in E. inversion E. f_equal. lia. }
    assert (Hdeps0 : forall k r, ix (f_deps s) k = Some r -> d_parent r = NO_PARENT /\ fresh r /\ d_lchild r = NO_VALUE /\ d_rchild r = NO_VALUE /\
       d_ocean_linked r = [] /\ d_label r = k).
    { intros k r E. destruct (H0 k r E) as [[-> ->]|[p [_ [_ ->]]]]; unfold fresh; cbn; auto 12. }
    assert (Hconn : forall k, 0 <= k < n -> joined (map (fun o => (o_a o, o_b o)) (sorted (f_db s))) k 0).
    { intros k Hk. assert (O : exists p, ocean_cell w h lab0 p) by (destruct Hcoast as [p [q [O _]]]; exists p; auto).
      pose proof (labels_joined t w h dem lab0 fd0 (f_lab s) (f_fd s) pits (f_db s) WS AP k O Hk) as J.
      revert J. generalize 0. generalize k. clear - SP. intros x0 y0 J.
      induction J as [x y X| | |]; [apply rst_step|apply rst_refl|apply rst_sym; auto|eapply rst_trans; eauto].
      apply in_map_iff in X. destruct X as [o [E I]]. apply in_map_iff. exists o. split; auto. eapply Permutation_in; [symmetry|]; eauto. }
    destruct (build_well_formed n (sorted (f_db s)) (f_deps s) Hn Hlen0 Hos SS Hdeps0 Hconn) as [deps [EB [WF [HOUT [HSEA [HP0 HP1]]]]]].
    assert (HOUT' : forall d r, ix deps d = Some r -> d <> 0 -> exists o, In o (f_db s) /\ d_out_elev r = Some (o_elev o) /\ d_out r = Some (o_cell o) /\
        spills deps d (d_geolink r) o /\ forall o', In o' (f_db s) -> crosses deps d o' -> o_elev o <= o_elev o').
    { intros d r E Hd. destruct (HOUT d r E Hd) as [o [A [B [C [D F]]]]]. exists o. split; [eapply Permutation_in; eauto|]. split; auto. split; auto. split; auto.
      intros o' I. apply F. eapply Permutation_in; [symmetry|]; eauto. }
    assert (Hn2 : n <= 2 ^ 31) by apply Hn.
    assert (Hlab : forall c, inside w h c -> 0 <= f_lab s @ c < Z.of_nat (length deps)).
    { intros c Hc. apply (lab_in t w h dem lab0 fd0 (f_lab s) (f_fd s) pits WS deps WF); auto. }
    assert (H0v : forall k r, ix deps k = Some r -> d_count r = 0 /\ d_total r = 0 /\ d_vol r = Some 0).
    { intros k r E. pose proof (ixr _ _ _ E). destruct (Z_lt_ge_dec k n) as [Hk|Hk].
      - destruct (proj2 (ix_some_iff (f_deps s) k) ltac:(lia)) as [r0 E0]. destruct (HP0 k r0 E0) as [r' [E' [_ [_ [A [B C]]]]]].
        assert (r' = r) by congruence. subst r'. rewrite A, B, C. destruct (H0 k r0 E0) as [[-> ->]|[p [_ [_ ->]]]]; auto.
      - destruct (HP1 k r E ltac:(lia)) as [A [B [C _]]]. auto. }
    exists s, pits, deps. cbv zeta. fold n. auto 20.
  Qed.

  Hypothesis Hparts : each_cell_once w h parts.
  Lemma gdh_ok : exists lab fd deps pits,
    GetDepressionHierarchy t w h dem tb sorted parts lab0 fd0 = Some (Ok (lab, fd, deps)) /\
    watersheds t w h dem lab0 fd0 lab fd pits /\
    well_formed (Z.of_nat (length pits) + 1) deps /\ Z.of_nat (length pits) + 1 <= 2 ^ 31 /\
    (forall k p, nth_error pits k = Some p -> exists r, ix deps (Z.of_nat k + 1) = Some r /\ d_pit r = Some p /\ d_pit_elev r = Some (dem @ p)) /\
    (forall d r, ix deps d = Some r -> d <> 0 -> exists c z, d_out r = Some c /\ d_out_elev r = Some z /\
       lowest_pass t w h dem (region lab deps d) (outside lab deps d) c z) /\
    (forall L p, inside w h p -> (escapes t w h dem (ocean_cell w h lab0) L p <-> dem @ p <= L /\
       forall d r z, part_of deps (lab @ p) d -> ix deps d = Some r -> d <> 0 -> d_out_elev r = Some z -> z <= L)) /\
    (forall d r, ix deps d = Some r -> d <> 0 -> exists z l, d_out_elev r = Some z /\ cells_under w h dem lab deps d z l /\
       d_count r = Z.of_nat (length l) /\ d_vol r = Some (depth_sum dem z l) /\ d_total r = zsum (map (elev_at dem) l)) /\
    (forall d r rl rr v vl vr, ix deps d = Some r -> Z.of_nat (length pits) + 1 <= d -> ix deps (d_lchild r) = Some rl -> ix deps (d_rchild r) = Some rr ->
       d_vol r = Some v -> d_vol rl = Some vl -> d_vol rr = Some vr -> vl + vr <= v).
  Proof.
    destruct gdh_front as [s [pits [deps H]]]. cbv zeta in H.
    destruct H as [EF [EB [WS [AP [Hn [Hlen0 [H0 [WF [HOUT' [HSEA [HP0 [Hn2 [Hlab H0v]]]]]]]]]]]]].
    set (n := Z.of_nat (length pits) + 1) in *.
    destruct Hparts as [ND PIN].
    assert (HLlen : Z.of_nat (length (concat parts)) < 2 ^ 31).
    { pose proof (ncells_small w h Hsize). assert (length (concat parts) <= length (cells w h))%nat.
      - apply NoDup_incl_length; auto. intros c I. apply cells_inside. apply PIN; auto.
      - rewrite cells_length in *. unfold ncells in *. lia. }
    destruct (marginal_ok n deps w h dem (f_lab s) parts WF Hn2 Hsize Hlab H0v) as [ds [EM HM]]; [intros c I; apply PIN; auto|auto|].
    destruct (totals_ok n deps w h dem (f_lab s) (concat parts) WF Hn2 Hlab ND PIN HLlen ds HM) as [ds2 [ET HT]].
    exists (f_lab s), (f_fd s), ds2, pits. unfold GetDepressionHierarchy. rewrite EF, EB, EM, ET. split; auto. split; auto.
    split; [eapply wv_wf; eauto|]. split; [exact Hn2|]. split.
    { intros k p Ep. assert (k < length pits)%nat by (apply nth_error_Some; congruence).
      destruct (proj2 (ix_some_iff (f_deps s) (Z.of_nat k + 1))) as [r0 E0]; [unfold n in *; unfold cellt in *; lia|].
      destruct (HP0 _ _ E0) as [r [E [A [B _]]]]. eexists. split; [apply HT; eauto|]. cbn [setv d_pit d_pit_elev]. rewrite A, B.
      destruct (H0 _ _ E0) as [[X _]|[p' [X [_ ->]]]]; [lia|]. replace (Z.to_nat (Z.of_nat k + 1 - 1)) with k in X by lia.
      assert (p' = p) by congruence. subst p'. auto. }
    split.
    { intros d r E Hd. destruct (wv_back _ _ _ _ _ HT d r E) as [r0 [E0 ->]]. cbn [setv d_out d_out_elev].
      destruct (outlet_pass t w h dem (f_lab s) pits (f_db s) AP deps HOUT' d r0 E0 Hd) as [c [z [A [B [[p [q C]] D]]]]].
      exists c, z. split; auto. split; auto. unfold region, outside, region in *. split.
      - exists p, q. rewrite <- !(wv_part _ _ _ _ _ HT). exact C.
      - intros c' z' [p' [q' C']]. rewrite <- !(wv_part _ _ _ _ _ HT) in C'. apply (D c' z'). exists p', q'. exact C'. }
    split.
    { intros L p Hp. rewrite (spill_level t w h dem lab0 fd0 (f_lab s) (f_fd s) pits (f_db s) WS AP deps WF Hn2 HOUT' HSEA L p Hp).
      split; intros [A B]; split; auto; intros d r z P E Hd Z.
      - destruct (wv_back _ _ _ _ _ HT d r E) as [r0 [E0 ->]]. apply (B d r0 z); auto. apply (wv_part _ _ _ _ _ HT); auto.
      - apply (B d (setv r (Csum n deps dem (f_lab s) (concat parts) WF d) (vol n deps dem (f_lab s) (concat parts) WF d) (Tsum n deps dem (f_lab s) (concat parts) WF d)) z); auto.
        + apply (wv_part _ _ _ _ _ HT); auto.
        + apply HT; auto. }
    split.
    { intros d r E Hd. destruct (wv_back _ _ _ _ _ HT d r E) as [r0 [E0 ->]]. cbn [setv d_out_elev d_count d_vol d_total].
      destruct (wf_levels _ _ WF d r0 E0 Hd) as [z [Z _]]. exists z, (U n deps dem (f_lab s) (concat parts) WF d). split; auto.
      split; [|split; [reflexivity|split; [apply (vol_eq n deps dem (f_lab s) (concat parts) WF d r0 z E0 Z)|reflexivity]]].
      destruct (U_cells n deps w h dem (f_lab s) (concat parts) WF Hn2 Hlab ND PIN d r0 z E0 Hd Z) as [A B]. split; auto.
      intros c. rewrite B. unfold region. rewrite (wv_part _ _ _ _ _ HT). tauto. }
    intros d r rl rr v vl vr E Hd El Er V Vl Vr.
    destruct (wv_back _ _ _ _ _ HT d r E) as [r0 [E0 ->]]. cbn [setv d_vol d_lchild d_rchild] in *.
    destruct (wv_back _ _ _ _ _ HT _ rl El) as [rl0 [El0 ->]]. destruct (wv_back _ _ _ _ _ HT _ rr Er) as [rr0 [Er0 ->]]. cbn [setv d_vol] in *.
    destruct (wchild_link n deps WF Hn2 d r0 _ E0 Hd (or_introl eq_refl)) as [Cl _].
    destruct (wchild_link n deps WF Hn2 d r0 _ E0 Hd (or_intror eq_refl)) as [Cr _].
    destruct (wf_levels _ _ WF d r0 E0 ltac:(lia)) as [z [Z _]].
    destruct (wf_levels _ _ WF _ rl0 El0 ltac:(lia)) as [zl [Zl _]].
    destruct (wf_levels _ _ WF _ rr0 Er0 ltac:(lia)) as [zr [Zr _]].
    rewrite (vol_eq n deps dem (f_lab s) (concat parts) WF d r0 z E0 Z) in V.
    rewrite (vol_eq n deps dem (f_lab s) (concat parts) WF _ rl0 zl El0 Zl) in Vl.
    rewrite (vol_eq n deps dem (f_lab s) (concat parts) WF _ rr0 zr Er0 Zr) in Vr.
    inversion V. inversion Vl. inversion Vr. subst v vl vr.
    apply (depth_super n deps w h dem (f_lab s) (concat parts) WF Hn2 Hlab ND PIN d r0 z zl zr rl0 rr0); auto. lia.
  Qed.
  (** the outlet of every depression, as a pair of neighbouring cells *)
  Lemma gdh_links lab fd ds : GetDepressionHierarchy t w h dem tb sorted parts lab0 fd0 = Some (Ok (lab, fd, ds)) ->
    forall d r, ix ds d = Some r -> d <> 0 -> exists z p q c, d_out_elev r = Some z /\ d_out r = Some c /\ (c = p \/ c = q) /\ dem @ c = z /\
      inside w h p /\ inside w h q /\ neighbours t p q /\ part_of ds (lab @ p) d /\ ~ part_of ds (lab @ q) d /\ lab @ q = d_geolink r /\
      z = Z.max (dem @ p) (dem @ q).
  Proof.
    destruct gdh_front as [s [pits [deps H]]]. cbv zeta in H.
    destruct H as [EF [EB [WS [AP [Hn [Hlen0 [H0 [WF [HOUT' [HSEA [HP0 [Hn2 [Hlab H0v]]]]]]]]]]]]].
    set (n := Z.of_nat (length pits) + 1) in *.
    destruct Hparts as [ND PIN].
    assert (HLlen : Z.of_nat (length (concat parts)) < 2 ^ 31).
    { pose proof (ncells_small w h Hsize). assert (length (concat parts) <= length (cells w h))%nat.
      - apply NoDup_incl_length; auto. intros c I. apply cells_inside. apply PIN; auto.
      - rewrite cells_length in *. unfold ncells in *. lia. }
    destruct (marginal_ok n deps w h dem (f_lab s) parts WF Hn2 Hsize Hlab H0v) as [ds1 [EM HM]]; [intros c I; apply PIN; auto|auto|].
    destruct (totals_ok n deps w h dem (f_lab s) (concat parts) WF Hn2 Hlab ND PIN HLlen ds1 HM) as [ds2 [ET HT]].
    unfold GetDepressionHierarchy. rewrite EF, EB, EM, ET. intros K. injection K as <- <- <-.
    intros d r E Hd. destruct (wv_back _ _ _ _ _ HT d r E) as [r0 [E0 ->]]. cbn [setv d_out d_out_elev d_geolink].
    destruct (outlet_cells t w h dem (f_lab s) pits (f_db s) AP deps HOUT' d r0 E0 Hd) as [z [p [q [A [B [Hp [Hq [N [P [Q [G [Ez [Ec [Ed M]]]]]]]]]]]]]].
    destruct (d_out r0) as [c|] eqn:Eo; [|congruence]. exists z, p, q, c. rewrite <- !(wv_part _ _ _ _ _ HT).
    split; auto. split; auto. split; [destruct Ec as [X|X]; inversion X; auto|]. split; [apply Ed; auto|]. auto 10.
  Qed.
End Whole.

Section Decide.
  Variables (t : topology) (w h : Z) (lab0 : grid Z).
  Lemma all_dec (P : cellt -> Prop) : (forall c, P c \/ ~ P c) -> (forall c, inside w h c -> P c) \/ exists c, inside w h c /\ ~ P c.
  Proof.
    intros D. assert (G : forall l, (forall c, In c l -> P c) \/ exists c, In c l /\ ~ P c).
    { induction l as [|x l [IH|[c' [I N]]]]; [left; intros c []| |right; exists c'; split; auto; right; auto].
      destruct (D x) as [Y|N]; [left; intros c' [<-|I]; auto|right; exists x; split; auto; left; auto]. }
    destruct (G (cells w h)) as [A|[c [I N]]]; [left; intros c Hc; apply A, cells_inside; auto|right; exists c; split; auto; apply cells_inside; auto].
  Qed.
  Lemma valid_dec : valid_labels w h lab0 \/ ~ valid_labels w h lab0.
  Proof.
    destruct (all_dec (fun p => lab0 @ p = 0 \/ lab0 @ p = 2 ^ 32 - 1)) as [A|[c [I N]]]; [|left; exact A|right; intros H; apply N; apply H; auto].
    intros c. destruct (Z.eq_dec (lab0 @ c) 0); auto. destruct (Z.eq_dec (lab0 @ c) (2 ^ 32 - 1)); auto. right. intros [|]; auto.
  Qed.
  Lemma coast_dec : has_coast t w h lab0 \/ ~ has_coast t w h lab0.
  Proof.
    destruct (keep (fo t w h lab0) (scan w h)) as [|c0 l0] eqn:E.
    - right. apply (no_coast t w h lab0). exact E.
    - left. destruct (all_dec (fun p => ~ (ocean_cell w h lab0 p /\ coastal t w h lab0 p = true))) as [A|[c [I N]]].
      + intros p. destruct (coastal t w h lab0 p); [|left; intuition discriminate]. unfold ocean_cell. destruct (inside_dec w h p); [|left; tauto].
        destruct (Z.eq_dec (lab0 @ p) 0); [right; tauto|left; tauto].
      + exfalso. assert (X : In c0 (keep (fo t w h lab0) (scan w h))) by (rewrite E; left; auto). apply keep_In in X. destruct X as [a [I F]].
        apply (fo_iff t w h lab0) in F. destruct F as [-> [F1 F2]]. apply (scan_inside w h) in I. apply (A a I). split; auto. split; auto.
      + assert (X : ocean_cell w h lab0 c /\ coastal t w h lab0 c = true).
        { destruct (coastal t w h lab0 c) eqn:F; [|exfalso; apply N; intuition discriminate]. split; auto.
          split; auto. destruct (Z.eq_dec (lab0 @ c) 0); auto. exfalso. apply N. unfold ocean_cell. tauto. }
        destruct X as [X1 X2]. apply (coastal_iff t w h lab0) in X2. destruct X2 as [q [Q1 Q2]]. exists c, q. auto.
  Qed.
End Decide.

Lemma gdh_parts t w h dem lab0 fd0 tb sorted parts parts' :
  valid_labels w h lab0 -> has_coast t w h lab0 -> w * h < 2 ^ 31 ->
  (forall db, sorting_of db (sorted db)) -> each_cell_once w h parts -> each_cell_once w h parts' ->
  GetDepressionHierarchy t w h dem tb sorted parts lab0 fd0 = GetDepressionHierarchy t w h dem tb sorted parts' lab0 fd0.
Proof.
  intros V C S HS HP HP'. destruct (gdh_front t w h dem lab0 fd0 tb sorted V S C HS) as [s [pits [deps H]]]. cbv zeta in H.
  destruct H as [EF [EB [_ [_ [_ [_ [_ [WF [_ [_ [_ [Hn [Hlab H0v]]]]]]]]]]]]].
  unfold GetDepressionHierarchy. rewrite EF, EB.
  destruct HP as [ND PIN], HP' as [ND' PIN'].
  assert (PM : Permutation (concat parts) (concat parts')) by (apply NoDup_Permutation; auto; intros c; rewrite PIN, PIN'; tauto).
  assert (LEN : Z.of_nat (length (concat parts)) < 2 ^ 31).
  { pose proof (ncells_small w h S). assert (length (concat parts) <= length (cells w h))%nat.
    - apply NoDup_incl_length; auto. intros c I. apply cells_inside. apply PIN; auto.
    - rewrite cells_length in *. unfold ncells in *. lia. }
  destruct (marginal_ok _ deps w h dem (f_lab s) parts WF Hn S Hlab H0v) as [ds [EM [L1 HM]]]; [intros c I; apply PIN; auto|auto|].
  destruct (marginal_ok _ deps w h dem (f_lab s) parts' WF Hn S Hlab H0v) as [ds' [EM' [L2 HM']]]; [intros c I; apply PIN'; auto|rewrite <- (Permutation_length PM); auto|].
  rewrite EM, EM'. assert (ds = ds'); [|subst; reflexivity].
  apply ix_ext; [congruence|]. intros i Hi. destruct (proj2 (ix_some_iff deps i) ltac:(lia)) as [r E]. rewrite (HM i r E), (HM' i r E).
  f_equal. assert (FP : Permutation (filter (fun c => ch deps dem (f_lab s) c =? i) (concat parts)) (filter (fun c => ch deps dem (f_lab s) c =? i) (concat parts'))) by (apply filter_perm; auto).
  assert (ZP : forall a b, Permutation a b -> zsum a = zsum b) by (intros a b P; induction P; unfold zsum in *; cbn in *; lia).
  unfold cnt, tot. rewrite (Permutation_length FP), (ZP _ _ (Permutation_map (fun c => dem @ c) FP)). reflexivity.
Qed.
