(** C43: FindDepressionsToFill and the whole of FillSpillMerge. *)
From Coq Require Import ZArith List Lia Bool Permutation QArith Qcanon.
From Verif Require Import Base Res QcTac RasterSpec RasterFacts FlowModel FlowSpec FlowProofs PropertiesFlow FlatsSpec FlatsProofs
  DHModel DHSpec DHTree DHTerrain DHFlood DHAll DHPlain PropertiesDH FSMModel FSMSpec FSMPits FSMPits2 PropertiesPits FSMRoute FSMRoute2 FSMRoute3 PropertiesRoute
  FSMFill FSMFill2 FSMFill3 FSMBasin FSMFind.
Open Scope Z_scope.

(** The same for any labels and flow directions with the properties of those computed. *)
Lemma fsm_core w h dem lab0 lab fd pits deps order tbs wv0 wtd :
  watersheds D8 w h dem lab0 (fun _ _ => 0) lab fd pits ->
  well_formed (Z.of_nat (length pits) + 1) deps -> Z.of_nat (length pits) + 1 <= 2 ^ 31 ->
  (forall k p, nth_error pits k = Some p -> exists r, ix deps (Z.of_nat k + 1) = Some r /\ d_pit r = Some p /\ d_pit_elev r = Some (elev_at dem p)) ->
  (forall d r, ix deps d = Some r -> d <> 0 -> exists c z, d_out r = Some c /\ d_out_elev r = Some z /\
     lowest_pass D8 w h dem (region lab deps d) (outside lab deps d) c z) ->
  (forall d r, ix deps d = Some r -> d <> 0 -> exists z l, d_out_elev r = Some z /\ cells_under w h dem lab deps d z l /\
     d_count r = Z.of_nat (length l) /\ d_vol r = Some (depth_sum dem z l) /\ d_total r = zsum (map (elev_at dem) l)) ->
  (forall d r rl rr v vl vr, ix deps d = Some r -> Z.of_nat (length pits) + 1 <= d -> ix deps (d_lchild r) = Some rl -> ix deps (d_rchild r) = Some rr ->
     d_vol r = Some v -> d_vol rl = Some vl -> d_vol rr = Some vr -> vl + vr <= v) ->
  (forall d r, ix deps d = Some r -> d <> 0 -> exists z p q c, d_out_elev r = Some z /\ d_out r = Some c /\ (c = p \/ c = q) /\ elev_at dem c = z /\
      inside w h p /\ inside w h q /\ neighbours D8 p q /\ part_of deps (elev_at lab p) d /\ ~ part_of deps (elev_at lab q) d /\ elev_at lab q = d_geolink r /\
      z = Z.max (elev_at dem p) (elev_at dem q)) ->
  Permutation order (cells w h) -> length wv0 = length deps ->
  (forall c, inside w h c -> (0 <= wtd c)%Qc) ->
  (~ corner_fed fd w h \/ (elev_at lab0 corner = 0 /\ wtd corner = 0%Qc)) ->
  (forall d r v, ix deps d = Some r -> d <> 0 -> d_ocean_parent r = false -> d_vol r = Some v -> 0 < v) ->
  exists wtd' wv', FillSpillMerge w h dem lab fd deps order tbs wv0 wtd = Some (Ok (wtd', wv')) /\
    water_settled w h dem lab0 lab deps wtd wtd' wv'.
Proof.
  intros WS WF Hn PITS PASS VOLS HM LINKS P HL0 SAT CORNER VPOS.
  set (n := Z.of_nat (length pits) + 1) in *.
  assert (VO : volumes_ok n deps).
  { constructor; [|exact HM]. intros d r Ed Nd. destruct (VOLS d r Ed Nd) as [z [l [_ [[_ CU] [_ [Ev _]]]]]]. exists (depth_sum dem z l). split; [exact Ev|].
    unfold depth_sum. apply zsum_nonneg. intros c Hc. apply CU in Hc. destruct Hc as [_ [_ Hc]]. lia. }
  destruct (watershed_directions w h dem lab0 lab fd pits WS) as [D1 [D2 D3]].
  pose proof (wf_size _ _ WF) as SZ. pose proof (FSMRoute.n_pos n deps WF) as NP.
  set (z0 := repeat 0%Qc (length deps)).
  assert (R0 : ResetDH wv0 = z0).
  { unfold ResetDH, z0. rewrite <- HL0. clear. induction wv0 as [|a l IH]; [reflexivity|]. cbn. rewrite IH. reflexivity. }
  assert (B : forall p, inside w h p -> 0 <= elev_at lab p < Z.of_nat (length z0)).
  { intros p Hp. unfold z0. rewrite repeat_length. pose proof (ws_label _ _ _ _ _ _ _ _ _ WS p Hp). lia. }
  destruct (C30_settles fd lab w h z0 wtd order D1 B P) as [wtd1 [wv1 [X [EM [AR [[S1 S2] [EL CL]]]]]]].
  unfold z0 in EL. rewrite repeat_length in EL.
  (* the surface is dry *)
  assert (NB : forall p, inside w h p -> ~ blocked fd w h p \/ (p = corner /\ elev_at lab0 corner = 0 /\ wtd corner = 0%Qc)).
  { intros p Hp. destruct (cell_dec p corner) as [->|Hne].
    - destruct CORNER as [NF|[C1 C2]]; [left|right; auto]. intros [q [_ [[r [G [F _]]]|[_ F]]]]; [|auto]. apply (D2 q). exists r. split; [apply goes_flows_on, G|exact F].
    - left. intros [q [G0 [[r [G [F _]]]|[-> F]]]]; [apply (D2 q); exists r; split; [apply goes_flows_on, G|exact F]|].
      destruct CORNER as [NF|[C1 C2]]; [auto|]. exfalso.
      assert (FC : elev_at fd corner = 0) by (apply (ws_ocean _ _ _ _ _ _ _ _ _ WS); split; [apply (corner_in w h p Hp)|exact C1]).
      assert (STAY : forall a b, goes_through fd w h a b -> a = corner -> b = corner).
      { induction 1 as [a|a b c G IH PT]; auto. intros Ha. specialize (IH Ha). subst b. destruct PT as [PT _]. apply (flows_iff fd w h D1) in PT. tauto. }
      apply Hne. eapply STAY; eauto. }
  assert (DRY : forall p, inside w h p -> wtd1 p = 0%Qc).
  { intros p Hp. destruct (NB p Hp) as [Np|[-> [C1 C2]]].
    - rewrite (S1 p Hp Np). destruct (AR p Hp Np) as [D [_ EX]].
      assert (0 <= qsum (map (fun d => qmax 0 (X d)) D))%Qc by (apply qsum_nonneg; intros x Hx; apply in_map_iff in Hx; destruct Hx as [c [<- _]]; apply qmax_nonneg).
      pose proof (SAT p Hp). qlra.
    - assert (DEC : blocked fd w h corner \/ ~ blocked fd w h corner).
      { destruct (Nat.eq_dec (k0 fd w h) 0) as [K|K].
        - right. intros [q [_ [[r [G [F _]]]|[_ F]]]]; [apply (D2 q); exists r; split; [apply goes_flows_on, G|exact F]|].
          apply (k0_fed fd w h wtd D1) in F. lia.
        - left. exists corner. split; [constructor|right]. split; auto. apply (k0_fed fd w h wtd D1). lia. }
      destruct DEC as [Bl|Np].
      + destruct (S2 corner Hp Bl) as [D [[_ DI] ->]]. destruct D as [|c D]; [rewrite C2; unfold qsum; cbn; ring|].
        exfalso. destruct (proj1 (DI c) (or_introl eq_refl)) as [[_ Hc] _]. apply Hc. reflexivity.
      + rewrite (S1 corner Hp Np). destruct (AR corner Hp Np) as [D [_ EX]].
        assert (0 <= qsum (map (fun d => qmax 0 (X d)) D))%Qc by (apply qsum_nonneg; intros x Hx; apply in_map_iff in Hx; destruct Hx as [c [<- _]]; apply qmax_nonneg).
        pose proof (SAT corner Hp). qlra. }
  assert (PO : pits_only n deps wv1).
  { split; [exact EL|]. intros d q Q. assert (Hd : 0 <= d < Z.of_nat (length wv1)) by (apply ix_some_iff; eauto).
    assert (Ha : ix z0 d = Some 0%Qc).
    { destruct (proj2 (ix_some_iff z0 d)) as [a Ea]; [unfold z0; rewrite repeat_length; lia|].
      rewrite Ea. f_equal. unfold ix in Ea. destruct (d <? 0); [discriminate|]. apply nth_error_In, repeat_spec in Ea. exact Ea. }
    destruct (CL d 0%Qc Ha) as [D [[_ DI] ED]]. rewrite Q in ED. injection ED as ->.
    assert (0 <= qsum (map (fun d => qmax 0 (X d)) D))%Qc.
    { apply qsum_nonneg. intros x Hx. apply in_map_iff in Hx. destruct Hx as [c [<- _]]. apply qmax_nonneg. }
    split; [qlra|]. intros Hl. destruct D as [|c D]; [unfold qsum; cbn; ring|]. exfalso.
    destruct (proj1 (DI c) (or_introl eq_refl)) as [[Hc _] [_ LC]]. pose proof (ws_label _ _ _ _ _ _ _ _ _ WS c Hc). unfold n in Hl. lia. }
  destruct (route_correct n deps WF Hn VO wv1 PO) as [wv2 [ER [LV [_ SPILL]]]].
  destruct (C29_conserves_water n deps wv1 wv2 WF Hn VO PO ER) as [b [HB [Q1 Q2]]].
  destruct (levelled_fok n deps WF Hn VO wv2 LV) as [HLW [FO CP]].
  destruct (pits_fok n deps wv1 PO) as [FO1 TD1].
  destruct (route_ok n deps WF Hn VO wv1 EL FO1) as [_ [_ [_ POP]]].
  assert (VP : forall d, 0 < d < Z.of_nat (length deps) -> d_ocean_parent (FSMRoute.dp deps d) = false -> (0 < V deps d)%Qc).
  { intros d Hd O. destruct (vol_dp n deps VO d Hd) as [z [Ez [EV _]]]. rewrite EV. rewrite <- zq_0. apply zq_lt. apply (VPOS d (FSMRoute.dp deps d) z); [apply FSMRoute.dp_ix; lia|lia|exact O|exact Ez]. }
  pose proof (sane_all pits deps WF Hn VO wv2 HLW FO CP VP) as SANE.
  destruct (find_all w h dem lab0 (fun _ _ => 0) lab fd pits deps WS WF Hn VO PITS PASS LINKS VOLS wv2 HLW FO CP VP tbs POP wtd1 DRY) as [si [wtd2 [EF SP]]].
  exists wtd2, wv2. split.
  { unfold FillSpillMerge. rewrite R0, EM. cbn [then_]. rewrite ER. cbn [then_]. rewrite SANE, EF. reflexivity. }
  assert (TM : times (length deps + 2 * Z.to_nat (w * h)) tolerance = (slack deps + times (2 * Z.to_nat (w * h)) tolerance)%Qc).
  { unfold times, slack. rewrite Nat2Z.inj_add, zq_add. unfold tolerance. ring. }
  pose proof (spread_pos w h dem lab pits deps WF wv2 _ wtd2 SP) as SPOS.
  pose proof (spread_sea w h dem lab pits deps WF wv2 HLW tbs _ wtd2 SP) as SSEA.
  pose proof (spread_still w h dem lab pits deps WF PASS wv2 HLW tbs _ wtd2 SP) as SSTILL.
  assert (SEA : forall c, ocean_cell w h lab0 c -> wtd2 c = 0%Qc).
  { intros c Hc. apply SSEA; [apply Hc|]. apply (ws_ocean _ _ _ _ _ _ _ _ _ WS c Hc). }
  assert (CB := cnt_bound w h dem lab0 (fun _ _ => 0) lab fd pits deps WS WF Hn VO PITS LINKS wv2 HLW FO CP VP tbs POP).
  assert (LISTED : forall d l, listing (fun c => inside w h c /\ region lab deps d c) l -> Permutation l (DD w h lab deps d)).
  { intros d l [ND IN]. apply NoDup_Permutation; [exact ND|apply NoDup_filter, cells_NoDup|]. intros c.
    rewrite (DD_ok w h dem lab0 (fun _ _ => 0) lab fd pits deps WS WF Hn). apply IN. }
  assert (QL : forall (g : cell -> Qc) d l, listing (fun c => inside w h c /\ region lab deps d c) l -> qsum (map g l) = qsum (map g (DD w h lab deps d))).
  { intros g d l LI. apply qsum_perm, Permutation_map, LISTED, LI. }
  assert (W2 : forall d, 0 <= d < Z.of_nat (length deps) -> ix wv2 d = Some (wat wv2 d)) by (intros d Hd; apply wat_ix; lia).
  constructor.
  - split; [exact SPOS|exact SSTILL].
  - exact SEA.
  - intros p L Hp Wp ES. induction ES as [p Ip Op Le|p q Ip Le NBq ES IH]; [rewrite (SEA p Op) in Wp; exfalso; revert Wp; apply Qcle_not_lt, Qcle_refl|].
    assert (Iq : inside w h q) by (destruct ES; auto). pose proof (SSTILL p q Ip Iq NBq Wp) as ST.
    destruct (qltP 0 (wtd2 q)) as [Y|Y]; [specialize (IH Iq Y); qlra|]. pose proof (SPOS q Iq).
    assert (Lq : elev_at dem q <= L) by (destruct ES; auto). apply zq_le in Lq. apply Qcnot_lt_le in Y. qlra.
  - exact LV.
  - intros d r q l Ed Nd Q NZ TOP LI. assert (Hd : 0 <= d < Z.of_nat (length deps)) by (apply ix_some_iff; eauto).
    assert (Er : r = FSMRoute.dp deps d) by (unfold FSMRoute.dp; rewrite Ed; reflexivity). subst r.
    rewrite W2 in Q by auto. injection Q as <-.
    assert (FB : fillb deps wv2 d = true).
    { apply fillb_iff; auto. split; [lia|]. split; [exact NZ|]. destruct TOP as [O|O]; [auto|right]. unfold wat. rewrite O. reflexivity. }
    rewrite (QL wtd2 d l LI).
    pose proof (sp_each _ _ _ _ _ _ _ _ SP d) as SE.
    assert (IP : In d (postorder deps (length deps) 0)) by (eapply Permutation_in; [apply Permutation_sym, POP|]; apply zrange_In; lia).
    destruct (SE IP FB) as [SE1 SE2].
    assert (TT : (times (S (length (RR w h dem lab deps d))) tolerance <= times (S (length l)) tolerance)%Qc).
    { unfold times. apply Qcmult_le_compat_r; [|pose proof tol_pos; qlra]. apply zq_le. rewrite (Permutation_length (LISTED d l LI)).
      assert (length (RR w h dem lab deps d) <= length (DD w h lab deps d))%nat; [|lia].
      apply NoDup_incl_length; [apply NoDup_filter, cells_NoDup|]. intros c Hc. unfold RR in Hc. apply filter_In in Hc. destruct Hc as [C1 C2]. apply andb_true_iff in C2.
      apply filter_In. split; tauto. }
    split; qlra.
  - intros d r v q l Ed Nd Ev Q LT LI. assert (Hd : 0 <= d < Z.of_nat (length deps)) by (apply ix_some_iff; eauto).
    assert (Er : r = FSMRoute.dp deps d) by (unfold FSMRoute.dp; rewrite Ed; reflexivity).
    destruct (SPILL d r v q Ed Nd Ev Q LT) as [SH _].
    destruct (holds_total n deps WF Hn VO wv1 EL (S (Z.to_nat d)) d ltac:(lia) Hd) as [a HA].
    destruct (holds_total n deps WF Hn VO wv2 HLW (S (Z.to_nat d)) d ltac:(lia) Hd) as [a2 HA2].
    specialize (SH a a2 HA HA2).
    destruct (holds_amount n deps WF Hn VO wv1 EL FO1 TD1 d a HA) as [_ T1].
    destruct (holds_amount n deps WF Hn VO wv2 HLW FO (or_introl CP) d a2 HA2) as [_ T2].
    assert (FV : (wat wv2 d < V deps d)%Qc).
    { rewrite W2 in Q by auto. injection Q as Q. rewrite Q. unfold V. rewrite <- Er, Ev. exact LT. }
    destruct (region_sum w h dem lab0 (fun _ _ => 0) lab fd pits deps WS WF Hn VO PITS LINKS wv2 HLW FO CP VP tbs POP d wtd2 SP ltac:(lia) FV) as [RS _].
    assert (T2' := T2). unfold n in T2'.
    match type of RS with (?x - _ <= _)%Qc => assert (XE : x = a2) by exact T2'; rewrite XE in RS end.
    (* the rain on the depression's cells *)
    assert (RAIN : a = qsum (map wtd (DD w h lab deps d))).
    { pose proof (mwp_balance fd lab w h (length z0) (fun p => partb deps d (elev_at lab p)) (partb deps d) D1 B) as MB.
      specialize (MB (fun p q F => f_equal (partb deps d) (D3 p q F)) (fun _ _ => eq_refl) order z0 wtd wtd1 wv1 eq_refl EM).
      assert (FS : forall v, fsum (fun p => partb deps d (elev_at lab p)) w h v = qsum (map v (DD w h lab deps d))).
      { intros v0. unfold fsum, DD, qsum. generalize (cells w h) as Lc. induction Lc as [|c Lc IH]; cbn [map fold_right filter]; [reflexivity|].
        destruct (partb deps d (elev_at lab c)); cbn [map fold_right]; rewrite IH; ring. }
      rewrite !FS in MB. rewrite (qsum_ext_in wtd1 (fun _ => 0%Qc)) in MB.
      - rewrite qsum_zero in MB. assert (WZ : wsum (partb deps d) z0 = 0%Qc).
        { unfold wsum. generalize (zrange 0 (length z0)) as Lz. intros Lz. assert (WW : forall i, wat z0 i = 0%Qc).
          { intros i. unfold wat. destruct (ix z0 i) as [x|] eqn:Ex; [|reflexivity]. unfold ix in Ex. destruct (i <? 0); [discriminate|]. apply nth_error_In, repeat_spec in Ex. exact Ex. }
          unfold qsum. induction Lz as [|i Lz IH]; cbn [map fold_right]; [reflexivity|]. rewrite IH, WW. destruct (partb deps d i); ring. }
        rewrite WZ in MB. rewrite <- T1. transitivity (wsum (partb deps d) wv1); [|rewrite Qcplus_0_l, Qcplus_0_r in MB; exact MB].
        unfold tsum, wsum. rewrite EL. f_equal. apply map_ext_in. intros i Hi. apply zrange_In in Hi. unfold own. destruct (Z.ltb_spec i n) as [|Hi2]; [reflexivity|].
        destruct PO as [_ PO]. destruct (PO i (wat wv1 i)) as [_ PZ]; [apply wat_ix; lia|]. rewrite (PZ Hi2). destruct (partb deps d i), (qeqP 0 0); auto; congruence.
      - intros c Hc. apply DRY. apply (DD_ok w h dem lab0 (fun _ _ => 0) lab fd pits deps WS WF Hn) in Hc. tauto. }
    rewrite (QL wtd d l LI), (QL wtd2 d l LI). rewrite <- RAIN. unfold allowance. rewrite TM. unfold slack.
    change (Q2Qc (1 # 1000000)) with fp_error. qlra.
  - exists (wat wv2 0). split; [apply W2; lia|]. split; [apply (fk_pos _ _ _ FO)|].
    pose proof (C30_conserves_water fd lab w h _ wtd order wtd1 wv1 D1 B EM) as C.
    assert (Z0 : qsum z0 = 0%Qc) by (unfold z0; generalize (length deps) as k; induction k as [|k IH]; [reflexivity|unfold qsum in *; cbn [repeat fold_right]; rewrite IH; ring]).
    assert (S0 : surface_total w h wtd1 = 0%Qc).
    { unfold surface_total. rewrite (qsum_ext_in wtd1 (fun _ => 0%Qc)); [apply qsum_zero|]. intros c Hc. apply DRY, cells_inside, Hc. }
    rewrite Z0, S0 in C. pose proof (put_total w pits deps WF Hn VO wv2 HLW FO CP VP tbs POP b HB) as PT.
    destruct (sp_sum _ _ _ _ _ _ _ _ SP) as [U1 U2].
    assert (TC : (times (cnt w h dem lab deps wv2 (postorder deps (length deps) 0)) tolerance <= times (2 * Z.to_nat (w * h)) tolerance)%Qc).
    { unfold times. apply Qcmult_le_compat_r; [|pose proof tol_pos; qlra]. apply zq_le. lia. }
    assert (SL : (0 <= slack deps)%Qc).
    { unfold slack. rewrite <- (Qcmult_0_l (Q2Qc (1 # 1000000))). apply Qcmult_le_compat_r; [rewrite <- zq_0; apply zq_le; lia|pose proof tol_pos; unfold tolerance in *; qlra]. }
    unfold within, allowance. rewrite TM. split; qlra.
Qed.

(** For every terrain and every hierarchy computed from it in which only depressions that overflow directly into
    the ocean's watershed have volume 0, every amount of rain on saturated ground (water tables not below the surface), every order in which cells are
    visited and every choice among equal elevations: the call completes and the water comes to rest. The
    corner (0,0) must be a dry ocean cell, or nothing must flow into it (see C30). Water left in the
    hierarchy by an earlier call does not matter. *)
Theorem C43_any_queue : forall w h dem lab0 tb sorted parts lab fd deps order tbs wv0 wtd,
  valid_labels w h lab0 -> has_coast D8 w h lab0 -> w * h < 2 ^ 31 ->
  (forall db, sorting_of db (sorted db)) -> each_cell_once w h parts ->
  GetDepressionHierarchy D8 w h dem tb sorted parts lab0 (fun _ _ => 0) = Some (Ok (lab, fd, deps)) ->
  Permutation order (cells w h) -> length wv0 = length deps ->
  (forall c, inside w h c -> (0 <= wtd c)%Qc) ->
  (~ corner_fed fd w h \/ (elev_at lab0 corner = 0 /\ wtd corner = 0%Qc)) ->
  (forall d r v, ix deps d = Some r -> d <> 0 -> d_ocean_parent r = false -> d_vol r = Some v -> 0 < v) ->
  exists wtd' wv', FillSpillMerge w h dem lab fd deps order tbs wv0 wtd = Some (Ok (wtd', wv')) /\
    water_settled w h dem lab0 lab deps wtd wtd' wv'.
Proof.
  intros w h dem lab0 tb sorted parts lab fd deps order tbs wv0 wtd V1 V2 V3 V4 V5 E P HL0 SAT CORNER VPOS.
  pose proof (gdh_links D8 w h dem lab0 (fun _ _ => 0) tb sorted parts V1 V3 V2 V4 V5 lab fd deps E) as LINKS.
  destruct (gdh_ok D8 w h dem lab0 (fun _ _ => 0) tb sorted parts V1 V3 V2 V4 V5) as [lab' [fd' [deps' [pits [E' [WS [WF [Hn [PITS [PASS [_ [VOLS HM]]]]]]]]]]]].
  assert (EE : (lab', fd', deps') = (lab, fd, deps)) by congruence. injection EE as -> -> ->.
  eapply fsm_core; eauto.
Qed.
Print Assumptions C43_any_queue.

(** The queue of the program returns the most recently pushed of the cells of lowest elevation (C44, C45). Then no
    assumption about the volumes is needed: for every terrain, the call completes and the water comes to rest. *)
Theorem C43_fill_spill_merge : forall w h dem lab0 sorted parts lab fd deps order tbs wv0 wtd,
  valid_labels w h lab0 -> has_coast D8 w h lab0 -> w * h < 2 ^ 31 ->
  (forall db, sorting_of db (sorted db)) -> each_cell_once w h parts ->
  GetDepressionHierarchy D8 w h dem most_recent_first sorted parts lab0 (fun _ _ => 0) = Some (Ok (lab, fd, deps)) ->
  Permutation order (cells w h) -> length wv0 = length deps ->
  (forall c, inside w h c -> (0 <= wtd c)%Qc) ->
  (~ corner_fed fd w h \/ (elev_at lab0 corner = 0 /\ wtd corner = 0%Qc)) ->
  exists wtd' wv', FillSpillMerge w h dem lab fd deps order tbs wv0 wtd = Some (Ok (wtd', wv')) /\
    water_settled w h dem lab0 lab deps wtd wtd' wv'.
Proof.
  intros w h dem lab0 sorted parts lab fd deps order tbs wv0 wtd V1 V2 V3 V4 V5 E P HL0 SAT CORNER.
  apply (C43_any_queue w h dem lab0 most_recent_first sorted parts lab fd deps order tbs wv0 wtd V1 V2 V3 V4 V5 E P HL0 SAT CORNER).
  apply (gdh_positive D8 w h dem lab0 (fun _ _ => 0) sorted parts V1 V3 V2 V4 V5 most_recent_first lab fd deps E).
  exact (gdh_plain D8 w h dem lab0 (fun _ _ => 0) sorted parts V1 V3 V2 lab fd deps E).
Qed.
Print Assumptions C43_fill_spill_merge.

(** If every pit is lower than all its neighbours, the order among equal elevations does not matter either. *)
Theorem C43_strict_pits : forall w h dem lab0 tb sorted parts lab fd deps order tbs wv0 wtd,
  valid_labels w h lab0 -> has_coast D8 w h lab0 -> w * h < 2 ^ 31 -> strict_pits w h dem lab0 ->
  (forall db, sorting_of db (sorted db)) -> each_cell_once w h parts ->
  GetDepressionHierarchy D8 w h dem tb sorted parts lab0 (fun _ _ => 0) = Some (Ok (lab, fd, deps)) ->
  Permutation order (cells w h) -> length wv0 = length deps ->
  (forall c, inside w h c -> (0 <= wtd c)%Qc) ->
  (~ corner_fed fd w h \/ (elev_at lab0 corner = 0 /\ wtd corner = 0%Qc)) ->
  exists wtd' wv', FillSpillMerge w h dem lab fd deps order tbs wv0 wtd = Some (Ok (wtd', wv')) /\
    water_settled w h dem lab0 lab deps wtd wtd' wv'.
Proof.
  intros w h dem lab0 tb sorted parts lab fd deps order tbs wv0 wtd V1 V2 V3 ST V4 V5 E P HL0 SAT CORNER.
  apply (C43_any_queue w h dem lab0 tb sorted parts lab fd deps order tbs wv0 wtd V1 V2 V3 V4 V5 E P HL0 SAT CORNER).
  apply (gdh_positive D8 w h dem lab0 (fun _ _ => 0) sorted parts V1 V3 V2 V4 V5 tb lab fd deps E).
  destruct (gdh_ok D8 w h dem lab0 (fun _ _ => 0) tb sorted parts V1 V3 V2 V4 V5) as [lab' [fd' [deps' [pits [E' [WS _]]]]]].
  assert (EE : (lab', fd', deps') = (lab, fd, deps)) by congruence. injection EE as -> -> ->.
  intros p q Hp Hq N Le Np Low. exfalso.
  destruct (ws_drain _ _ _ _ _ _ _ _ _ WS p Hp) as [r [R [[X _]|[k [K1 K2]]]]]; [contradiction|].
  destruct (ws_pit _ _ _ _ _ _ _ _ _ WS k r K2) as [PT [LR _]].
  destruct (runs_strict w h dem lab0 lab fd ST p r R PT) as [->|Lt].
  - specialize (ST r q PT Hq N). lia.
  - specialize (Low r (proj1 (proj1 PT)) ltac:(lia)). lia.
Qed.
Print Assumptions C43_strict_pits.

(** With another order among equal elevations and a flat bottom the program can abort: here the plateau of level 2 is
    split into two depressions, one of volume 0, and an amount of water that just fills the other one trips
    assert(depressions.at(lchild).water_vol < water_vol). *)
Definition plateau_dem : grid Z := of_rows [[0; 4; 2; 2; 2; 1; 4]].
Definition plateau_lab : grid Z := fun x y => if x =? 0 then 0 else 2 ^ 32 - 1.
Definition plateau_tb (i : nat) : nat := if Nat.eqb i 2 then 2%nat else 0%nat.
Definition plateau_rain : cellt -> Qc := fun p => if ceqb p (5, 0) then 1%Qc else 0%Qc.
Definition plateau_run tb := match GetDepressionHierarchy D8 7 1 plateau_dem tb ex_sort [cells 7 1] plateau_lab (fun _ _ => 0) with
  | Some (Ok (lab, fd, deps)) => Some (map d_vol deps, FillSpillMerge 7 1 plateau_dem lab fd deps (cells 7 1) (fun _ _ => 0%nat) (repeat 0%Qc (length deps)) plateau_rain)
  | _ => None end.
Theorem C43_other_queue_refuted : valid_labels 7 1 plateau_lab /\ has_coast D8 7 1 plateau_lab /\
  exists tb, plateau_run tb = Some ([None; Some 1; Some 0; Some 9], Some Undef).
Proof.
  split; [|split].
  - intros [x y] [A B]. unfold elev_at, plateau_lab. cbn [fst snd] in *. destruct (x =? 0); [left|right]; reflexivity.
  - exists (0, 0), (1, 0). unfold ocean_cell, land_cell, FlatsSpec.inside, elev_at, plateau_lab, neighbours, adjacent. cbn. repeat split; try lia; try congruence.
  - exists plateau_tb. vm_compute. reflexivity.
Qed.
Print Assumptions C43_other_queue_refuted.
Example C43_real_queue_completes : option_map (fun r => (fst r, show 7 1 (snd r))) (plateau_run most_recent_first) =
  Some ([None; Some 9], Some ([[0; 0; 0; 0; 0; 1; 0]]%Q, [0; 1]%Q)).
Proof. vm_compute. reflexivity. Qed.

(** 12 units of rain in one of the two basins of the example overflow into the other one, fill both up to the saddle, and
    form one lake. *)
Definition ex_rain : cellt -> Qc := fun p => if ceqb p (2, 2) then zq 12 else 0%Qc.
Definition ex_fsm := match GetDepressionHierarchy D8 7 5 ex_dem most_recent_first ex_sort ex_parts ex_lab (fun _ _ => 0) with
  | Some (Ok (lab, fd, deps)) => show 7 5 (FillSpillMerge 7 5 ex_dem lab fd deps (cells 7 5) (fun _ _ => 0%nat) (repeat 0%Qc (length deps)) ex_rain)
  | _ => None end.
Example C43_ex_run : ex_fsm = Some ([[0; 0; 0; 0; 0; 0; 0]; [0; 0; 0; 0; 0; 0; 0]; [0; 0; 14 # 3; 5 # 3; 17 # 3; 0; 0]; [0; 0; 0; 0; 0; 0; 0]; [0; 0; 0; 0; 0; 0; 0]]%Q, [0; 4; 3; 12]%Q).
Proof. vm_compute. reflexivity. Qed.
(** the hypotheses hold *)
Example C43_met : exists lab fd deps, GetDepressionHierarchy D8 7 5 ex_dem most_recent_first ex_sort ex_parts ex_lab (fun _ _ => 0) = Some (Ok (lab, fd, deps)) /\
  exists wtd' wv', FillSpillMerge 7 5 ex_dem lab fd deps (cells 7 5) (fun _ _ => 0%nat) (repeat 0%Qc (length deps)) ex_rain = Some (Ok (wtd', wv')) /\
    water_settled 7 5 ex_dem ex_lab lab deps ex_rain wtd' wv'.
Proof.
  destruct ex_inputs as [A [B D]].
  destruct (gdh_ok D8 7 5 ex_dem ex_lab (fun _ _ => 0) most_recent_first ex_sort ex_parts A ltac:(lia) B ex_sort_ok D) as [lab [fd [deps [pits [E _]]]]].
  exists lab, fd, deps. split; [exact E|].
  eapply C43_fill_spill_merge; eauto using ex_sort_ok.
  - lia.
  - apply repeat_length.
  - intros c _. unfold ex_rain. destruct (ceqb c (2, 2)); [rewrite <- zq_0; apply zq_le; lia|apply Qcle_refl].
Qed.
