(** FindDepressionsToFill. *)
From Coq Require Import ZArith List Lia Bool Permutation Sorting.Sorted QArith Qcanon Wellfounded.
From Verif Require Import Base Res QcTac RasterSpec RasterFacts FlowModel FlatsSpec FlatsProofs DHModel DHSpec DHTree DHTerrain
  FSMModel FSMPits FSMPits2 FSMRoute FSMRoute2 FSMRoute3 FSMFill FSMFill2 FSMFill3 FSMSpec FSMBasin.
Open Scope Z_scope.

Lemma qsum_part {A} (g : A -> Qc) (P : A -> bool) l :
  (qsum (map g l) = qsum (map g (filter P l)) + qsum (map g (filter (fun a => negb (P a)) l)))%Qc.
Proof. unfold qsum. induction l as [|a l IH]; cbn [map fold_right filter]; [ring|]. destruct (P a); cbn [negb map fold_right]; rewrite IH; ring. Qed.
Lemma qsum_zero {A} (l : list A) : qsum (map (fun _ => 0%Qc) l) = 0%Qc.
Proof. unfold qsum. induction l as [|a l IH]; cbn [map fold_right]; [reflexivity|]. rewrite IH. ring. Qed.

Section Find.
  Variables (w h : Z) (dem lab0 fd0 lab fd : grid Z) (pits : list cellt) (deps : list dep).
  Notation n := (Z.of_nat (length pits) + 1).
  Notation N := (length deps).
  Notation len := (Z.of_nat (length deps)).
  Hypothesis WS : watersheds D8 w h dem lab0 fd0 lab fd pits.
  Hypothesis WF : well_formed n deps.
  Hypothesis Hn : n <= 2 ^ 31.
  Hypothesis VO : volumes_ok n deps.
  Hypothesis PITS : forall k p, nth_error pits k = Some p -> exists r, ix deps (Z.of_nat k + 1) = Some r /\ d_pit r = Some p /\ d_pit_elev r = Some (elev_at dem p).
  Hypothesis PASS : forall d r, ix deps d = Some r -> d <> 0 -> exists c z, d_out r = Some c /\ d_out_elev r = Some z /\
       lowest_pass D8 w h dem (region lab deps d) (outside lab deps d) c z.
  Hypothesis LINKS : forall d r, ix deps d = Some r -> d <> 0 -> exists z p q c, d_out_elev r = Some z /\ d_out r = Some c /\ (c = p \/ c = q) /\ elev_at dem c = z /\
      inside w h p /\ inside w h q /\ neighbours D8 p q /\ part_of deps (elev_at lab p) d /\ ~ part_of deps (elev_at lab q) d /\ elev_at lab q = d_geolink r /\
      z = Z.max (elev_at dem p) (elev_at dem q).
  Hypothesis VOLS : forall d r, ix deps d = Some r -> d <> 0 -> exists z l, d_out_elev r = Some z /\ cells_under w h dem lab deps d z l /\
       d_count r = Z.of_nat (length l) /\ d_vol r = Some (depth_sum dem z l) /\ d_total r = zsum (map (elev_at dem) l).
  Notation dp := (FSMRoute.dp deps).
  Notation V := (FSMRoute.V deps).
  Notation par i := (d_parent (dp i)).
  Notation lch i := (d_lchild (dp i)).
  Notation rch i := (d_rchild (dp i)).
  Notation part := (part_of deps).
  Notation e c := (elev_at dem c).
  Notation zz := (zz deps).
  Notation oc := (oc deps).
  Notation pc := (pc deps).
  Notation ss := (FSMBasin.ss dem pits deps).
  Local Notation dp_ix := (FSMRoute.dp_ix deps).
  Local Notation dp_at := (FSMRoute.dp_at deps).
  Local Notation n_pos := (FSMRoute.n_pos n deps WF).
  Local Notation len_small := (FSMRoute.len_small n deps WF Hn).
  Local Notation wmeta := (FSMRoute.wmeta n deps WF VO).
  Local Notation wleaf := (FSMRoute.wleaf n deps WF).
  Local Notation wplace := (FSMRoute.wplace n deps WF).
  Local Notation child_link := (FSMRoute.child_link n deps WF Hn).
  Local Notation postorder := (FSMRoute2.postorder deps).
  Local Notation hgt := (FSMRoute2.hgt deps).
  Local Notation partb := (FSMRoute3.partb deps).

  Variable wv : list Qc.
  Notation f := (wat wv).
  Hypothesis HLW : length wv = N.
  Hypothesis FO : fok n deps f.
  Hypothesis CP : FSMRoute3.capped deps f.
  Hypothesis VP : forall d, 0 < d < len -> d_ocean_parent (dp d) = false -> (0 < V d)%Qc.
  Variable tbs : Z -> nat -> nat.

  (** the depressions over whose cells water is spread *)
  Definition fillb (d : Z) : bool := (0 <? d) && (d <? len) && negb (qeq (f d) 0) && (d_ocean_parent (dp d) || qeq (f (par d)) 0).
  Lemma fillb_iff d : fillb d = true <-> 0 < d < len /\ f d <> 0%Qc /\ (d_ocean_parent (dp d) = true \/ f (par d) = 0%Qc).
  Proof.
    unfold fillb. rewrite !andb_true_iff, orb_true_iff, negb_true_iff, Z.ltb_lt, Z.ltb_lt.
    destruct (qeqP (f d) 0), (qeqP (f (par d)) 0); intuition congruence.
  Qed.
  Lemma full_eq c : 0 < c < len -> d_ocean_parent (dp c) = false -> f (par c) <> 0%Qc -> f c = V c /\ f c <> 0%Qc.
  Proof.
    intros Hc O NZ. destruct (wplace c Hc) as [X|_ A2 A3 _ _ _ _ _ _ A10 _ _]; [congruence|].
    destruct (fk_meta _ _ _ FO (par c)) as [FL FR]; [lia|auto|].
    assert (FC : FSMRoute.full deps f c) by (destruct A10 as [[X _]|[X _]]; rewrite X in *; auto).
    assert (E : f c = V c) by (apply Qcle_antisym; [apply CP; auto|exact FC]). split; auto.
    rewrite E. intros X. specialize (VP c Hc O). rewrite X in VP. revert VP. apply Qcle_not_lt, Qcle_refl.
  Qed.
  (** what holds water is below something that is filled, and only one *)
  Lemma nz_down : forall k d, part k d -> 0 < k < len -> f d <> 0%Qc -> f k <> 0%Qc.
  Proof.
    intros k d P. revert k d P. apply (part_ind' deps (fun k d => 0 < k < len -> f d <> 0%Qc -> f k <> 0%Qc)); auto.
    intros k d p P IH L Hk NZ. apply IH; auto. destruct (link_par n deps WF _ _ L) as [Hd [O E]]. apply (full_eq d); auto. congruence.
  Qed.
  Lemma nz_up : forall m d, (Z.to_nat (len - d) <= m)%nat -> 0 < d < len -> f d <> 0%Qc -> exists t, fillb t = true /\ part d t.
  Proof.
    induction m as [|m IH]; intros d Hm Hd NZ; [lia|]. destruct (fillb d) eqn:E; [exists d; split; auto; constructor|].
    assert (X : d_ocean_parent (dp d) = false /\ f (par d) <> 0%Qc).
    { split; [destruct (d_ocean_parent (dp d)) eqn:O; auto|intros O]; (assert (fillb d = true) by (apply fillb_iff; auto); congruence). }
    destruct X as [O P]. destruct (wplace d Hd) as [X|_ A2 A3 _ _ _ _ _ _ _ _ _]; [congruence|]. pose proof n_pos.
    destruct (IH (par d)) as [t [T1 T2]]; [lia|lia|auto|]. exists t. split; auto. eapply part_left; [apply child_link; auto|exact T2].
  Qed.
  Lemma fill_apart k t t' : fillb t = true -> fillb t' = true -> part k t -> part k t' -> t = t'.
  Proof.
    intros T T'. assert (G : forall t t', fillb t = true -> fillb t' = true -> part t t' -> t = t').
    { clear t t' T T'. intros t t' T T' P. apply fillb_iff in T. apply fillb_iff in T'. destruct (part_front _ _ _ P) as [|[p [L P']]]; auto. exfalso.
      destruct (link_par n deps WF _ _ L) as [Hd [O ->]]. destruct T as [_ [_ [X|X]]]; [congruence|].
      assert (Hp : 0 < par t < len). { pose proof (wlink n deps WF _ _ L). lia. }
      apply (nz_down (par t) t' P' Hp); tauto. }
    intros P P'. destruct (part_chain deps _ _ _ P P') as [X|X]; [apply G; auto|symmetry; apply G; auto].
  Qed.

  (** *** cells *)
  Definition RR (d : Z) : list cellt := filter (fun c => partb d (elev_at lab c) && (e c <=? zz d)) (cells w h).
  Lemma RR_ok d : 0 < d < len -> cells_under w h dem lab deps d (zz d) (RR d).
  Proof.
    intros Hd. split; [apply NoDup_filter, cells_NoDup|]. intros c. unfold RR. rewrite filter_In, cells_inside, andb_true_iff, Z.leb_le. split.
    - intros [A [B C]]. split; auto. split; auto. apply (partb_iff n deps WF Hn) in B; auto. apply (lab_len w h dem lab0 fd0 lab fd pits deps WS WF); auto.
    - intros [A [B C]]. split; auto. split; auto. apply (partb_iff n deps WF Hn); auto. apply (lab_len w h dem lab0 fd0 lab fd pits deps WS WF); auto.
  Qed.
  Lemma V_depth d : 0 < d < len -> V d = zq (depth_sum dem (zz d) (RR d)).
  Proof.
    intros Hd. destruct (VOLS d (dp d)) as [z [l [Z [[ND IN] [_ [Ev _]]]]]]; [apply dp_ix; lia|lia|].
    assert (z = zz d) by (unfold FSMBasin.zz; rewrite Z; reflexivity). subst z. unfold FSMRoute.V. rewrite Ev. f_equal. unfold depth_sum.
    destruct (RR_ok d Hd) as [ND' IN']. apply zsum_perm, Permutation_map. apply NoDup_Permutation; auto. intros c. rewrite IN, IN'. tauto.
  Qed.

  (** *** the state *)
  Definition cnt (P : list Z) : nat := fold_right (fun d k => if fillb d then (S (length (RR d)) + k)%nat else k) O P.
  Definition put (P : list Z) : Qc := qsum (map (fun d => if fillb d then f d else 0%Qc) P).
  Definition DD (d : Z) : list cell := filter (fun c => partb d (elev_at lab c)) (cells w h).
  Lemma DD_ok d c : In c (DD d) <-> inside w h c /\ region lab deps d c.
  Proof.
    unfold DD. rewrite filter_In, cells_inside. split; intros [A B]; split; auto; apply (partb_iff n deps WF Hn) in B; auto;
      apply (lab_len w h dem lab0 fd0 lab fd pits deps WS WF); auto.
  Qed.
  Record spread (P : list Z) (wt : cell -> Qc) : Prop := {
    sp_lakes : forall d, In d P -> fillb d = true -> exists lev, (lev <= zq (zz d))%Qc /\
      forall c, inside w h c -> region lab deps d c -> wt c = qmax 0 (lev - zq (e c));
    sp_each : forall d, In d P -> fillb d = true -> within (times (S (length (RR d))) tolerance) (f d) (qsum (map wt (DD d)));
    sp_dry : forall c, inside w h c -> (forall d, In d P -> fillb d = true -> ~ region lab deps d c) -> wt c = 0%Qc;
    sp_sum : within (times (cnt P) tolerance) (put P) (surface_total w h wt) }.

  Lemma cnt_app P d : cnt (P ++ [d]) = (cnt P + (if fillb d then S (length (RR d)) else 0))%nat.
  Proof. unfold cnt. induction P as [|a P IH]; cbn [app fold_right]; [destruct (fillb d); lia|]. rewrite IH. destruct (fillb a); lia. Qed.
  Lemma put_app P d : put (P ++ [d]) = (put P + (if fillb d then f d else 0))%Qc.
  Proof. unfold put. rewrite map_app, qsum_app. unfold qsum at 2. cbn [map fold_right]. ring. Qed.
  Lemma skip P d wt : spread P wt -> fillb d = false -> spread (P ++ [d]) wt.
  Proof.
    intros [A A' B C] E. constructor.
    - intros d' I F. apply in_app_iff in I. destruct I as [I|[<-|[]]]; [auto|congruence].
    - intros d' I F. apply in_app_iff in I. destruct I as [I|[<-|[]]]; [auto|congruence].
    - intros c Hc H. apply B; auto. intros d' I. apply H. apply in_app_iff. auto.
    - rewrite cnt_app, put_app, E. rewrite Nat.add_0_r, Qcplus_0_r. exact C.
  Qed.

  (** *** one depression *)
  Definition info_ok (i : Z) (s : subinfo) : Prop := (si_leaf s = NO_VALUE \/ 0 < si_leaf s < len) /\ (
    f i = V i -> d_ocean_parent (dp i) = false -> f (par i) <> 0%Qc ->
    (forall k, 0 <= k < len -> In k (si_labels s) <-> part k i) /\ 0 < si_leaf s < len /\ d_pit (dp (si_leaf s)) = Some (pc i)).
  Definition kid_ok (i c : Z) (s : subinfo) : Prop := (i < n -> s = no_info) /\ (n <= i -> info_ok c s).

  Lemma combine_ok i l r : 0 < i < len -> kid_ok i (lch i) l -> kid_ok i (rch i) r -> f i <> 0%Qc ->
    (forall k, 0 <= k < len -> In k (si_labels (combine_info i l r)) <-> part k i) /\ 0 < si_leaf (combine_info i l r) < len /\
    d_pit (dp (si_leaf (combine_info i l r))) = Some (pc i).
  Proof.
    intros Hi [L1 L2] [R1 R2] NZ. pose proof len_small. pose proof n_pos. destruct (Z_lt_ge_dec i n) as [Hl|Hl].
    - rewrite L1, R1 by lia. cbn [combine_info si_labels si_leaf no_info app In]. rewrite Z.eqb_refl. split; [|split; [lia|]].
      + intros k Hk. split; [intros [<-|[]]; constructor|]. intros P. destruct (part_inv _ _ _ P) as [|[x [_ L]]]; auto. apply (wlink n) in L; auto. lia.
      + apply (pit_ok w h dem lab0 fd0 lab fd pits deps WS WF Hn VO PITS i Hi).
    - assert (Hm : n <= i < len) by lia. destruct (wmeta i Hm) as [A [B [C [D [E [F [G _]]]]]]].
      destruct (full_eq (lch i)) as [QL _]; [lia|auto|congruence|]. destruct (full_eq (rch i)) as [QR _]; [lia|auto|congruence|].
      destruct (proj2 (L2 ltac:(lia))) as [LA [LB LC]]; auto; [congruence|]. destruct (proj2 (R2 ltac:(lia))) as [RA [RB RC]]; auto; [congruence|].
      cbn [combine_info si_labels si_leaf]. destruct (Z.eqb_spec (si_leaf l) NO_VALUE) as [X|_]; [lia|]. split; [|split; [lia|]].
      + intros k Hk. cbn [In]. rewrite in_app_iff, LA, RA by auto. destruct (child_part pits deps WF Hn VO i Hm) as [P1 P2]. split.
        * intros [<-|[P|P]]; [constructor|eapply part_trans; eauto|eapply part_trans; eauto].
        * intros P. destruct (Z.eq_dec k i) as [|Hne]; auto. right. apply (wchild n deps WF i (dp i)); auto; [apply dp_ix; lia|lia].
      + rewrite LC. f_equal. unfold FSMBasin.pc. destruct (wf_pit _ _ WF i (dp i)) as [q [Eq Pq]]; [apply dp_ix; lia|lia|].
        rewrite Pq. unfold FSMRoute.dp at 1. rewrite Eq. reflexivity.
  Qed.

  Lemma leaf_ok i l r : 0 < i < len -> kid_ok i (lch i) l -> 0 < si_leaf (combine_info i l r) < len.
  Proof.
    intros Hi [L1 L2]. cbn [combine_info si_leaf]. destruct (Z.eqb_spec (si_leaf l) NO_VALUE) as [|X]; [lia|].
    destruct (Z_lt_ge_dec i n) as [Hl|Hl]; [rewrite (L1 Hl) in X; exfalso; apply X; reflexivity|]. destruct (L2 ltac:(lia)) as [[Y|Y] _]; [contradiction|exact Y].
  Qed.

  Lemma out_dry P d wt : spread P wt -> 0 < d < len -> fillb d = true -> ~ In d P -> forall c, In c (RR d) \/ c = oc d -> wt c = 0%Qc.
  Proof.
    intros SP Hd Fd Nd. assert (DR : forall c, inside w h c -> region lab deps d c -> wt c = 0%Qc).
    { intros c Hc Rc. apply (sp_dry _ _ SP); auto. intros d' I F' R'. apply Nd. rewrite (fill_apart _ _ _ Fd F' Rc R'). exact I. }
    intros c [Hc| ->].
    - apply RR_ok in Hc; auto. destruct Hc as [A [B _]]. auto.
    - destruct (out_ok w h dem lab pits deps LINKS d Hd) as [p [q [_ [_ [C [EC [Hp [Hq [NB [Pp [Pq [_ Z]]]]]]]]]]]].
      assert (CI : inside w h (oc d)) by (destruct C as [->| ->]; auto).
      destruct (part_dec n deps WF (elev_at lab (oc d)) d) as [Y|Y]; [apply DR; auto|].
      assert (OQ : oc d = q) by (destruct C as [X|X]; [rewrite X in Y; contradiction|auto]).
      assert (X : (forall d', In d' P -> fillb d' = true -> ~ region lab deps d' (oc d)) \/ exists d', In d' P /\ fillb d' = true /\ region lab deps d' (oc d)).
      { clear SP DR Nd. induction P as [|a P IH]; [left; intros d' []|]. destruct IH as [IH|[d' [I X]]]; [|right; exists d'; split; auto; right; auto].
        destruct (fillb a) eqn:Ea; [|left; intros d' [<-|I]; [congruence|auto]].
        destruct (part_dec n deps WF (elev_at lab (oc d)) a) as [Ra|Ra]; [right; exists a; split; [left|]; auto|left; intros d' [<-|I]; auto]. }
      destruct X as [X|[d' [I [F' R']]]]; [apply (sp_dry _ _ SP); auto|].
      destruct (sp_lakes _ _ SP d' I F') as [lev [LV LC]]. rewrite LC by auto.
      assert (Hd' : 0 < d' < len) by (apply fillb_iff in F'; tauto).
      assert (ZD : zz d' <= zz d).
      { rewrite Z, Z.max_comm. apply (out_min w h dem lab pits deps PASS d' q p Hd' Hq Hp); [apply nb_sym; auto|rewrite <- OQ; exact R'|].
        intros X. apply Y. pose proof (fill_apart _ _ _ F' Fd X Pp) as Q. rewrite Q in R'. exact R'. }
      assert (LE : (lev <= zq (e (oc d)))%Qc).
      { rewrite EC. eapply Qcle_trans; [exact LV|]. apply zq_le. exact ZD. }
      qlra.
  Qed.

  Lemma fill_one P d wt labels : spread P wt -> 0 < d < len -> fillb d = true -> ~ In d P ->
    (forall k, 0 <= k < len -> In k labels <-> part k d) ->
    exists wt', FillDepressions w h dem lab labels (pc d) (oc d) (tbs d) (2 * Z.to_nat (w * h)) (f d) wt = Some (Ok wt') /\ spread (P ++ [d]) wt'.
  Proof.
    intros SP Hd Fd Nd HLb. pose proof (RR_ok d Hd) as CU.
    pose proof (basin_ok w h dem lab0 fd0 lab fd pits deps WS WF Hn VO PITS PASS LINKS d labels Hd HLb (RR d) CU) as BA.
    pose proof (out_dry P d wt SP Hd Fd Nd) as D0.
    destruct (out_ok w h dem lab pits deps LINKS d Hd) as [_ [_ [_ [_ [_ [EC _]]]]]].
    destruct (fill_complete w h dem lab labels (pc d) (oc d) wt (f d) (ss d) (RR d) BA) with (tb := tbs d) as [wt' [E [A [level [NA [IA [L1 [L2 [FI W]]]]]]]]].
    - intros c Hc. rewrite D0 by auto. apply Qcle_refl.
    - apply (fk_pos _ _ _ FO).
    - rewrite EC, <- V_depth by auto. apply CP; auto.
    - destruct (Z_lt_ge_dec d n) as [Hl|Hl].
      + left. apply (under_leaf w h dem lab0 fd0 lab fd pits deps WS WF PITS d Hd (RR d) CU Hl).
      + right. rewrite (under_meta w h dem lab0 fd0 lab fd pits deps WS WF Hn VO PASS LINKS VOLS d Hd (RR d) CU ltac:(lia)). split.
        * rewrite (qsum_ext_in wt (fun _ => 0%Qc)).
          -- rewrite qsum_zero. pose proof (fk_held _ _ _ FO d ltac:(lia)) as HH. apply fillb_iff in Fd. specialize (HH (proj1 (proj2 Fd))). qlra.
          -- intros c Hc. apply filter_In in Hc. apply D0. left. apply Hc.
        * right. apply D0. auto.
    - left. exact D0.
    - exists wt'. split; [exact E|].
      assert (ID : forall c, FSMSpec.in_dep w h lab labels c <-> inside w h c /\ region lab deps d c) by (apply (in_dep_iff w h dem lab0 fd0 lab fd pits deps WS WF d labels HLb)).
      rewrite EC in L2.
      assert (LK : forall c, inside w h c -> region lab deps d c -> wt' c = qmax 0 (level - zq (e c))).
      { intros c Hc Rc. destruct (qltP (zq (e c)) level) as [LT|GE].
        - rewrite (fi_covered _ _ _ _ _ _ _ _ _ FI c (proj2 (ID c) (conj Hc Rc)) LT). qlra.
        - assert (X : wt c = 0%Qc).
          { apply (sp_dry _ _ SP); auto. intros d' I F' R'. apply Nd. rewrite (fill_apart _ _ _ Fd F' Rc R'). exact I. }
          destruct (fi_dry _ _ _ _ _ _ _ _ _ FI c (or_introl (proj2 (ID c) (conj Hc Rc)))) as [X1 X2]; [apply Qcnot_lt_le; auto|]. rewrite X in X1, X2.
          apply Qcnot_lt_le in GE. qlra. }
      assert (OT : forall c, inside w h c -> ~ region lab deps d c -> wt' c = wt c).
      { intros c Hc Rc. destruct (cell_dec c (oc d)) as [->|Hne].
        - destruct (fi_dry _ _ _ _ _ _ _ _ _ FI (oc d) (or_intror eq_refl)) as [X1 X2]; [rewrite EC; exact L2|]. rewrite (D0 (oc d)) in * by auto. qlra.
        - apply (fi_other _ _ _ _ _ _ _ _ _ FI); auto. intros X. apply ID in X. tauto. }
      constructor.
      + intros d' I F'. apply in_app_iff in I. destruct I as [I|[<-|[]]]; [|exists level; auto].
        destruct (sp_lakes _ _ SP d' I F') as [lev [V1 V2]]. exists lev. split; auto. intros c Hc Rc. rewrite OT; auto.
        intros X. apply Nd. rewrite (fill_apart _ _ _ Fd F' X Rc). exact I.
      + assert (LA : (times (S (length A)) tolerance <= times (S (length (RR d))) tolerance)%Qc).
        { unfold times. apply Qcmult_le_compat_r; [|pose proof tol_pos; qlra]. apply zq_le. pose proof (NoDup_incl_length NA IA). unfold cellt in *. lia. }
        intros d' I F'. apply in_app_iff in I. destruct I as [I|[<-|[]]].
        * rewrite (qsum_ext_in wt' wt); [apply (sp_each _ _ SP); auto|]. intros c Hc. apply DD_ok in Hc. destruct Hc as [Hc Rc]. apply OT; auto.
          intros X. apply Nd. rewrite (fill_apart _ _ _ Fd F' X Rc). exact I.
        * unfold surface_total in W. rewrite (qsum_part wt' (fun c => partb d (elev_at lab c))), (qsum_part wt (fun c => partb d (elev_at lab c))) in W. fold (DD d) in W.
          assert (Z1 : qsum (map wt (DD d)) = 0%Qc).
          { rewrite (qsum_ext_in wt (fun _ => 0%Qc)); [apply qsum_zero|]. intros c Hc. apply DD_ok in Hc. destruct Hc as [Hc Rc].
            apply (sp_dry _ _ SP); auto. intros d' I F2 R'. apply Nd. rewrite (fill_apart _ _ _ Fd F2 Rc R'). exact I. }
          assert (Z2 : qsum (map wt' (filter (fun a => negb (partb d (elev_at lab a))) (cells w h))) = qsum (map wt (filter (fun a => negb (partb d (elev_at lab a))) (cells w h)))).
          { apply qsum_ext_in. intros c Hc. apply filter_In in Hc. destruct Hc as [Hc Pc]. apply cells_inside in Hc. apply OT; auto. intros X.
            apply (partb_iff n deps WF Hn) in X; [|apply (lab_len w h dem lab0 fd0 lab fd pits deps WS WF); auto]. rewrite X in Pc. discriminate Pc. }
          unfold cellt in *. rewrite Z1, Z2 in W. fold (DD d) in W. change (filter (fun c : Z * Z => partb d (elev_at lab c)) (cells w h)) with (DD d) in W.
          destruct W as [W1 W2]. unfold within. split; qlra.
      + intros c Hc H. rewrite OT; [|auto|apply (H d); auto; apply in_app_iff; right; left; auto]. apply (sp_dry _ _ SP); auto. intros d' I. apply H. apply in_app_iff. auto.
      + rewrite cnt_app, put_app, Fd. pose proof (sp_sum _ _ SP) as S1. unfold within in *.
        assert (TT : (times (cnt P + S (length (RR d))) tolerance = times (cnt P) tolerance + times (S (length (RR d))) tolerance)%Qc).
        { unfold times. rewrite Nat2Z.inj_add, zq_add. ring. }
        assert (LA : (times (S (length A)) tolerance <= times (S (length (RR d))) tolerance)%Qc).
        { unfold times. apply Qcmult_le_compat_r; [|pose proof tol_pos; qlra]. apply zq_le. pose proof (NoDup_incl_length NA IA). unfold cellt in *. lia. }
        rewrite TT. destruct S1, W. split; qlra.
  Qed.

  Lemma own_step P i wt l r : spread P wt -> 0 < i < len -> ~ In i P -> kid_ok i (lch i) l -> kid_ok i (rch i) r ->
    exists s wt', fd_own w h dem lab deps wv tbs i (dp i) l r wt = Some (Ok (s, wt')) /\ info_ok i s /\ spread (P ++ [i]) wt'.
  Proof.
    intros SP Hi Ni KL KR. pose proof len_small as LS. pose proof n_pos as NP. pose proof (wf_size _ _ WF) as SZ. unfold fd_own.
    rewrite wat_at by lia. cbn [bind]. destruct (vol_dp n deps VO i Hi) as [z [Ez [EV Hz]]].
    assert (FT : fits (d_vol (dp i)) (f i) = true).
    { unfold fits. rewrite Ez, <- EV. destruct (qleP (f i) (V i)) as [|X]; auto. }
    rewrite FT. cbn [assert_ bind].
    assert (NOW : fill_now deps wv (dp i) (f i) = Ok (qlt (f i) (V i) || d_ocean_parent (dp i) || qeq (f (par i)) 0)).
    { unfold fill_now, under, at_brim. rewrite Ez, <- EV. destruct (qltP (f i) (V i)) as [|GE]; [reflexivity|]. cbn [orb].
      destruct (d_ocean_parent (dp i)); [reflexivity|]. cbn [orb]. destruct (qeqP (f i) (V i)) as [Q|Q].
      - pose proof (par_in n deps WF i Hi). rewrite dp_at, wat_at by lia. reflexivity.
      - exfalso. apply Q. apply Qcle_antisym; [apply CP; auto|]. apply Qcnot_lt_le, GE. }
    rewrite NOW. cbn [bind]. destruct (qlt (f i) (V i) || d_ocean_parent (dp i) || qeq (f (par i)) 0) eqn:B; cbn [negb].
    - destruct (qeqP (f i) 0) as [Z0|NZ].
      + (* nothing to spread *)
        assert (FF : fillb i = false) by (apply not_true_is_false; intros X; apply fillb_iff in X; tauto).
        assert (NI : info_ok i no_info).
        { split; [left; reflexivity|]. intros X O _. exfalso. pose proof (VP i Hi O) as Y. rewrite <- X, Z0 in Y. revert Y. apply Qcle_not_lt, Qcle_refl. }
        pose proof (leaf_ok i l r Hi KL) as LF. rewrite (dp_at (si_leaf _)) by lia. cbn [bind].
        change (si_top (combine_info i l r)) with i. rewrite dp_at by lia. cbn [bind].
        rewrite (proj1 (pit_ok w h dem lab0 fd0 lab fd pits deps WS WF Hn VO PITS _ LF)).
        destruct (out_ok w h dem lab pits deps LINKS i Hi) as [_ [_ [EO _]]]. rewrite EO.
        exists no_info, wt. split; [|split; auto; apply skip; auto]. unfold FillDepressions. rewrite Z0. reflexivity.
      + assert (FF : fillb i = true).
        { apply fillb_iff. split; auto. split; auto. apply orb_true_iff in B. destruct B as [B|B]; [|right; destruct (qeqP (f (par i)) 0); [auto|discriminate]].
          apply orb_true_iff in B. destruct B as [B|B]; auto. destruct (d_ocean_parent (dp i)) eqn:O; auto. right.
          destruct (qeqP (f (par i)) 0) as [|X]; auto. exfalso. destruct (full_eq i Hi O X) as [Y _]. rewrite Y in B. destruct (qltP (V i) (V i)) as [Y2|]; [|discriminate].
          revert Y2. apply Qcle_not_lt, Qcle_refl. }
        destruct (combine_ok i l r Hi KL KR NZ) as [CA [CB CC]]. rewrite (dp_at (si_leaf _)) by lia. cbn [bind].
        change (si_top (combine_info i l r)) with i. rewrite dp_at by lia. cbn [bind]. rewrite CC.
        destruct (out_ok w h dem lab pits deps LINKS i Hi) as [_ [_ [EO _]]]. rewrite EO.
        destruct (fill_one P i wt _ SP Hi FF Ni CA) as [wt' [E S']]. rewrite E. exists no_info, wt'. split; [reflexivity|]. split; auto. split; [left; reflexivity|].
        intros X O Y. exfalso. apply fillb_iff in FF. destruct FF as [_ [_ [FF|FF]]]; [congruence|contradiction].
    - (* left to the parent *)
      apply orb_false_iff in B. destruct B as [B B3]. apply orb_false_iff in B. destruct B as [B1 B2].
      assert (PN : f (par i) <> 0%Qc) by (destruct (qeqP (f (par i)) 0); [discriminate|auto]).
      destruct (full_eq i Hi B2 PN) as [_ NZ].
      exists (combine_info i l r), wt. split; [reflexivity|]. split; [split; [right; apply leaf_ok; auto|intros _ _ _; apply combine_ok; auto]|].
      apply skip; auto. apply not_true_is_false. intros X. apply fillb_iff in X. destruct X as [_ [_ [X|X]]]; [congruence|contradiction].
  Qed.
  (** *** the traversal *)
  Local Notation PO := (FSMRoute2.postorder deps N 0).
  Hypothesis POP : Permutation PO (zrange 0 N).
  Local Notation Find := (FindDepressionsToFill w h dem lab deps wv tbs).

  Lemma find_ok : forall fuel i m P Q wt, hgt i m -> (N <= m + fuel)%nat -> PO = P ++ postorder fuel i ++ Q -> spread P wt ->
    exists s wt', Find fuel i wt = Some (Ok (s, wt')) /\ (0 < i -> info_ok i s) /\ spread (P ++ postorder fuel i) wt'.
  Proof.
    pose proof len_small as LS. pose proof n_pos as NP. pose proof (wf_size _ _ WF) as SZ.
    assert (ND : NoDup PO) by (eapply Permutation_NoDup; [apply Permutation_sym, POP|apply zrange_NoDup]).
    induction fuel as [|fu IH]; intros i m P Q wt Hm Hf E SP; [pose proof (hgt_bound n deps WF _ _ Hm); lia|].
    pose proof (hgt_in n deps WF _ _ Hm) as Hi. cbn [FSMRoute2.postorder FindDepressionsToFill] in *.
    destruct (Z.eqb_spec i NO_VALUE) as [|Hv]; [lia|]. rewrite dp_at by auto.
    assert (K : forall k, In k (kids deps i) -> forall P Q wt, PO = P ++ postorder fu k ++ Q -> spread P wt ->
      exists s wt', Find fu k wt = Some (Ok (s, wt')) /\ (k = NO_VALUE -> s = no_info) /\ (k <> NO_VALUE -> info_ok k s) /\ spread (P ++ postorder fu k) wt').
    { intros k Hk P' Q' wt' E' S'. destruct (Z.eq_dec k NO_VALUE) as [->|Hne].
      - exists no_info, wt'. assert (X : postorder fu NO_VALUE = []) by (destruct fu; reflexivity). rewrite X, app_nil_r.
        split; [destruct fu; reflexivity|]. split; [auto|]. split; [congruence|exact S'].
      - pose proof (proj1 (kid_iff n deps WF Hn VO i k Hi Hne) Hk) as [Hk' PE].
        destruct (IH k (S m) P' Q' wt') as [s [wt2 [A [B C]]]]; auto; [constructor; auto; rewrite PE; auto|lia|].
        exists s, wt2. split; auto. split; [congruence|]. split; auto. intros _. apply B. lia. }
    assert (LOOP : forall l, incl l (kids deps i) -> forall P Q wt, PO = P ++ flat_map (postorder fu) l ++ Q -> spread P wt ->
      exists wt', forO l (fun c wt => then_ (Find fu c wt) (fun iw => Some (Ok (snd iw)))) wt = Some (Ok wt') /\ spread (P ++ flat_map (postorder fu) l) wt').
    { induction l as [|k l IHl]; intros IN P' Q' wt' E' S'; cbn [flat_map forO] in *; [exists wt'; rewrite app_nil_r; auto|].
      rewrite <- app_assoc in E'.
      destruct (K k (IN k (or_introl eq_refl)) P' _ wt' E' S') as [s [wt2 [A [_ [_ S2]]]]]. rewrite A. cbn [then_ snd].
      destruct (IHl (fun x Hx => IN x (or_intror Hx)) (P' ++ postorder fu k) Q' wt2) as [wt3 [B S3]]; auto; [rewrite <- app_assoc; exact E'|].
      exists wt3. split; auto. rewrite <- app_assoc in S3. exact S3. }
    assert (FK : flat_map (postorder fu) (kids deps i) = flat_map (postorder fu) (d_ocean_linked (dp i)) ++ postorder fu (lch i) ++ postorder fu (rch i)).
    { unfold kids. rewrite flat_map_app. cbn [flat_map]. rewrite app_nil_r. reflexivity. }
    rewrite FK in *. rewrite <- !app_assoc in E.
    assert (IK : incl (d_ocean_linked (dp i)) (kids deps i)) by (intros x Hx; apply in_app_iff; auto).
    destruct (LOOP _ IK P _ wt E SP) as [wt1 [A1 S1]]. rewrite A1. cbn [then_].
    set (L := d_ocean_linked (dp i)) in *.
    assert (IL : In (lch i) (kids deps i)) by (apply in_app_iff; right; left; auto).
    assert (IR : In (rch i) (kids deps i)) by (apply in_app_iff; right; right; left; auto).
    destruct (Z.eqb_spec i OCEAN) as [->|Ho].
    - change OCEAN with 0 in *. exists no_info, wt1. split; [reflexivity|]. split; [intros; lia|].
      (* the ocean has no children *)
      assert (LN : lch 0 = NO_VALUE /\ rch 0 = NO_VALUE) by (apply wleaf; lia). destruct LN as [LN RN]. rewrite LN, RN.
      assert (X : postorder fu NO_VALUE = []) by (destruct fu; reflexivity). rewrite X. cbn [app]. rewrite app_nil_r, app_assoc. apply skip; auto.
    - change OCEAN with 0 in Ho.
      destruct (K (lch i) IL (P ++ flat_map (postorder fu) L) (postorder fu (rch i) ++ [i] ++ Q) wt1) as [sl [wt2 [A2 [L1 [L2 S2]]]]]; auto; [rewrite <- !app_assoc; exact E|].
      rewrite A2. cbn [then_ snd fst].
      destruct (K (rch i) IR ((P ++ flat_map (postorder fu) L) ++ postorder fu (lch i)) ([i] ++ Q) wt2) as [sr [wt3 [A3 [R1 [R2 S3]]]]]; auto; [rewrite <- !app_assoc; exact E|].
      rewrite A3. cbn [then_ snd fst].
      assert (NI : ~ In i (((P ++ flat_map (postorder fu) L) ++ postorder fu (lch i)) ++ postorder fu (rch i))).
      { intros X. rewrite E in ND. rewrite !app_assoc in ND. rewrite <- app_assoc in ND. cbn [app] in ND. apply NoDup_remove_2 in ND. apply ND, in_app_iff. left. exact X. }
      destruct (own_step _ i wt3 sl sr S3 ltac:(lia) NI) as [s [wt4 [A4 [I4 S4]]]].
      + split; [intros Hl; apply L1; apply wleaf; lia|]. intros Hl. apply L2. destruct (wmeta i ltac:(lia)) as [B _]. lia.
      + split; [intros Hl; apply R1; apply wleaf; lia|]. intros Hl. apply R2. destruct (wmeta i ltac:(lia)) as [_ [B _]]. lia.
      + exists s, wt4. split; [exact A4|]. split; auto. rewrite <- !app_assoc in S4. rewrite <- !app_assoc. exact S4.
  Qed.

  Lemma find_all wt : (forall c, inside w h c -> wt c = 0%Qc) ->
    exists s wt', Find N OCEAN wt = Some (Ok (s, wt')) /\ spread PO wt'.
  Proof.
    intros Z0. destruct (find_ok N OCEAN O [] [] wt) as [s [wt' [A [_ B]]]].
    - constructor.
    - lia.
    - cbn [app]. rewrite app_nil_r. reflexivity.
    - constructor; [intros d []|intros d []|auto|]. unfold cnt, put. cbn [map fold_right]. unfold within, surface_total, times.
      rewrite (qsum_ext_in wt (fun _ => 0%Qc)) by (intros c Hc; apply Z0, cells_inside, Hc).
      rewrite qsum_zero. unfold qsum. cbn [map fold_right]. change (zq (Z.of_nat 0)) with 0%Qc. rewrite Qcmult_0_l. split; qlra.
    - exists s, wt'. auto.
  Qed.

  (** *** all the water *)
  Notation tsum := (FSMRoute.tsum n deps).
  Lemma tsum_nz S1 S2 : (forall i, 0 <= i < len -> f i <> 0%Qc -> S1 i = S2 i) -> tsum S1 f = tsum S2 f.
  Proof.
    intros H. unfold FSMRoute.tsum. f_equal. apply map_ext_in. intros i Hi. apply zrange_In in Hi. unfold FSMRoute.own.
    destruct (qeqP (f i) 0) as [Z0|NZ]; [|rewrite H by (auto; lia); reflexivity].
    rewrite Z0. destruct (i <? n); [destruct (S1 i), (S2 i); reflexivity|]. destruct (S1 i), (S2 i); reflexivity.
  Qed.
  Lemma fill_amount d : fillb d = true -> tsum (partb d) f = f d.
  Proof.
    intros Fd. apply fillb_iff in Fd. destruct Fd as [Hd [NZ _]]. destruct (Z_lt_ge_dec d n).
    - apply (tsum_leaf n deps WF Hn); lia.
    - destruct (wmeta d ltac:(lia)) as [A _]. pose proof len_small. pose proof n_pos.
      apply (holds_amount n deps WF Hn VO wv HLW FO (or_introl CP) d). eapply hl_merged; [apply dp_ix; lia|lia|apply wat_ix; lia|exact NZ].
  Qed.
  Lemma put_total b : holds_upstream deps wv 0 b -> b = (f 0 + put PO)%Qc.
  Proof.
    intros HB. pose proof n_pos. pose proof (wf_size _ _ WF). assert (HZ : 0 <= 0 < len) by lia.
    rewrite <- (up_amount n deps WF Hn VO wv HLW FO (or_introl CP) 0 b HZ HB).
    rewrite (tsum_nz _ (fun i => existsb (fun t => partb t i) (0 :: filter fillb PO))).
    - rewrite (tsum_tops n deps).
      + cbn [map]. unfold qsum at 1. cbn [fold_right]. fold (qsum (map (fun t => tsum (partb t) f) (filter fillb PO))).
        rewrite (tsum_leaf n deps WF Hn) by lia. f_equal. unfold put.
        generalize PO as l. unfold qsum. induction l as [|a l IH]; cbn [map fold_right filter]; [reflexivity|]. destruct (fillb a) eqn:Ea; cbn [map fold_right].
        * rewrite fill_amount by auto. rewrite IH. reflexivity.
        * rewrite IH. ring.
      + constructor; [|apply NoDup_filter; eapply Permutation_NoDup; [apply Permutation_sym, POP|apply zrange_NoDup]].
        intros X. apply filter_In in X. destruct X as [_ X]. apply fillb_iff in X. lia.
      + assert (G : forall i t, In t (filter fillb PO) -> 0 <= i < len -> partb 0 i = true -> partb t i = true -> False).
        { intros i t T Hi P0 P1. apply filter_In in T. destruct T as [_ T]. apply fillb_iff in T. apply (partb_iff n deps WF Hn) in P0; auto. apply (partb_iff n deps WF Hn) in P1; auto.
          destruct (part_inv _ _ _ P0) as [->|[q [_ L]]]; [|apply (wlink n deps WF) in L; lia].
          destruct (part_front _ _ _ P1) as [|[q [L _]]]; [lia|]. destruct (link_par n deps WF _ _ L). lia. }
        intros i t t' T T' Hi P1 P2. destruct T as [<-|T], T' as [<-|T']; auto; try (exfalso; eapply G; eauto; fail).
        apply filter_In in T. apply filter_In in T'. apply (partb_iff n deps WF Hn) in P1; auto. apply (partb_iff n deps WF Hn) in P2; auto. eapply fill_apart; [apply T|apply T'| |]; eauto.
    - intros i Hi NZ. transitivity true.
      + apply (upb_iff n deps WF Hn VO); auto. destruct (hgt_ex n deps WF i Hi) as [m Hm]. clear Hi NZ. induction Hm; [constructor|]. apply (up_par n deps WF Hn); auto.
      + symmetry. apply existsb_exists. destruct (Z.eq_dec i 0) as [->|Hne]; [exists 0; split; [left; auto|]; apply (partb_iff n deps WF Hn); auto; constructor|].
        destruct (nz_up (Z.to_nat (len - i)) i ltac:(lia) ltac:(lia) NZ) as [t [T1 T2]]. exists t. split; [|apply (partb_iff n deps WF Hn); auto].
        right. apply filter_In. split; auto. eapply Permutation_in; [apply Permutation_sym, POP|]. apply zrange_In. apply fillb_iff in T1. lia.
  Qed.
  (** *** the state at the end *)
  Lemma cnt_bound : (cnt PO <= 2 * Z.to_nat (w * h))%nat.
  Proof.
    assert (G : forall l, NoDup l -> (cnt l <= 2 * length (flat_map RR (filter fillb l)))%nat /\ NoDup (flat_map RR (filter fillb l)) /\
        incl (flat_map RR (filter fillb l)) (cells w h)).
    { intros l. induction l as [|a l IH]; intros ND; [cbn; split; [lia|split; [constructor|intros x []]]|]. inversion ND; subst. destruct (IH H2) as [A [B C]].
      unfold cnt in *. cbn [filter fold_right]. destruct (fillb a) eqn:Ea; [|auto]. cbn [flat_map]. assert (Ha : 0 < a < len) by (apply fillb_iff in Ea; tauto).
      assert (LP : (0 < length (RR a))%nat).
      { destruct (pit_ok w h dem lab0 fd0 lab fd pits deps WS WF Hn VO PITS a Ha) as [_ [I [P _]]].
        assert (X : In (pc a) (RR a)) by (apply RR_ok; auto; split; [auto|split; [exact P|apply (pit_below w h dem lab0 fd0 lab fd pits deps WS WF Hn VO PITS LINKS); auto]]).
        destruct (RR a); [destruct X|cbn; lia]. }
      rewrite app_length. split; [lia|]. split.
      - apply NoDup_app_disj; [apply RR_ok; auto|exact B|]. intros c Hc Hc'. apply in_flat_map in Hc'. destruct Hc' as [t [T1 T2]]. apply filter_In in T1.
        assert (Ht : 0 < t < len) by (destruct T1 as [_ T1]; apply fillb_iff in T1; tauto).
        apply RR_ok in Hc; auto. apply RR_ok in T2; auto. assert (a = t) by (eapply fill_apart; [exact Ea|apply T1|apply Hc|apply T2]). subst t. tauto.
      - intros c Hc. apply in_app_iff in Hc. destruct Hc as [Hc|Hc]; [|auto]. apply filter_In in Hc. apply Hc. }
    destruct (G PO) as [A [B C]]; [eapply Permutation_NoDup; [apply Permutation_sym, POP|apply zrange_NoDup]|].
    pose proof (NoDup_incl_length B C) as D. rewrite cells_length in D.
    assert (X : (Z.to_nat w * Z.to_nat h <= Z.to_nat (w * h))%nat \/ cells w h = []).
    { destruct (Z_le_gt_dec 0 w), (Z_le_gt_dec 0 h); [left; rewrite Z2Nat.inj_mul; lia|right|right|right]; apply length_zero_iff_nil; rewrite cells_length; lia. }
    destruct X as [X|X]; [lia|]. assert (length (flat_map RR (filter fillb PO)) = O) by (rewrite X in C; destruct (flat_map RR (filter fillb PO)) as [|c l]; [reflexivity|destruct (C c (or_introl eq_refl))]). lia.
  Qed.
  Lemma wet_or_dry P c : (exists d, In d P /\ fillb d = true /\ region lab deps d c) \/ forall d, In d P -> fillb d = true -> ~ region lab deps d c.
  Proof.
    induction P as [|a P [[d [I X]]|IH]]; [right; intros d []|left; exists d; split; auto; right; auto|].
    destruct (fillb a) eqn:Ea; [|right; intros d [<-|I]; [congruence|auto]].
    destruct (part_dec n deps WF (elev_at lab c) a) as [Ra|Ra]; [left; exists a; split; [left; auto|auto]|right; intros d [<-|I]; auto].
  Qed.
  Lemma spread_pos P wt : spread P wt -> forall c, inside w h c -> (0 <= wt c)%Qc.
  Proof.
    intros SP c Hc. destruct (wet_or_dry P c) as [[d [I [F R]]]|D]; [|rewrite (sp_dry _ _ SP c Hc D); apply Qcle_refl].
    destruct (sp_lakes _ _ SP d I F) as [lev [_ L]]. rewrite (L c Hc R). apply qmax_nonneg.
  Qed.
  Lemma spread_sea P wt : spread P wt -> forall c, inside w h c -> elev_at lab c = 0 -> wt c = 0%Qc.
  Proof.
    intros SP c Hc E0. apply (sp_dry _ _ SP c Hc). intros d _ F R. apply fillb_iff in F. unfold region in R. rewrite E0 in R.
    destruct (part_front _ _ _ R) as [|[q [L _]]]; [lia|]. destruct (link_par n deps WF _ _ L). lia.
  Qed.
  Lemma spread_still P wt : spread P wt -> forall p q, inside w h p -> inside w h q -> neighbours D8 p q -> (0 < wt p)%Qc ->
    (zq (e p) + wt p <= zq (e q) + wt q)%Qc.
  Proof.
    intros SP p q Hp Hq NB W. destruct (wet_or_dry P p) as [[d [I [F R]]]|D]; [|rewrite (sp_dry _ _ SP p Hp D) in W; exfalso; revert W; apply Qcle_not_lt, Qcle_refl].
    destruct (sp_lakes _ _ SP d I F) as [lev [LV L]]. rewrite (L p Hp R) in *. assert (LE : (zq (e p) < lev)%Qc) by qlra.
    destruct (part_dec n deps WF (elev_at lab q) d) as [Rq|Rq]; [rewrite (L q Hq Rq); qlra|].
    assert (Hd : 0 < d < len) by (apply fillb_iff in F; tauto).
    pose proof (out_min w h dem lab pits deps PASS d p q Hd Hp Hq NB R Rq) as M.
    assert (X : e p < zz d) by (apply zq_lt; eapply Qclt_le_trans; eauto). assert (Y : zz d <= e q) by lia. apply zq_le in Y.
    pose proof (spread_pos P wt SP q Hq). qlra.
  Qed.

  (** *** a depression that is not full *)
  Lemma region_sum d wt : spread PO wt -> 0 < d < len -> (f d < V d)%Qc ->
    within (times (2 * Z.to_nat (w * h)) tolerance) (tsum (partb d) f) (qsum (map wt (DD d))).
  Proof.
    intros SP Hd LT. set (T := filter (fun t => fillb t && partb d t) PO).
    assert (NDP : NoDup PO) by (eapply Permutation_NoDup; [apply Permutation_sym, POP|apply zrange_NoDup]).
    assert (TI : forall t, In t T <-> fillb t = true /\ part t d).
    { intros t. unfold T. rewrite filter_In, andb_true_iff. split.
      - intros [_ [F P]]. split; auto. apply (partb_iff n deps WF Hn) in P; auto. apply fillb_iff in F. lia.
      - intros [F P]. assert (0 < t < len) by (apply fillb_iff in F; tauto). split; [eapply Permutation_in; [apply Permutation_sym, POP|]; apply zrange_In; lia|].
        split; auto. apply (partb_iff n deps WF Hn); auto. lia. }
    (* nothing that is filled lies above [d] *)
    assert (UP : forall k t, fillb t = true -> part k t -> part k d -> part t d).
    { intros k t F P1 P2. destruct (part_chain deps _ _ _ P1 P2) as [X|X]; auto.
      destruct (part_front _ _ _ X) as [<-|[p [L X']]]; [constructor|]. exfalso. destruct (link_par n deps WF _ _ L) as [_ [O EP]].
      assert (Hp : 0 < p < len) by (pose proof (wlink n deps WF _ _ L); lia).
      assert (NZ : f p <> 0%Qc) by (apply (nz_down p t X' Hp); apply fillb_iff in F; tauto).
      rewrite EP in NZ. destruct (full_eq d Hd O NZ) as [Q _]. rewrite Q in LT. revert LT. apply Qcle_not_lt, Qcle_refl. }
    assert (TS : tsum (partb d) f = qsum (map f T)).
    { rewrite (tsum_nz _ (fun i => existsb (fun t => partb t i) T)).
      - rewrite (tsum_tops n deps).
        + f_equal. apply map_ext_in. intros t Ht. apply TI in Ht. apply fill_amount; tauto.
        + apply NoDup_filter, NDP.
        + intros i t t' H1 H2 Hi P1 P2. apply TI in H1. apply TI in H2. apply (partb_iff n deps WF Hn) in P1; auto. apply (partb_iff n deps WF Hn) in P2; auto.
          eapply fill_apart; [apply H1|apply H2| |]; eauto.
      - intros i Hi NZ. apply eq_true_iff_eq. rewrite (partb_iff n deps WF Hn), existsb_exists by auto. split.
        + intros P. assert (Hi' : 0 < i < len).
          { destruct (Z.eq_dec i 0) as [->|]; [|lia]. exfalso. destruct (part_front _ _ _ P) as [|[q [L _]]]; [lia|]. destruct (link_par n deps WF _ _ L). lia. }
          destruct (nz_up (Z.to_nat (len - i)) i ltac:(lia) Hi' NZ) as [t [T1 T2]]. exists t. split; [apply TI; split; [auto|eapply UP; eauto]|].
          apply (partb_iff n deps WF Hn); auto.
        + intros [t [T1 T2]]. apply TI in T1. apply (partb_iff n deps WF Hn) in T2; auto. eapply part_trans; [exact T2|apply T1]. }
    assert (FL : forall l, NoDup l -> incl l T -> NoDup (flat_map DD l)).
    { induction l as [|t l IH]; intros N1 I1; cbn [flat_map]; [constructor|]. inversion N1; subst. apply NoDup_app_disj.
      - apply NoDup_filter, cells_NoDup.
      - apply IH; auto. intros x Hx. apply I1. right; auto.
      - intros c C1 C2. apply in_flat_map in C2. destruct C2 as [t' [T1 T2]]. apply DD_ok in C1. apply DD_ok in T2.
        assert (t = t') by (eapply fill_apart; [apply (TI t), I1; left; auto|apply (TI t'), I1; right; auto|apply C1|apply T2]). subst t'. tauto. }
    assert (SW : qsum (map wt (DD d)) = qsum (map (fun t => qsum (map wt (DD t))) T)).
    { destruct (split_incl (flat_map DD T) (DD d)) as [rest PR].
      - apply FL; [apply NoDup_filter, NDP|apply incl_refl].
      - intros c Hc. apply in_flat_map in Hc. destruct Hc as [t [T1 T2]]. apply DD_ok in T2. apply TI in T1. apply DD_ok. split; [tauto|]. unfold region in *. eapply part_trans; [apply T2|apply T1].
      - rewrite (qsum_perm _ _ (Permutation_map wt PR)), map_app, qsum_app.
        rewrite (qsum_ext_in wt (fun _ => 0%Qc) rest).
        + rewrite qsum_zero, Qcplus_0_r. clear PR. generalize T as l. induction l as [|t l IH]; [reflexivity|]. cbn [flat_map]. rewrite map_app, qsum_app, IH. reflexivity.
        + intros c Hc. apply (split_rest _ _ _ (NoDup_filter _ (cells_NoDup w h)) PR) in Hc. destruct Hc as [C1 C2]. apply DD_ok in C1. destruct C1 as [C1 R1].
          apply (sp_dry _ _ SP); auto. intros t _ F R. apply C2. apply in_flat_map. exists t. split; [apply TI; split; [auto|eapply UP; eauto]|]. apply DD_ok. auto. }
    assert (EA : forall l, incl l T -> within (times (cnt l) tolerance) (qsum (map f l)) (qsum (map (fun t => qsum (map wt (DD t))) l))).
    { induction l as [|t l IH]; intros I1.
      - unfold within, times, cnt, qsum. cbn [map fold_right]. change (zq (Z.of_nat 0)) with 0%Qc. rewrite Qcmult_0_l. split; qlra.
      - assert (Ht : In t T) by (apply I1; left; auto). assert (Ft : fillb t = true) by (apply TI in Ht; tauto).
        assert (W1 := sp_each _ _ SP t). specialize (IH (fun x Hx => I1 x (or_intror Hx))).
        assert (W2 : within (times (S (length (RR t))) tolerance) (f t) (qsum (map wt (DD t)))) by (apply W1; auto; unfold T in Ht; apply filter_In in Ht; tauto).
        unfold cnt in *. cbn [fold_right]. rewrite Ft. set (k := fold_right _ _ l) in *.
        assert (TT : (times (S (length (RR t)) + k) tolerance = times (S (length (RR t))) tolerance + times k tolerance)%Qc).
        { unfold times. rewrite Nat2Z.inj_add, zq_add. ring. }
        unfold within in *. rewrite TT. cbn [map].
        assert (QC : forall a l, (qsum (a :: l) = a + qsum l)%Qc) by reflexivity. rewrite !QC.
        destruct W2, IH. split; qlra. }
    assert (CT : (cnt T <= 2 * Z.to_nat (w * h))%nat).
    { pose proof cnt_bound. assert (cnt T <= cnt PO)%nat; [|lia]. unfold T. generalize PO as l. induction l as [|t l IH]; [cbn; lia|]. unfold cnt in *. cbn [filter fold_right].
      destruct (fillb t) eqn:Ft; cbn [andb]; [|exact IH]. destruct (partb d t); cbn [fold_right]; [rewrite Ft; lia|lia]. }
    rewrite TS, SW. pose proof (EA T (incl_refl T)) as [E1 E2].
    assert (TM : (times (cnt T) tolerance <= times (2 * Z.to_nat (w * h)) tolerance)%Qc).
    { unfold times. apply Qcmult_le_compat_r; [|pose proof tol_pos; qlra]. apply zq_le. lia. }
    unfold within. split; qlra.
  Qed.

  Lemma sane_ok i : 0 < i < len -> sane deps wv i = Ok tt.
  Proof.
    intros Hi. pose proof len_small. pose proof n_pos. unfold sane. rewrite dp_at by lia. cbn [bind]. rewrite wat_at by lia. cbn [bind].
    destruct (vol_dp n deps VO i Hi) as [z [Ez [EV Hz]]].
    assert (FT : fits (d_vol (dp i)) (f i) = true).
    { unfold fits. rewrite Ez, <- EV. destruct (qleP (f i) (V i)) as [|X]; auto. }
    rewrite FT, orb_true_r. cbn [assert_ bind]. unfold sane_child. destruct (qeqP (f i) 0) as [Z0|NZ]; cbn [orb bind]; [reflexivity|].
    destruct (Z_lt_ge_dec i n) as [Hl|Hl].
    - destruct (wleaf i ltac:(lia)) as [A B]. rewrite A, B, Z.eqb_refl. reflexivity.
    - assert (Hm : n <= i < len) by lia. destruct (wmeta i Hm) as [A [B [C [D [E [F [G _]]]]]]].
      destruct (full_eq (lch i)) as [QL _]; [lia|auto|congruence|]. destruct (full_eq (rch i)) as [QR _]; [lia|auto|congruence|].
      pose proof (fk_held _ _ _ FO i Hm NZ) as HH. pose proof (VP (lch i) ltac:(lia) F). pose proof (VP (rch i) ltac:(lia) G).
      destruct (Z.eqb_spec (lch i) NO_VALUE) as [|_]; [lia|]. destruct (Z.eqb_spec (rch i) NO_VALUE) as [|_]; [lia|]. cbn [andb negb assert_ bind].
      rewrite !wat_at by lia. cbn [bind]. rewrite QL, QR. destruct (qltP (V (lch i)) (f i)) as [_|X]; [|exfalso; apply X; qlra]. cbn [assert_ bind].
      destruct (qltP (V (rch i)) (f i)) as [_|X]; [|exfalso; apply X; qlra]. reflexivity.
  Qed.
  Lemma sane_all : forM (zrange 1 (N - 1)) (fun i _ => sane deps wv i) tt = Ok tt.
  Proof.
    assert (G : forall l, (forall i, In i l -> 0 < i < len) -> forM l (fun i _ => sane deps wv i) tt = Ok tt).
    { induction l as [|a l IH]; intros Hl; cbn [forM]; [reflexivity|]. rewrite sane_ok by (apply Hl; left; auto). cbn [bind]. apply IH. intros; apply Hl; right; auto. }
    apply G. intros i Hi. apply zrange_In in Hi. lia.
  Qed.
End Find.

(** volumes are positive if every pit is lower than all its neighbours *)
Lemma runs_strict w h dem lab0 lab fd : strict_pits w h dem lab0 -> forall p r, runs_to D8 w h dem lab fd p r -> pit D8 w h dem lab0 r -> p = r \/ elev_at dem r < elev_at dem p.
Proof.
  intros ST p r H. induction H as [p Hp|p n q r Hp In_ Ef Eq El Ele R IH]; intros PT; [auto|]. destruct (IH PT) as [->|X]; [right|right; lia].
  apply (ST r p PT Hp). apply nb_sym. subst r. unfold neighbours. cbn [fst snd]. apply adjacent_iff. exists n. auto.
Qed.

