From Coq Require Import ZArith List Lia Bool Permutation.
From Verif Require Import Base Res ArrModel ArrSpec ArrProofs ArrProofs2 ArrProofs3 CacheModel CacheSpec CacheProofs
  LRUModel LRUSpec LRUProofs A2Model A2Spec A2Proofs A2Proofs2.
Open Scope Z_scope.

Section Meta.
Variable M : Z -> Z -> meta.
(** No tile waits in a cache file. *)
Definition none_cached (G : geom) (s : a2) : Prop :=
  forall tx ty, in_tile G tx ty -> g_null G tx ty = false ->
    t_created (d_tiles s (tid G tx ty)) = true -> t_loaded (d_tiles s (tid G tx ty)) = true.

Lemma tile_ix_ok E G cap b s tx ty : Inv M E G cap b s -> in_tile G tx ty -> tile_ix s tx ty = Ok (tid G tx ty).
Proof.
  intros I Hin. unfold tile_ix. rewrite (I_wt _ _ _ _ _ _ I), (I_ht _ _ _ _ _ _ I).
  replace (inGrid (g_wt G) (g_ht G) tx ty) with true by (symmetry; apply inGrid_iff; unfold in_tile in Hin; lia). reflexivity.
Qed.
Lemma null_ok E G cap b s tx ty : Inv M E G cap b s -> in_tile G tx ty -> isNullTile s tx ty = Ok (g_null G tx ty).
Proof. intros I Hin. unfold isNullTile. rewrite (I_qw _ _ _ _ _ _ I). apply (I_quick _ _ _ _ _ _ I); auto. Qed.

Lemma quad_tile G tx ty px py : dims (g_pw G) (g_ph G) -> in_cell G px py ->
  (tx * g_pw G + px) / g_pw G = tx /\ (ty * g_ph G + py) / g_ph G = ty.
Proof.
  intros (D1 & D2 & _) [C1 C2]. split; rewrite Z.add_comm, Z.div_add by lia; rewrite Z.div_small by lia; lia.
Qed.
Lemma missing_tile G tx ty px py : dims (g_pw G) (g_ph G) -> in_cell G px py ->
  missing G (tx * g_pw G + px) (ty * g_ph G + py) = g_null G tx ty.
Proof. intros D C. unfold missing. destruct (quad_tile G tx ty px py D C) as [-> ->]. reflexivity. Qed.

Lemma quad_ok E G cap b s x y : dims (g_pw G) (g_ph G) -> Inv M E G cap b s -> in_big G x y ->
  quad s x y = Ok (x / g_pw G, y / g_ph G, (x mod g_pw G, y mod g_ph G)) /\
  in_tile G (x / g_pw G) (y / g_ph G) /\ in_cell G (x mod g_pw G) (y mod g_ph G) /\
  x / g_pw G * g_pw G + x mod g_pw G = x /\ y / g_ph G * g_ph G + y mod g_ph G = y.
Proof.
  intros (D1 & D2 & _) I [B1 B2]. unfold quad. rewrite (I_pw _ _ _ _ _ _ I), (I_ph _ _ _ _ _ _ I).
  destruct (Z.eqb_spec (g_pw G) 0); [lia|]. destruct (Z.eqb_spec (g_ph G) 0); [lia|]. cbn [orb].
  rewrite !Z.quot_div_nonneg, !Z.rem_mod_nonneg by lia.
  pose proof (Z.mod_pos_bound x (g_pw G)). pose proof (Z.mod_pos_bound y (g_ph G)).
  pose proof (Z.div_mod x (g_pw G)). pose proof (Z.div_mod y (g_ph G)).
  split; [auto|]. split; [split; (split; [apply Z.div_pos; lia|apply Z.div_lt_upper_bound; nia])|].
  split; [split; lia|]. split; lia.
Qed.

Lemma Inv_ndts E G cap b s v : Inv M E G cap b s -> Inv M E G cap b (upd_ndts s v).
Proof. intros I. constructor; cbn; try apply I. Qed.

(** The relation between the states of the program and of the big raster after one call. *)
Definition stepped (G : geom) (s s' : a2) : Prop :=
  same_frame s s' /\ d_evict s <= d_evict s' /\ (d_evict s' = d_evict s -> none_cached G s -> none_cached G s').

Lemma frame_refl s : same_frame s s. Proof. unfold same_frame; auto 20. Qed.
Lemma stepped_same G s s' : d_tiles s' = d_tiles s -> d_evict s' = d_evict s -> same_frame s s' -> stepped G s s'.
Proof. intros H1 H2 H3. split; [auto|]. split; [lia|]. intros _ H. unfold none_cached. rewrite H1. exact H. Qed.

Lemma loaded_stepped E G b s s' tx ty : in_tile G tx ty -> g_null G tx ty = false -> same_frame s s' ->
  ready M E G b s' tx ty -> d_evict s <= d_evict s' ->
  (d_evict s' = d_evict s -> forall j, j <> tid G tx ty -> d_tiles s' j = d_tiles s j) -> stepped G s s'.
Proof.
  intros Hin Hn F R L H. split; [auto|]. split; [auto|]. intros He NC x y Hxy Hnxy.
  destruct (Z.eq_dec (tid G x y) (tid G tx ty)) as [Q|Q].
  - intros _. rewrite Q. apply R.
  - rewrite (H He _ Q). apply NC; auto.
Qed.

Lemma load_step E G cap b s tx ty : env_ok E -> dims (g_pw G) (g_ph G) -> Inv M E G cap b s -> cap <> 0 -> in_tile G tx ty ->
  exists s', loadTile E s tx ty = Ok s' /\ Inv M E G cap b s' /\ stepped G s s' /\ (g_null G tx ty = false -> ready M E G b s' tx ty).
Proof.
  intros HE D I Hcap Hin. destruct (loadTile_ok M E G cap b s tx ty HE D I Hcap Hin) as (s' & E1 & I1 & F & R).
  exists s'. split; [auto|]. split; [auto|]. destruct (g_null G tx ty) eqn:Hn.
  - subst s'. split; [apply stepped_same; auto using frame_refl|discriminate].
  - destruct R as (R1 & R2 & R3 & R4). split; [eapply loaded_stepped; eauto|auto].
Qed.

Lemma readQ_ok E G cap b s tx ty px py : env_ok E -> dims (g_pw G) (g_ph G) -> Inv M E G cap b s -> cap <> 0 ->
  in_tile G tx ty -> in_cell G px py ->
  exists s', readQ E s tx ty px py = Ok (big_get G b (tx * g_pw G + px) (ty * g_ph G + py), s') /\ Inv M E G cap b s' /\ stepped G s s'.
Proof.
  intros HE D I Hcap Hin Hc. unfold readQ. rewrite (null_ok _ _ _ _ _ _ _ I Hin), (tile_ix_ok _ _ _ _ _ _ _ I Hin). cbn [bind].
  unfold big_get. rewrite missing_tile by auto. destruct (g_null G tx ty) eqn:Hn.
  - pose proof (I_tiles _ _ _ _ _ _ I tx ty Hin) as [_ T]. rewrite Hn in T. rewrite (proj1 T). eexists. split; [reflexivity|].
    split; [apply Inv_ndts; auto|]. apply stepped_same; auto. unfold same_frame; cbn; auto 20.
  - destruct (load_step E G cap b s tx ty HE D I Hcap Hin) as (s' & E1 & I1 & F & R). rewrite E1. cbn [bind].
    destruct (R Hn) as (R1 & R2 & R3 & (W & Ew & Eh & C)). destruct Hc as [C1 C2].
    destruct (get_cell (t_arr (d_tiles s' (tid G tx ty))) px py W) as (v & V1 & V2); unfold t_arr in *; try lia.
    rewrite C in V2 by auto. injection V2 as V2. subst v. rewrite V1. cbn [bind]. exists s'. auto.
Qed.

Lemma isNoDataQ_ok E G cap b s tx ty px py : env_ok E -> dims (g_pw G) (g_ph G) -> Inv M E G cap b s -> cap <> 0 ->
  in_tile G tx ty -> in_cell G px py ->
  exists r s', isNoDataQ E s tx ty px py = Ok (r, s') /\ b2z r = big_nd (e_eqb E) G b (tx * g_pw G + px) (ty * g_ph G + py) /\
    Inv M E G cap b s' /\ stepped G s s'.
Proof.
  intros HE D I Hcap Hin Hc. unfold isNoDataQ. rewrite (null_ok _ _ _ _ _ _ _ I Hin). cbn [bind].
  unfold big_nd. rewrite missing_tile by auto. destruct (quad_tile G tx ty px py D Hc) as [-> ->].
  destruct (g_null G tx ty) eqn:Hn.
  - exists true, s. split; [auto|]. split; [auto|]. split; [auto|]. apply stepped_same; auto using frame_refl.
  - rewrite (tile_ix_ok _ _ _ _ _ _ _ I Hin). cbn [bind].
    destruct (load_step E G cap b s tx ty HE D I Hcap Hin) as (s' & E1 & I1 & F & R). rewrite E1. cbn [bind].
    destruct (R Hn) as (R1 & R2 & R3 & (W & Ew & Eh & C)). destruct Hc as [C1 C2].
    destruct (get_cell (t_arr (d_tiles s' (tid G tx ty))) px py W) as (v & V1 & V2); unfold t_arr in *; try lia.
    rewrite C in V2 by auto. injection V2 as V2. subst v. rewrite V1. cbn [bind]. rewrite (at_nd _ _ _ _ R3).
    eexists _, s'. split; [reflexivity|]. split; [|auto]. cbn [orb]. reflexivity.
Qed.

Lemma cell_pos G tx ty px py x y x' y' : dims (g_pw G) (g_ph G) -> in_cell G px py -> in_cell G x' y' ->
  tx * g_pw G + px = x * g_pw G + x' -> ty * g_ph G + py = y * g_ph G + y' -> tx = x /\ px = x' /\ ty = y /\ py = y'.
Proof.
  intros (D1 & D2 & _) [C1 C2] [C3 C4] H1 H2. apply idx_inj in H1; auto. apply idx_inj in H2; auto. tauto.
Qed.

Lemma writeQ_ok E G cap b s tx ty px py v : env_ok E -> dims (g_pw G) (g_ph G) -> Inv M E G cap b s -> cap <> 0 ->
  d_ro s = false -> in_tile G tx ty -> in_cell G px py -> is_val (e_k E) v ->
  exists s', writeQ E s tx ty px py v = Ok s' /\ Inv M E G cap (big_set G b (tx * g_pw G + px) (ty * g_ph G + py) v) s' /\ stepped G s s'.
Proof.
  intros HE D I Hcap Hro Hin Hc Hv. unfold writeQ. rewrite (null_ok _ _ _ _ _ _ _ I Hin), (tile_ix_ok _ _ _ _ _ _ _ I Hin). cbn [bind].
  unfold big_set. rewrite missing_tile by auto. destruct (g_null G tx ty) eqn:Hn.
  - eexists. split; [reflexivity|]. split; [apply Inv_ndts; auto|]. apply stepped_same; auto. unfold same_frame; cbn; auto 20.
  - destruct (load_step E G cap b s tx ty HE D I Hcap Hin) as (s1 & E1 & I1 & F & R). rewrite E1. cbn [bind].
    pose proof (R Hn) as R'. destruct R' as (R1 & R2 & R3 & (W & Ew & Eh & C)). pose proof Hc as [C1 C2].
    set (i := tid G tx ty) in *. set (t := d_tiles s1 i) in *.
    destruct (set_cell (t_arr t) px py v W) as (a & A1 & A2 & A3 & A4); unfold t_arr in *; try lia.
    rewrite A1. cbn [bind]. eexists. split; [reflexivity|]. destruct A3 as (S1 & S2 & S3 & S4 & S5 & S6).
    assert (Hro1 : d_ro s1 = false) by (destruct F as [F _]; unfold same_frame in F; intuition congruence).
    set (t' := with_ras t (with_arr (t_ras t) a)).
    set (b' := mkB _ _).
    assert (V0 : vals E (g_pw G) (g_ph G) (fun px0 py0 => b_val b (tx * g_pw G + px0) (ty * g_ph G + py0))).
    { pose proof (I_tiles _ _ _ _ _ _ I1 tx ty Hin) as [_ T]. rewrite Hn in T. destruct T as (_ & c0 & (_ & V & _) & _ & T2 & T3).
      intros x y Hx Hy. rewrite <- (T3 x y) by (split; auto). unfold lazy_cells. fold i t. rewrite R2. apply V; auto. }
    split.
    + constructor; cbn; try apply I1.
      * intros x y Hxy. unfold tile_ok. cbn. destruct (Z.eqb_spec (tid G x y) i) as [Q|Q].
        -- destruct (tid_inj G x y tx ty Hxy Hin Q). subst x y. rewrite Hn.
           pose proof (I_tiles _ _ _ _ _ _ I1 tx ty Hin) as [TN TB]. fold i t in TN, TB. rewrite Hn in TB. split; [cbn; congruence|]. split; [apply TB|].
           exists (fun px0 py0 => b_val b' (tx * g_pw G + px0) (ty * g_ph G + py0)).
           split; [|cbn; split; [auto|]; split; [rewrite R2; discriminate|]; intros; unfold lazy_cells; cbn; rewrite R2; reflexivity].
           unfold stored. cbn. rewrite R1. split; [apply attrs_with_arr; auto; rewrite S6; apply R3|]. split.
           ++ intros x y Hx Hy. destruct (Z.eqb_spec (tx * g_pw G + x) (tx * g_pw G + px)); destruct (Z.eqb_spec (ty * g_ph G + y) (ty * g_ph G + py));
                cbn [andb]; auto; apply V0; auto.
           ++ pose proof (I_tiles _ _ _ _ _ _ I1 tx ty Hin) as [_ T]. rewrite Hn in T. destruct T as (_ & c0 & (_ & _ & T) & _). fold i t in T.
              rewrite R1 in T. split; [apply T|]. split; [|congruence]. split; [auto|]. cbn. split; [congruence|]. split; [congruence|].
              intros x y Hx Hy. rewrite A4.
              destruct (Z.eqb_spec x px) as [->|N1]; destruct (Z.eqb_spec y py) as [->|N2]; cbn [andb];
                rewrite ?Z.eqb_refl; cbn [andb]; auto.
              ** destruct (Z.eqb_spec (ty * g_ph G + y) (ty * g_ph G + py)); [lia|]. apply C; auto.
              ** destruct (Z.eqb_spec (tx * g_pw G + x) (tx * g_pw G + px)); [lia|]. apply C; auto.
              ** destruct (Z.eqb_spec (tx * g_pw G + x) (tx * g_pw G + px)); [lia|]. apply C; auto.
        -- pose proof (I_tiles _ _ _ _ _ _ I1 x y Hxy) as [TN T]. split; [auto|]. destruct (g_null G x y); auto.
           destruct T as (TB & c0 & T1 & T2 & T3 & T4). split; [exact TB|]. exists c0. split; [exact T1|]. split; [auto|]. split; [auto|].
           intros x' y' Hxy'. rewrite T4 by auto.
           destruct (Z.eqb_spec (x * g_pw G + x') (tx * g_pw G + px)) as [Q1|]; destruct (Z.eqb_spec (y * g_ph G + y') (ty * g_ph G + py)) as [Q2|];
             cbn [andb]; auto. exfalso. apply Q. unfold i. destruct (cell_pos G x y x' y' tx ty px py D Hxy' Hc Q1 Q2) as (-> & _ & -> & _). reflexivity.
      * intros j Hj. destruct (I_cache _ _ _ _ _ _ I1 j Hj) as (x & y & J1 & J2 & J3 & J4). exists x, y. split; [auto|]. split; [auto|]. split; [auto|].
        destruct (Z.eqb_spec j i) as [->|]; auto.
      * intros Hr x y x' y' H1 H2 H3 H4 H5. apply (I_names _ _ _ _ _ _ I1 Hr); auto.
        assert (TF : t_file t' = t_file (d_tiles s1 i)) by reflexivity.
        destruct (Z.eqb_spec (tid G x y) i) as [Q1|Q1]; destruct (Z.eqb_spec (tid G x' y') i) as [Q2|Q2];
          rewrite ?Q1, ?Q2; congruence.
    + destruct F as (F1 & F2 & F3). split; [unfold same_frame in *; cbn; tauto|]. split; [cbn; auto|].
      cbn [d_evict upd_tile]. intros He NC x y Hxy Hnxy. cbn [d_tiles upd_tile]. destruct (Z.eqb_spec (tid G x y) i) as [Q|Q].
      * intros _. exact R1.
      * apply (F3 He NC); auto.
Qed.

Lemma setAll_ok E G cap b s v : Inv M E G cap b s -> d_ro s = false -> is_val (e_k E) v ->
  Inv M E G cap (mkB (fun _ _ => v) (b_nd b)) (a2_setAll s v) /\ stepped G s (a2_setAll s v).
Proof.
  intros I Hro Hv. split.
  - constructor; cbn; try apply I. intros x y Hxy. pose proof (I_tiles _ _ _ _ _ _ I x y Hxy) as [TN T]. split; [auto|].
    destruct (g_null G x y); auto. destruct T as (TB & c0 & T1 & _). split; [exact TB|]. exists c0. split; [exact T1|]. cbn. split; [congruence|]. split; auto.
  - split; [unfold same_frame; cbn; auto 20|]. split; [cbn; lia|]. intros _ H. exact H.
Qed.

Lemma setNoData_ok E G cap b s v : Inv M E G cap b s -> d_ro s = true \/ none_cached G s -> is_val (e_k E) v ->
  Inv M E G cap (mkB (b_val b) (fun _ _ => v)) (a2_setNoData s v) /\ stepped G s (a2_setNoData s v).
Proof.
  intros I HN Hv.
  assert (K : forall t, t_null (if t_null t then t else set_nodata t v) = t_null t /\
                        t_loaded (if t_null t then t else set_nodata t v) = t_loaded t /\
                        t_created (if t_null t then t else set_nodata t v) = t_created t /\
                        t_file (if t_null t then t else set_nodata t v) = t_file t) by (intros t; destruct (t_null t) eqn:?; cbn; auto).
  split.
  - constructor; cbn; try apply I.
    + intros x y Hxy. pose proof (I_tiles _ _ _ _ _ _ I x y Hxy) as [TN T]. split; [rewrite (proj1 (K _)); auto|].
      destruct (g_null G x y) eqn:Hn; [rewrite TN; auto|]. rewrite TN. set (t := d_tiles s (tid G x y)) in *.
      destruct T as (TB & c0 & (A & V & S) & T2 & T3 & T4). split; [exact TB|]. exists c0. split; [|cbn; auto].
      split; [destruct A; constructor; cbn; auto|]. split; [auto|]. cbn. destruct (t_loaded t) eqn:HL.
      * destruct S as (S1 & (W & Ew & Eh & C) & S3). split; [auto|]. split; [|exact S3].
        split; [|auto]. destruct W. constructor; cbn; auto.
      * destruct S as (S1 & S2). split; [auto|]. destruct (t_created t) eqn:HC; [|auto].
        destruct (d_ro s) eqn:Hro; [exact S2|]. destruct HN as [HN|HN]; [discriminate|].
        specialize (HN x y Hxy Hn HC). fold t in HN. congruence.
    + intros i Hi. destruct (I_cache _ _ _ _ _ _ I i Hi) as (x & y & J1 & J2 & J3 & J4). exists x, y. rewrite (proj1 (proj2 (K _))). auto.
    + intros Hr x y x' y' H1 H2 H3 H4. rewrite !(proj2 (proj2 (proj2 (K _)))). apply (I_names _ _ _ _ _ _ I Hr); auto.
  - split; [unfold same_frame; cbn; auto 20|]. split; [cbn; lia|]. intros _ H x y Hxy Hnxy. cbn.
    rewrite (proj1 (proj2 (K _))), (proj1 (proj2 (proj2 (K _)))). apply H; auto.
Qed.

(** One call. *)
Lemma step_ok E G cap b s o : env_ok E -> dims (g_pw G) (g_ph G) -> Inv M E G cap b s -> cap <> 0 -> valid (e_k E) G o ->
  (d_ro s = true -> reads_only o) -> (no_setNoData o \/ d_ro s = true \/ none_cached G s) ->
  exists s', step E o s = Ok (fst (spec_step (e_eqb E) G o b), s') /\
    Inv M E G cap (snd (spec_step (e_eqb E) G o b)) s' /\ stepped G s s'.
Proof.
  intros HE D I Hcap HV HR HN. destruct o; cbn [valid] in HV; cbn [step spec_step fst snd].
  - destruct (quad_ok _ _ _ _ _ _ _ D I HV) as (Q1 & Q2 & Q3 & Q4 & Q5). unfold read. rewrite Q1. cbn [bind fst snd].
    destruct (readQ_ok E G cap b s _ _ _ _ HE D I Hcap Q2 Q3) as (s' & E1 & I1 & F1). rewrite E1. cbn [bind fst snd].
    rewrite Q4, Q5. eauto.
  - destruct HV as [HV Hv]. destruct (quad_ok _ _ _ _ _ _ _ D I HV) as (Q1 & Q2 & Q3 & Q4 & Q5). unfold write. rewrite Q1. cbn [bind fst snd].
    assert (Hro : d_ro s = false) by (destruct (d_ro s); auto; destruct (HR eq_refl)).
    destruct (writeQ_ok E G cap b s _ _ _ _ v HE D I Hcap Hro Q2 Q3 Hv) as (s' & E1 & I1 & F1). rewrite E1. cbn [bind].
    rewrite Q4, Q5 in I1. eauto.
  - destruct HV as [Q2 Q3]. destruct (readQ_ok E G cap b s _ _ _ _ HE D I Hcap Q2 Q3) as (s' & E1 & I1 & F1). rewrite E1. cbn [bind fst snd]. eauto.
  - destruct HV as (Q2 & Q3 & Hv). assert (Hro : d_ro s = false) by (destruct (d_ro s); auto; destruct (HR eq_refl)).
    destruct (writeQ_ok E G cap b s _ _ _ _ v HE D I Hcap Hro Q2 Q3 Hv) as (s' & E1 & I1 & F1). rewrite E1. cbn [bind]. eauto.
  - destruct (quad_ok _ _ _ _ _ _ _ D I HV) as (Q1 & Q2 & Q3 & Q4 & Q5). unfold isNoData. rewrite Q1. cbn [bind fst snd].
    destruct (isNoDataQ_ok E G cap b s _ _ _ _ HE D I Hcap Q2 Q3) as (r & s' & E1 & E2 & I1 & F1). rewrite E1. cbn [bind fst snd].
    rewrite E2, Q4, Q5. eauto.
  - destruct HV as [Q2 Q3]. destruct (isNoDataQ_ok E G cap b s _ _ _ _ HE D I Hcap Q2 Q3) as (r & s' & E1 & E2 & I1 & F1).
    rewrite E1. cbn [bind fst snd]. rewrite E2. eauto.
  - destruct (load_step E G cap b s tx ty HE D I Hcap HV) as (s' & E1 & I1 & F & _). rewrite E1. cbn [bind]. eauto.
  - assert (Hro : d_ro s = false) by (destruct (d_ro s); auto; destruct (HR eq_refl)).
    destruct (setAll_ok E G cap b s v I Hro HV). eauto.
  - destruct HN as [HN|HN]; [destruct HN|]. destruct (setNoData_ok E G cap b s v I HN HV). eauto.
Qed.

(** Histories. setNoData may be called while nothing has been evicted (or on a read-only array). *)
Lemma run_ok E G cap ops : env_ok E -> dims (g_pw G) (g_ph G) -> cap <> 0 ->
  forall b s, Inv M E G cap b s -> Forall (valid (e_k E) G) ops ->
  (d_ro s = true -> Forall reads_only ops) ->
  (d_ro s = true \/ (d_evict s = 0 -> none_cached G s)) -> 0 <= d_evict s ->
  (d_ro s = false -> forall l1 v l2 outs s1, ops = l1 ++ OSetNoData v :: l2 -> run E l1 s = Ok (outs, s1) -> getEvictions s1 = 0) ->
  exists s', run E ops s = Ok (fst (spec_run (e_eqb E) G ops b), s') /\
    Inv M E G cap (snd (spec_run (e_eqb E) G ops b)) s' /\ same_frame s s'.
Proof.
  intros HE D Hcap. induction ops as [|o ops IH]; intros b s I HV HR HN H0 HS; cbn [run spec_run fst snd].
  { exists s. split; [auto|]. split; [auto|apply frame_refl]. }
  apply Forall_cons_iff in HV. destruct HV as [HV1 HV2]. destruct (step_ok E G cap b s o HE D I Hcap HV1) as (s1 & E1 & I1 & (F1 & F2 & F3)).
  { intros Hr. specialize (HR Hr). inversion HR; auto. }
  { destruct HN as [HN|HN]; [auto|]. destruct (d_ro s) eqn:Hro; [auto|].
    destruct o; cbn; auto. right. right. apply HN. apply (HS eq_refl [] v ops [] s); reflexivity. }
  rewrite E1. cbn [bind fst snd].
  assert (Er : d_ro s1 = d_ro s) by (unfold same_frame in F1; tauto).
  destruct (IH (snd (spec_step (e_eqb E) G o b)) s1 I1) as (s' & E2 & I2 & F4); auto.
  { rewrite Er. intros Hr. specialize (HR Hr). inversion HR; auto. }
  { rewrite Er. destruct HN as [HN|HN]; [auto|]. right. intros Hz. apply F3; [lia|]. apply HN. lia. }
  { lia. }
  { rewrite Er. intros Hr l1 v l2 outs s2 El Ex. subst ops.
    eapply (HS Hr (o :: l1) v l2 _ s2); [reflexivity|]. cbn [run]. rewrite E1. cbn [bind fst snd]. rewrite Ex. cbn [bind fst snd]. reflexivity. }
  rewrite E2. cbn [bind fst snd]. exists s'. split; [auto|]. split; [auto|]. unfold same_frame in *. intuition congruence.
Qed.
End Meta.
