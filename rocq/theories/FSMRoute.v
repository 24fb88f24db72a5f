(** OverflowInto: effect of one step, invariants, termination. *)
From Coq Require Import ZArith List Lia Bool Permutation QArith Qcanon Relations Wellfounded.
From Verif Require Import Base Res QcTac RasterSpec FlatsSpec FlowModel DHModel DHSpec DHTree DHTerrain FSMModel FSMSpec FSMPits FSMPits2.
Open Scope Z_scope.

(** *** water lists as functions *)
Lemma wat_ix wv i : 0 <= i < Z.of_nat (length wv) -> ix wv i = Some (wat wv i).
Proof. intros H. unfold wat. destruct (proj2 (ix_some_iff wv i) H) as [a ->]. reflexivity. Qed.
Lemma wat_at wv i : 0 <= i < Z.of_nat (length wv) -> at_ wv i = Ok (wat wv i).
Proof. intros H. apply at_in, wat_ix, H. Qed.
Lemma wat_wr wv i v : 0 <= i < Z.of_nat (length wv) ->
  exists wv', wr wv i v = Ok wv' /\ length wv' = length wv /\ forall j, wat wv' j = if j =? i then v else wat wv j.
Proof.
  intros H. destruct (wr_in wv i v H) as [wv' [E [L I]]]. exists wv'. split; [exact E|]. split; [exact L|].
  intros j. unfold wat. rewrite I. destruct (j =? i); reflexivity.
Qed.

Lemma fp_eq_0 q : (0 <= q)%Qc -> fp_eq q 0 = qlt q fp_error.
Proof.
  intros H. unfold fp_eq. assert (0 < fp_error)%Qc by reflexivity.
  replace (qlt (0 - q) fp_error) with true; [|symmetry; destruct (qltP (0 - q) fp_error) as [|N]; [reflexivity|exfalso; revert N; intros N; qlra]].
  rewrite andb_true_r. destruct (qltP (q - 0) fp_error), (qltP q fp_error); try reflexivity; exfalso; qlra.
Qed.
Lemma fp_pos : (0 < fp_error)%Qc.
Proof. reflexivity. Qed.

Section Route.
  Variables (n : Z) (deps : list dep).
  Hypothesis WF : well_formed n deps.
  Hypothesis Hn : n <= 2 ^ 31.
  Hypothesis VO : volumes_ok n deps.
  Notation N := (length deps).
  Notation len := (Z.of_nat (length deps)).

  Definition dp (i : Z) : dep := match ix deps i with Some r => r | None => new_dep end.
  Definition V (i : Z) : Qc := match d_vol (dp i) with Some z => zq z | None => 0%Qc end.
  Notation par i := (d_parent (dp i)).
  Notation sib i := (d_odep (dp i)).
  Notation lch i := (d_lchild (dp i)).
  Notation rch i := (d_rchild (dp i)).

  Lemma dp_ix i : 0 <= i < len -> ix deps i = Some (dp i).
  Proof. intros H. unfold dp. destruct (proj2 (ix_some_iff deps i) H) as [a ->]. reflexivity. Qed.
  Lemma dp_at i : 0 <= i < len -> at_ deps i = Ok (dp i).
  Proof. intros H. apply at_in, dp_ix, H. Qed.
  Lemma n_pos : 1 <= n.
  Proof.
    destruct (wf_ocean _ _ WF) as [r [E _]]. pose proof (ixr _ _ _ E). pose proof (wf_size _ _ WF). lia.
  Qed.
  Lemma len_small : len <= NO_VALUE.
  Proof. pose proof (wf_size _ _ WF). unfold NO_VALUE. lia. Qed.
  Lemma vol_dp i : 0 < i < len -> exists z, d_vol (dp i) = Some z /\ V i = zq z /\ 0 <= z.
  Proof.
    intros H. destruct (vo_volume _ _ VO i (dp i)) as [z [E Hz]]; [apply dp_ix; lia|lia|].
    exists z. unfold V. rewrite E. auto.
  Qed.
  Lemma V_nonneg i : 0 < i < len -> (0 <= V i)%Qc.
  Proof. intros H. destruct (vol_dp i H) as [z [_ [-> Hz]]]. rewrite <- zq_0. apply zq_le, Hz. Qed.

  (** a depression has either the ocean behind it, or a sibling *)
  Inductive place (i : Z) : Prop :=
  | pl_linked : d_ocean_parent (dp i) = true -> 0 <= par i < n -> sib i = NO_VALUE -> place i
  | pl_child : d_ocean_parent (dp i) = false -> i < par i < len -> n <= par i -> 0 < sib i < len -> sib i < par i -> sib i <> i ->
      sib (sib i) = i -> par (sib i) = par i -> d_ocean_parent (dp (sib i)) = false ->
      ((lch (par i) = i /\ rch (par i) = sib i) \/ (rch (par i) = i /\ lch (par i) = sib i)) ->
      0 <= d_geolink (dp i) < n -> part_of deps (d_geolink (dp i)) (sib i) -> place i.
  Lemma wplace i : 0 < i < len -> place i.
  Proof.
    intros H. destruct (wf_parent _ _ WF i (dp i)) as [[A [B [_ D]]]|[A [B [C [p [E [F [G K]]]]]]]]; [apply dp_ix; lia|lia|constructor; auto|].
    assert (Ep : p = dp (par i)) by (unfold dp at 1; rewrite E; reflexivity). subst p.
    destruct (wf_meta _ _ WF _ _ E C) as [NE CH].
    assert (SC : sib i = lch (par i) \/ sib i = rch (par i)) by tauto.
    destruct (CH _ SC) as [S1 [q [S2 [S3 S4]]]].
    assert (SL : 0 < sib i < len) by lia.
    assert (Eq : q = dp (sib i)) by (unfold dp at 1; rewrite S2; reflexivity). subst q.
    assert (NI : sib i <> i) by (destruct F as [[F1 F2]|[F1 F2]]; congruence).
    apply pl_child; auto; try lia.
    - destruct (wf_parent _ _ WF _ _ S2) as [[A' _]|[A' [B' [C' [p' [E' [F' _]]]]]]]; [lia|congruence|].
      rewrite S3 in E'. rewrite E in E'. injection E' as <-. destruct F as [[F1 F2]|[F1 F2]], F' as [[F3 F4]|[F3 F4]]; congruence.
  Qed.

  (** a metadepression *)
  Lemma wmeta d : n <= d < len -> 0 < lch d < d /\ 0 < rch d < d /\ lch d <> rch d /\ par (lch d) = d /\ par (rch d) = d /\
    d_ocean_parent (dp (lch d)) = false /\ d_ocean_parent (dp (rch d)) = false /\ sib (lch d) = rch d /\ sib (rch d) = lch d /\
    (V (lch d) + V (rch d) <= V d)%Qc.
  Proof.
    intros H. pose proof n_pos as NP. destruct (wf_meta _ _ WF d (dp d)) as [NE CH]; [apply dp_ix; lia|lia|].
    destruct (CH (lch d)) as [L1 [ql [L2 [L3 L4]]]]; [auto|]. destruct (CH (rch d)) as [R1 [qr [R2 [R3 R4]]]]; [auto|].
    assert (ql = dp (lch d)) by (unfold dp at 1; rewrite L2; reflexivity). subst ql.
    assert (qr = dp (rch d)) by (unfold dp at 1; rewrite R2; reflexivity). subst qr.
    destruct (wplace (lch d)) as [A _ _|A1 A2 A3 A4 A5 A6 A7 A8 A9 A10 A11 A12]; [lia|congruence|].
    destruct (wplace (rch d)) as [B _ _|B1 B2 B3 B4 B5 B6 B7 B8 B9 B10 B11 B12]; [lia|congruence|].
    rewrite L3 in *. rewrite R3 in *.
    split; [lia|]. split; [lia|]. split; [exact NE|]. split; [reflexivity|]. split; [reflexivity|]. split; [exact L4|]. split; [exact R4|].
    split; [destruct A10 as [[X Y]|[X Y]]; congruence|]. split; [destruct B10 as [[X Y]|[X Y]]; congruence|].
    destruct (vol_dp (lch d)) as [vl [E1 [-> _]]]; [lia|]. destruct (vol_dp (rch d)) as [vr [E2 [-> _]]]; [lia|].
    destruct (vol_dp d) as [v [E3 [-> _]]]; [lia|]. rewrite <- zq_add. apply zq_le.
    eapply (vo_meta _ _ VO d (dp d)); [apply dp_ix; lia|lia|exact L2|exact R2|exact E3|exact E1|exact E2].
  Qed.
  Lemma wleaf d : 0 <= d < n -> lch d = NO_VALUE /\ rch d = NO_VALUE.
  Proof. intros H. apply (wf_leaf _ _ WF d (dp d)); [apply dp_ix; pose proof (wf_size _ _ WF); lia|lia]. Qed.

  (** *** one step of OverflowInto *)
  Variable stop : Z.

  (** at the stop node, and at the ocean, the carried water is added *)
  Lemma step_stop jump root wv extra : length wv = N -> 0 <= root < len -> root = stop \/ root = 0 ->
    exists wv', ov_step deps stop jump root wv extra = Ok (Done root wv') /\ length wv' = N /\
      forall j, wat wv' j = if j =? root then (wat wv root + extra)%Qc else wat wv j.
  Proof.
    intros HL Hr Hs. unfold ov_step. rewrite dp_at by auto. cbn [bind]. unfold ov_take. rewrite wat_at by lia. cbn [bind].
    assert (B : (root =? stop) || (root =? OCEAN) = true).
    { unfold OCEAN. destruct Hs as [->| ->]; [rewrite Z.eqb_refl; reflexivity|apply orb_true_r]. }
    assert (P : forall wv1 ex1, length wv1 = N -> (wat wv1 root + ex1 = wat wv root + extra)%Qc ->
       (forall j, j <> root -> wat wv1 j = wat wv j) ->
       exists wv', (do q <- at_ wv1 root; do wv2 <- wr wv1 root (q + ex1)%Qc; Ok (Done root wv2)) = Ok (Done root wv') /\ length wv' = N /\
        forall j, wat wv' j = if j =? root then (wat wv root + extra)%Qc else wat wv j).
    { intros wv1 ex1 L1 S1 J1. rewrite wat_at by lia. cbn [bind]. destruct (wat_wr wv1 root (wat wv1 root + ex1)%Qc) as [wv' [E [L2 J2]]]; [lia|].
      rewrite E. cbn [bind]. exists wv'. split; [reflexivity|]. split; [lia|]. intros j. rewrite J2. destruct (Z.eqb_spec j root); [exact S1|auto]. }
    destruct (d_vol (dp root)) as [z|]; [|cbn [bind]; rewrite B; apply P; auto].
    destruct (qltP (zq z) (wat wv root)); [|cbn [bind]; rewrite B; apply P; auto].
    destruct (wat_wr wv root (zq z)) as [wv1 [E [L1 J1]]]; [lia|]. rewrite E. cbn [bind]. rewrite B. apply P; [lia| |].
    - rewrite J1, Z.eqb_refl. ring.
    - intros j Hj. rewrite J1. destruct (Z.eqb_spec j root); congruence.
  Qed.

  (** the depression takes what it can hold *)
  Definition kept (wv : list Qc) (root : Z) (extra : Qc) : Qc := qmin (V root) (wat wv root + extra).
  Definition rest (wv : list Qc) (root : Z) (extra : Qc) : Qc := (wat wv root + extra - kept wv root extra)%Qc.

  Inductive step_spec (jump : Z -> option Z) (root : Z) (wv : list Qc) (extra : Qc) : ov_next -> Prop :=
  | ss_stash wv' : length wv' = N -> (forall j, wat wv' j = if j =? root then kept wv root extra else wat wv j) ->
      (rest wv root extra < fp_error)%Qc -> step_spec jump root wv extra (Done root wv')
  | ss_jump wv' j0 : length wv' = N -> (forall j, wat wv' j = if j =? root then V root else wat wv j) ->
      (kept wv root extra = V root)%Qc -> (fp_error <= rest wv root extra)%Qc ->
      jump root = Some j0 -> step_spec jump root wv extra (Go j0 wv' (rest wv root extra))
  | ss_hop wv' : length wv' = N -> (forall j, wat wv' j = if j =? root then V root else wat wv j) ->
      (kept wv root extra = V root)%Qc -> (fp_error <= rest wv root extra)%Qc -> jump root = None ->
      d_ocean_parent (dp root) = false -> (wat wv (sib root) < V (sib root))%Qc ->
      step_spec jump root wv extra (Go (d_geolink (dp root)) wv' (rest wv root extra))
  | ss_up wv' : length wv' = N ->
      (forall j, wat wv' j = if j =? root then V root else if j =? sib root then V (sib root)
                 else if j =? par root then (if qeq (wat wv j) 0 then V root + V (sib root) else wat wv j)%Qc else wat wv j) ->
      (kept wv root extra = V root)%Qc -> (fp_error <= rest wv root extra)%Qc -> jump root = None ->
      d_ocean_parent (dp root) = false -> (V (sib root) <= wat wv (sib root))%Qc ->
      step_spec jump root wv extra (Go (par root) wv' (rest wv root extra + (wat wv (sib root) - V (sib root)))%Qc)
  | ss_sea wv' : length wv' = N -> (forall j, wat wv' j = if j =? root then V root else wat wv j) ->
      (kept wv root extra = V root)%Qc -> (fp_error <= rest wv root extra)%Qc -> jump root = None ->
      d_ocean_parent (dp root) = true -> step_spec jump root wv extra (Go (par root) wv' (rest wv root extra)).

  Lemma step_take root wv extra : length wv = N -> 0 < root < len -> (0 <= extra)%Qc ->
    exists wv2 ex2, (do t1 <- ov_take (d_vol (dp root)) root wv extra;
                let '(wv1, ex1) := t1 in ov_stash (d_vol (dp root)) root wv1 ex1) = Ok (wv2, ex2) /\
      ex2 = rest wv root extra /\
      length wv2 = N /\ forall j, wat wv2 j = if j =? root then kept wv root extra else wat wv j.
  Proof.
    intros HL Hr He. destruct (vol_dp root Hr) as [z [Ez [EV _]]]. unfold ov_take, ov_stash, rest, kept. rewrite Ez, EV, wat_at by lia. cbn [bind].
    destruct (qltP (zq z) (wat wv root)) as [Q|Q].
    - destruct (wat_wr wv root (zq z)) as [wv1 [E [L1 J1]]]; [lia|]. rewrite E. cbn [bind]. rewrite wat_at, J1, Z.eqb_refl by lia. cbn [bind].
      destruct (qltP (zq z) (zq z)) as [X|_]; [exfalso; revert X; apply Qcle_not_lt, Qcle_refl|].
      assert (K : qmin (zq z) (wat wv root + extra) = zq z) by qlra. rewrite K. eexists _, _. split; [reflexivity|]. split; [ring|]. split; [lia|].
      exact J1.
    - cbn [bind]. rewrite wat_at by lia. cbn [bind]. destruct (qltP (wat wv root) (zq z)) as [Q2|Q2].
      + destruct (qltP extra (zq z - wat wv root)) as [Q3|Q3].
        * destruct (wat_wr wv root (qmin (wat wv root + extra) (zq z))) as [wv1 [E [L1 J1]]]; [lia|]. rewrite E. cbn [bind].
          eexists _, _. split; [reflexivity|]. split; [qlra|]. split; [lia|].
          intros j. rewrite J1. destruct (j =? root); [qlra|reflexivity].
        * destruct (wat_wr wv root (zq z)) as [wv1 [E [L1 J1]]]; [lia|]. rewrite E. cbn [bind].
          eexists _, _. split; [reflexivity|]. split; [qlra|]. split; [lia|].
          intros j. rewrite J1. destruct (j =? root); [qlra|reflexivity].
      + eexists _, _. split; [reflexivity|]. split; [qlra|]. split; [lia|].
        intros j. destruct (Z.eqb_spec j root) as [->|]; [qlra|reflexivity].
  Qed.

  Lemma step_ok jump root wv extra : length wv = N -> 0 < root < len -> root <> stop -> (0 <= extra)%Qc ->
    exists nx, ov_step deps stop jump root wv extra = Ok nx /\ step_spec jump root wv extra nx.
  Proof.
    intros HL Hr Hs He. unfold ov_step. rewrite dp_at by lia. cbn [bind].
    destruct (step_take root wv extra HL Hr He) as [wv2 [ex2 [E [E2 [L2 J2]]]]].
    destruct (ov_take (d_vol (dp root)) root wv extra) as [[wv1 ex1]| |]; try discriminate E. cbn [bind] in E |- *. unfold OCEAN.
    destruct (Z.eqb_spec root stop); [contradiction|]. destruct (Z.eqb_spec root 0); [lia|]. cbn [orb].
    rewrite E. cbn [bind]. subst ex2. set (ex2 := rest wv root extra) in *.
    assert (R0 : (0 <= ex2)%Qc) by (unfold ex2, rest, kept; qlra).
    rewrite fp_eq_0 by exact R0. destruct (qltP ex2 fp_error) as [Q|Q].
    { eexists. split; [reflexivity|]. apply ss_stash; auto. }
    assert (KV : kept wv root extra = V root).
    { unfold ex2, rest in Q. unfold kept in *. pose proof fp_pos. qlra. }
    assert (J2' : forall j, wat wv2 j = if j =? root then V root else wat wv j) by (intros j; rewrite J2, KV; reflexivity).
    assert (Q' : (fp_error <= ex2)%Qc) by qlra.
    destruct (jump root) as [j0|] eqn:EJ.
    { eexists. split; [reflexivity|]. apply ss_jump; auto. }
    destruct (wplace root Hr) as [A B C|A1 A2 A3 A4 A5 A6 A7 A8 A9 A10 A11 A12].
    - rewrite C, Z.eqb_refl. cbn [negb bind]. rewrite dp_at by (pose proof (wf_size _ _ WF); lia). cbn [bind].
      rewrite wat_at by (pose proof (wf_size _ _ WF); lia). cbn [bind]. rewrite A. cbn [negb]. rewrite andb_false_r. cbn [bind].
      eexists. split; [reflexivity|]. apply ss_sea; auto.
    - pose proof len_small. destruct (Z.eqb_spec (sib root) NO_VALUE) as [X|_]; [lia|]. cbn [negb]. rewrite dp_at by lia. cbn [bind].
      rewrite wat_at by lia. cbn [bind]. rewrite J2'. destruct (Z.eqb_spec (sib root) root) as [X|_]; [congruence|].
      destruct (vol_dp (sib root) A4) as [zs [Es [EVs _]]]. unfold under. rewrite Es. rewrite <- EVs.
      destruct (qltP (wat wv (sib root)) (V (sib root))) as [Q3|Q3].
      { cbn [bind]. eexists. split; [reflexivity|]. apply ss_hop; auto. }
      unfold ov_take. rewrite wat_at by lia. rewrite J2'. destruct (Z.eqb_spec (sib root) root) as [X|_]; [congruence|]. cbn [bind]. rewrite <- EVs.
      assert (T : exists wv3, length wv3 = N /\ (forall j, wat wv3 j = if j =? root then V root else if j =? sib root then V (sib root) else wat wv j) /\
        (if qlt (V (sib root)) (wat wv (sib root))
         then do wv' <- wr wv2 (sib root) (V (sib root)); Ok (wv', (ex2 + (wat wv (sib root) - V (sib root)))%Qc)
         else Ok (wv2, ex2)) = Ok (wv3, (ex2 + (wat wv (sib root) - V (sib root)))%Qc)).
      { destruct (qltP (V (sib root)) (wat wv (sib root))) as [Q4|Q4].
        - destruct (wat_wr wv2 (sib root) (V (sib root))) as [wv3 [E3 [L3 J3]]]; [lia|]. rewrite E3. cbn [bind]. exists wv3. split; [lia|]. split; [|reflexivity].
          intros j. rewrite J3, J2'. destruct (Z.eqb_spec j root) as [->|]; [|reflexivity]. destruct (Z.eqb_spec root (sib root)); [congruence|reflexivity].
        - assert (QE : wat wv (sib root) = V (sib root)) by (apply Qcle_antisym; qlra). exists wv2. split; [lia|]. split.
          + intros j. rewrite J2'. destruct (Z.eqb_spec j root) as [->|]; [reflexivity|]. destruct (Z.eqb_spec j (sib root)) as [->|]; [exact QE|reflexivity].
          + rewrite QE. f_equal. f_equal. ring. }
      destruct T as [wv3 [L3 [J3 E3]]]. rewrite E3. clear E3. cbn [bind]. rewrite dp_at by lia. cbn [bind]. rewrite wat_at by lia. cbn [bind].
      rewrite J3. destruct (Z.eqb_spec (par root) root) as [X|_]; [lia|]. destruct (Z.eqb_spec (par root) (sib root)) as [X|_]; [lia|].
      assert (V3 : (V (sib root) <= wat wv (sib root))%Qc) by qlra.
      destruct (qeqP (wat wv (par root)) 0) as [Z0|Z0].
      + rewrite A1. cbn [negb andb]. rewrite wat_at by lia. cbn [bind]. rewrite J3, Z.eqb_refl.
        destruct (wat_wr wv3 (par root) (wat wv (par root) + V root)%Qc) as [wv4 [E4 [L4 J4]]]; [lia|]. rewrite E4. cbn [bind].
        rewrite wat_at by lia. cbn [bind]. rewrite J4. destruct (Z.eqb_spec (sib root) (par root)); [lia|].
        rewrite J3. destruct (Z.eqb_spec (sib root) root); [congruence|]. rewrite Z.eqb_refl.
        rewrite wat_at by lia. cbn [bind]. rewrite J4, Z.eqb_refl.
        destruct (wat_wr wv4 (par root) (wat wv (par root) + V root + V (sib root))%Qc) as [wv5 [E5 [L5 J5]]]; [lia|]. rewrite E5. cbn [bind].
        eexists. split; [reflexivity|]. apply ss_up; auto; [lia|]. intros j. rewrite J5.
        destruct (Z.eqb_spec j (par root)) as [->|Hj].
        * destruct (Z.eqb_spec (par root) root) as [X|_]; [lia|]. destruct (Z.eqb_spec (par root) (sib root)) as [X|_]; [lia|].
          destruct (qeqP (wat wv (par root)) 0); [|contradiction]. rewrite Z0. ring.
        * rewrite J4. destruct (Z.eqb_spec j (par root)); [contradiction|]. apply J3.
      + cbn [andb bind]. eexists. split; [reflexivity|]. apply ss_up; auto. intros j. rewrite J3.
        destruct (Z.eqb_spec j root) as [->|]; [reflexivity|]. destruct (Z.eqb_spec j (sib root)) as [->|]; [reflexivity|].
        destruct (Z.eqb_spec j (par root)) as [->|]; [|reflexivity]. destruct (qeqP (wat wv (par root)) 0); [contradiction|reflexivity].
  Qed.

  (** *** states as functions *)
  Definition own (i : Z) (q : Qc) : Qc :=
    if i <? n then q else if qeq q 0 then 0%Qc else (q - (V (lch i) + V (rch i)))%Qc.
  Definition rdy (i : Z) (q : Qc) : Prop := i < n \/ q <> 0%Qc \/ (V (lch i) + V (rch i))%Qc = 0%Qc.
  Definition full (f : Z -> Qc) (d : Z) : Prop := (V d <= f d)%Qc.
  Definition ready (f : Z -> Qc) (d : Z) : Prop := rdy d (f d).

  Lemma own_lin i q q' : rdy i q -> rdy i q' -> (own i q' = own i q + (q' - q))%Qc.
  Proof.
    intros A B. unfold own. destruct (Z.ltb_spec i n); [ring|].
    assert (G : forall x, rdy i x -> (if qeq x 0 then 0 else x - (V (lch i) + V (rch i)))%Qc = (x - (V (lch i) + V (rch i)))%Qc).
    { intros x R. destruct (qeqP x 0) as [->|]; [|reflexivity]. destruct R as [R|[R|R]]; [lia|contradiction|]. rewrite R. ring. }
    rewrite !G by auto. ring.
  Qed.
  Lemma rdy_V i : 0 < i < len -> rdy i (V i).
  Proof.
    intros H. unfold rdy. destruct (Z_lt_ge_dec i n); [auto|]. right. destruct (wmeta i) as [A [B [_ [_ [_ [_ [_ [_ [_ L]]]]]]]]]; [lia|].
    destruct (qeqP (V i) 0) as [E|E]; [right|left; exact E]. assert (0 <= V (lch i))%Qc by (apply V_nonneg; lia).
    assert (0 <= V (rch i))%Qc by (apply V_nonneg; lia). qlra.
  Qed.
  Lemma rdy_le i q q' : rdy i q -> (0 <= q)%Qc -> (q <= q')%Qc -> rdy i q'.
  Proof. intros [R|[R|R]] A B; [left; auto| |right; right; auto]. right; left. intros ->. apply R. qlra. Qed.

  Definition tsum (S : Z -> bool) (f : Z -> Qc) : Qc := qsum (map (fun i => if S i then own i (f i) else 0%Qc) (zrange 0 N)).
  Lemma tsum_ext S f g : (forall i, 0 <= i < len -> f i = g i) -> tsum S f = tsum S g.
  Proof. intros H. unfold tsum. f_equal. apply map_ext_in. intros i I. apply zrange_In in I. rewrite H by lia. reflexivity. Qed.
  Lemma tsum_chg S f g i : 0 <= i < len -> (forall j, j <> i -> g j = f j) ->
    (tsum S g = tsum S f + (if S i then own i (g i) - own i (f i) else 0))%Qc.
  Proof.
    intros Hi H. unfold tsum.
    assert (G : forall L, NoDup L ->
      qsum (map (fun j => if S j then own j (g j) else 0%Qc) L) =
      (qsum (map (fun j => if S j then own j (f j) else 0%Qc) L) + (if existsb (Z.eqb i) L then if S i then own i (g i) - own i (f i) else 0 else 0))%Qc).
    { induction L as [|a L IH]; intros HN; cbn [map existsb]; [unfold qsum; cbn; ring|]. inversion HN; subst.
      unfold qsum in *. cbn [fold_right]. rewrite IH by auto.
      destruct (Z.eqb_spec i a) as [<-|Hne].
      - cbn [orb]. replace (existsb (Z.eqb i) L) with false.
        + destruct (S i); ring.
        + symmetry. apply not_true_is_false. intros X. apply existsb_exists in X. destruct X as [y [Y1 Y2]]. apply Z.eqb_eq in Y2. congruence.
      - cbn [orb]. rewrite (H a) by auto. destruct (S a); ring. }
    rewrite G by apply zrange_NoDup. f_equal.
    replace (existsb (Z.eqb i) (zrange 0 N)) with true; [reflexivity|]. symmetry. apply existsb_exists. exists i.
    split; [apply zrange_In; lia|apply Z.eqb_refl].
  Qed.

  Record fok (f : Z -> Qc) : Prop := {
    fk_pos : forall i, (0 <= f i)%Qc;
    fk_meta : forall d, n <= d < len -> f d <> 0%Qc -> full f (lch d) /\ full f (rch d);
    fk_held : forall d, n <= d < len -> f d <> 0%Qc -> (V (lch d) + V (rch d) <= f d)%Qc }.
  Record mono (f g : Z -> Qc) : Prop := {
    mn_full : forall d, 0 < d < len -> full f d -> full g d;
    mn_ready : forall d, 0 <= d < len -> ready f d -> ready g d }.
  Lemma mono_refl f : mono f f.
  Proof. constructor; auto. Qed.
  Lemma mono_trans f g k : mono f g -> mono g k -> mono f k.
  Proof. intros [A B] [C D]. constructor; auto. Qed.

  Lemma ready_held f i : fok f -> ready f i -> n <= i < len -> (V (lch i) + V (rch i) <= f i)%Qc.
  Proof.
    intros FO [R|[R|R]] Hi; [lia|apply (fk_held _ FO); auto|]. rewrite R. apply (fk_pos _ FO).
  Qed.

  (** changing the water of one ready depression *)
  Lemma upd_ok f g i : fok f -> 0 <= i < len -> ready f i -> (forall j, j <> i -> g j = f j) -> (0 <= g i)%Qc -> rdy i (g i) ->
    (0 < i -> full f i -> full g i) -> (n <= i -> g i <> 0%Qc -> (V (lch i) + V (rch i) <= g i)%Qc) ->
    fok g /\ mono f g /\ forall S, (tsum S g = tsum S f + (if S i then g i - f i else 0))%Qc.
  Proof.
    intros [P M HE] Hi R J G0 GR GF GH.
    assert (FM : forall d, 0 < d < len -> full f d -> full g d).
    { intros d Hd F. destruct (Z.eq_dec d i) as [->|Hne]; [apply GF; auto; lia|]. unfold full in *. rewrite J by auto. exact F. }
    split; [|split].
    - constructor.
      + intros j. destruct (Z.eq_dec j i) as [->|]; [exact G0|]. rewrite J by auto. apply P.
      + intros d Hd Hg. pose proof (wmeta d Hd) as [A [B _]].
        assert (full f (lch d) /\ full f (rch d)) as [X Y]; [|split; apply FM; auto; lia].
        destruct (Z.eq_dec d i) as [->|Hne]; [|apply M; auto; rewrite <- J; auto].
        destruct R as [R|[R|R]]; [lia|apply M; auto|].
        assert (0 <= V (lch i))%Qc by (apply V_nonneg; lia). assert (0 <= V (rch i))%Qc by (apply V_nonneg; lia).
        pose proof (P (lch i)). pose proof (P (rch i)). unfold full. split; qlra.
      + intros d Hd Hg. destruct (Z.eq_dec d i) as [->|Hne]; [apply GH; auto; lia|]. rewrite J in Hg |- * by auto. apply HE; auto.
    - constructor; [exact FM|]. intros d Hd Rd. destruct (Z.eq_dec d i) as [->|]; [exact GR|]. unfold ready in *. rewrite J by auto. exact Rd.
    - intros S. rewrite (tsum_chg S f g i) by auto. rewrite (own_lin i (f i) (g i)) by auto. destruct (S i); ring.
  Qed.

  (** a metadepression whose children are full takes over their water *)
  Lemma merge_ok f g p : fok f -> n <= p < len -> (forall j, j <> p -> g j = f j) -> f p = 0%Qc -> full f (lch p) -> full f (rch p) ->
    g p = (V (lch p) + V (rch p))%Qc ->
    fok g /\ mono f g /\ (forall S, tsum S g = tsum S f) /\ ready g p /\ (g p <= V p)%Qc.
  Proof.
    intros [P M HE] Hp J F0 FL FR GP. pose proof n_pos. pose proof (wmeta p Hp) as [A [B [_ [_ [_ [_ [_ [_ [_ VV]]]]]]]]].
    assert (0 <= V (lch p))%Qc by (apply V_nonneg; lia). assert (0 <= V (rch p))%Qc by (apply V_nonneg; lia).
    assert (RG : ready g p).
    { unfold ready, rdy. right. destruct (qeqP (g p) 0); [right; rewrite <- GP; auto|left; auto]. }
    assert (FM : forall d, 0 < d < len -> full f d -> full g d).
    { intros d Hd F. unfold full in *. destruct (Z.eq_dec d p) as [->|Hne]; [rewrite GP; rewrite F0 in F; qlra|]. rewrite J by auto. exact F. }
    split; [|split; [|split; [|split]]].
    - constructor.
      + intros j. destruct (Z.eq_dec j p) as [->|]; [rewrite GP; qlra|]. rewrite J by auto. apply P.
      + intros d Hd Hg. pose proof (wmeta d Hd) as [A' [B' _]].
        assert (full f (lch d) /\ full f (rch d)) as [X Y]; [|split; apply FM; auto; lia].
        destruct (Z.eq_dec d p) as [->|]; [auto|]. apply M; auto. rewrite <- J; auto.
      + intros d Hd Hg. destruct (Z.eq_dec d p) as [->|Hne]; [rewrite GP; apply Qcle_refl|]. rewrite J in Hg |- * by auto. apply HE; auto.
    - constructor; [exact FM|]. intros d Hd Rd. destruct (Z.eq_dec d p) as [->|]; [exact RG|]. unfold ready in *. rewrite J by auto. exact Rd.
    - intros S. rewrite (tsum_chg S f g p) by (auto; lia). rewrite F0, GP. unfold own. destruct (Z.ltb_spec p n); [lia|].
      destruct (qeqP 0 0) as [_|X]; [|congruence]. destruct (qeqP (V (lch p) + V (rch p)) 0); destruct (S p); ring.
    - exact RG.
    - rewrite GP. exact VV.
  Qed.

  (** *** where water can go *)
  (** water leaves [S] only by way of [d] *)
  Definition closed (S : Z -> bool) (d : Z) : Prop :=
    forall x, 0 < x < len -> S x = true -> x <> d ->
      S (par x) = true /\ (d_ocean_parent (dp x) = false -> forall y, part_of deps y (sib x) -> S y = true).
  Definition exits (f : Z -> Qc) (x y : Z) : Prop :=
    forall S d, closed S d -> S x = true -> S y = true \/ (0 < d < len /\ full f d).
  Lemma exits_refl f x : exits f x x.
  Proof. intros S d _ H. auto. Qed.
  Lemma exits_mono f g x y : mono f g -> exits f x y -> exits g x y.
  Proof. intros M E S d C H. destruct (E S d C H) as [|[A B]]; [auto|]. right. split; auto. apply (mn_full _ _ M); auto. Qed.
  Lemma exits_trans f x y z : exits f x y -> exits f y z -> exits f x z.
  Proof. intros A B S d C H. destruct (A S d C H) as [H'|]; [|auto]. apply (B S d C H'). Qed.
  Lemma exits_step f x y : 0 < x < len -> full f x ->
    y = par x \/ (d_ocean_parent (dp x) = false /\ part_of deps y (sib x)) -> exits f x y.
  Proof.
    intros Hx F H S d C HS. destruct (Z.eq_dec x d) as [<-|Hne]; [auto|]. left. destruct (C x Hx HS Hne) as [A B].
    destruct H as [->|[H1 H2]]; auto.
  Qed.

  (** [x] can pass water on to [y]; [F]: the depressions that have spilled over to their sibling *)
  Definition later (F : Z -> bool) (y x : Z) : Prop :=
    0 < x < len /\ (y = par x \/ (F x = true /\ d_ocean_parent (dp x) = false /\ part_of deps y (sib x))).
  Notation path F := (clos_trans Z (later F)).
  Lemma path_mono F F' y x : (forall i, F i = true -> F' i = true) -> path F y x -> path F' y x.
  Proof.
    intros H P. induction P as [y x [A B]|y x z _ IH1 _ IH2]; [|eapply t_trans; eauto].
    apply t_step. split; [exact A|]. destruct B as [->|[B1 [B2 B3]]]; [auto|right; auto].
  Qed.
  Definition one_way (F : Z -> bool) : Prop :=
    forall x, 0 < x < len -> d_ocean_parent (dp x) = false -> F x = true -> F (sib x) = false.

  Lemma sub_acc F : one_way F -> forall k p, (Z.to_nat p < k)%nat -> 0 <= p < len -> Acc (later F) p ->
    forall x, part_of deps x p -> Acc (later F) x.
  Proof.
    intros OW. pose proof n_pos as NP. induction k as [|k IH]; intros p Hk Hp AP x Px; [lia|].
    destruct (Z.eq_dec x p) as [->|Hne]; [exact AP|].
    assert (Hm : n <= p).
    { destruct (part_inv _ _ _ Px) as [|[q [_ L]]]; [congruence|]. pose proof (wlink n deps WF _ _ L). lia. }
    destruct (wmeta p) as [L1 [R1 [LR [L2 [R2 [L3 [R3 [L4 [R4 _]]]]]]]]]; [lia|].
    assert (ONE : forall c, 0 < c < p -> par c = p -> F c = false -> Acc (later F) c).
    { intros c Hc Pc Fc. constructor. intros y [_ [->|[Y _]]]; [rewrite Pc; exact AP|congruence]. }
    assert (TWO : forall c, 0 < c < p -> par c = p -> 0 < sib c < p -> Acc (later F) (sib c) -> Acc (later F) c).
    { intros c Hc Pc Sc As. constructor. intros y [_ [->|[_ [_ Y]]]]; [rewrite Pc; exact AP|]. apply (IH (sib c)); auto; lia. }
    assert (AL : Acc (later F) (lch p)).
    { destruct (F (lch p)) eqn:FL; [|apply ONE; auto]. apply TWO; auto; [rewrite L4; lia|]. rewrite L4. apply ONE; auto.
      rewrite <- L4. apply OW; auto. lia. }
    assert (AR : Acc (later F) (rch p)) by (apply TWO; auto; rewrite R4; [lia|exact AL]).
    destruct (wchild n deps WF p (dp p) x) as [Q|Q]; auto; [apply dp_ix; lia|apply (IH (lch p)); auto; lia|apply (IH (rch p)); auto; lia].
  Qed.
  Lemma child_link x : 0 < x < len -> d_ocean_parent (dp x) = false -> links deps x (par x).
  Proof.
    intros H E. exists (dp x). split; [apply dp_ix; lia|]. split; auto. split; auto. destruct (wplace x H) as [A _ _|_ B _ _ _ _ _ _ _ _ _ _]; [congruence|].
    pose proof len_small. unfold NO_PARENT, NO_VALUE in *. lia.
  Qed.
  Lemma par_in x : 0 < x < len -> 0 <= par x < len.
  Proof. intros H. pose proof (wf_size _ _ WF). destruct (wplace x H); lia. Qed.
  Lemma acc F : one_way F -> forall x, 0 <= x < len -> Acc (later F) x.
  Proof.
    intros OW x Hx. pose proof (wf_flows _ _ WF x Hx) as H. induction H as [|k r E NP _ IH].
    - constructor. intros y [Y _]. lia.
    - destruct (Z.eq_dec k 0) as [->|]; [constructor; intros y [Y _]; lia|].
      assert (Hk : 0 < k < len) by lia. assert (r = dp k) by (pose proof (dp_ix k Hx) as E2; rewrite E in E2; congruence). subst r.
      specialize (IH (par_in k Hk)). destruct (d_ocean_parent (dp k)) eqn:EO.
      + constructor. intros y [_ [->|[_ [Y _]]]]; [exact IH|congruence].
      + apply (sub_acc F OW (S (Z.to_nat (par k))) (par k)); auto; [apply (par_in k Hk)|].
        eapply part_step; [apply part_refl|apply child_link; auto].
  Qed.
  Lemma no_cycle F x : one_way F -> 0 <= x < len -> ~ path F x x.
  Proof.
    intros OW Hx P. pose proof (Acc_clos_trans Z (later F) x (acc F OW x Hx)) as A.
    induction A as [x _ IH]. exact (IH x P Hx P).
  Qed.
  Lemma geo_in x y : 0 < x < len -> d_ocean_parent (dp x) = false -> part_of deps y (sib x) -> 0 <= y < len.
  Proof.
    intros H E P. destruct (wplace x H) as [A _ _|_ _ _ B _ _ _ _ _ _ _ _]; [congruence|].
    destruct (part_front _ _ _ P) as [->|[q [L _]]]; [lia|]. pose proof (wlink n deps WF _ _ L). lia.
  Qed.

  Record jok (f : Z -> Qc) (jump : Z -> option Z) (F : Z -> bool) : Prop := {
    jk_jump : forall x y, jump x = Some y -> 0 <= y < len /\ ready f y /\ exits f x y /\ path F y x;
    jk_flag : forall x, F x = true -> 0 < x < len /\ full f x;
    jk_one : one_way F }.
  Lemma jok_mono f g jump F : mono f g -> jok f jump F -> jok g jump F.
  Proof.
    intros M [A B C]. constructor; auto.
    - intros x y H. destruct (A x y H) as [A1 [A2 [A3 A4]]]. split; auto. split; [apply (mn_ready _ _ M); auto|].
      split; [apply (exits_mono f); auto|auto].
    - intros x H. destruct (B x H). split; auto. apply (mn_full _ _ M); auto.
  Qed.

  (** *** the effect of a recursive call *)
  Record going (f : Z -> Qc) (F : Z -> bool) (root : Z) (extra : Qc) (g : Z -> Qc) (F' : Z -> bool) (nx : Z) (ex : Qc) (jump : Z -> option Z) : Prop := {
    go_fok : fok g; go_mono : mono f g; go_jok : jok g jump F'; go_F : forall i, F i = true -> F' i = true;
    go_in : 0 <= nx < len; go_ready : ready g nx; go_ex : (0 <= ex)%Qc;
    go_path : path F' nx root; go_exits : exits g root nx;
    go_le : forall x, 0 < x < len -> (f x <= V x)%Qc \/ x = root -> (g x <= V x)%Qc;
    go_sum : forall S d, closed S d -> (0 < d < len /\ full g d) \/
      (tsum S f + (if S root then extra else 0) <= tsum S g + (if S nx then ex else 0))%Qc;
    go_all : (tsum (fun _ => true) g + ex = tsum (fun _ => true) f + extra)%Qc }.

  Lemma go_ok jump root wv extra F nx wv' ex : fok (wat wv) -> ready (wat wv) root -> jok (wat wv) jump F ->
    0 < root < len -> (0 <= extra)%Qc ->
    step_spec jump root wv extra (Go nx wv' ex) ->
    length wv' = N /\ exists F', going (wat wv) F root extra (wat wv') F' nx ex jump.
  Proof.
    intros FO RD JO Hr He SP. pose proof n_pos as NP. set (f := wat wv) in *.
    (* the depression itself is full now *)
    assert (Hfill : forall g, kept wv root extra = V root -> (forall j, g j = if j =? root then V root else f j) ->
      fok g /\ mono f g /\ (forall S, (tsum S g = tsum S f + (if S root then V root - f root else 0))%Qc) /\ full g root /\
      (forall x, 0 < x < len -> (f x <= V x)%Qc \/ x = root -> (g x <= V x)%Qc)).
    { intros g KV J. assert (GR : g root = V root) by (rewrite J, Z.eqb_refl; reflexivity).
      assert (JN : forall j, j <> root -> g j = f j) by (intros j Hj; rewrite J; destruct (Z.eqb_spec j root); [contradiction|reflexivity]).
      destruct (upd_ok f g root FO) as [A [B C]]; auto; [lia|rewrite GR; apply V_nonneg; lia|rewrite GR; apply rdy_V; lia|
        intros _ _; unfold full; rewrite GR; apply Qcle_refl|intros Hm _; rewrite GR; apply wmeta; lia|].
      split; auto. split; auto. split; [intros S; rewrite C, GR; reflexivity|]. split; [unfold full; rewrite GR; apply Qcle_refl|].
      intros x Hx [H| ->]; [|rewrite GR; apply Qcle_refl]. destruct (Z.eq_dec x root) as [->|]; [rewrite GR; apply Qcle_refl|rewrite JN; auto]. }
    assert (EX : rest wv root extra = (f root + extra - kept wv root extra)%Qc) by reflexivity. pose proof fp_pos as FP.
    inversion SP as [|w0 j0 L J KV RP JJ|w0 L J KV RP JN NO SB|w0 L J KV RP JN NO SB|w0 L J KV RP JN NO]; subst; (split; [exact L|]).
    - (* jump *)
      destruct (Hfill (wat wv') KV J) as [G1 [G2 [G3 [G4 G5]]]]. exists F.
      destruct (jk_jump _ _ _ (jok_mono _ _ _ _ G2 JO) _ _ JJ) as [J1 [J2 [J3 J4]]]. constructor; auto; try (rewrite EX, KV in *).
      + apply (jok_mono f); auto.
      + qlra.
      + intros S d C. rewrite G3. destruct (S root) eqn:SR.
        * destruct (J3 S d C SR) as [-> | X]; [right|left; exact X]. qlra.
        * right. destruct (S nx); qlra.
      + rewrite G3. ring.
    - (* hop to the sibling *)
      destruct (Hfill (wat wv') KV J) as [G1 [G2 [G3 [G4 G5]]]].
      destruct (wplace root Hr) as [A1 A2 A3|A1 A2 A3 A4 A5 A6 A7 A8 A9 A10 A11 A12]; [congruence|].
      set (F' := fun i => (i =? root) || F i).
      assert (EXT : exits (wat wv') root (d_geolink (dp root))) by (apply exits_step; auto).
      exists F'. constructor; auto; try (rewrite EX, KV in *).
      + pose proof (jok_mono _ _ _ _ G2 JO) as [K1 K2 K3]. constructor.
        * intros x y H. destruct (K1 x y H) as [X1 [X2 [X3 X4]]]. split; auto. split; auto. split; auto.
          eapply path_mono; [|exact X4]. intros i Hi. unfold F'. rewrite Hi. apply orb_true_r.
        * intros x H. destruct (Z.eq_dec x root) as [Ex|Nx]; [rewrite Ex; auto|]. apply K2. unfold F' in H. destruct (Z.eqb_spec x root); [contradiction|exact H].
        * assert (FS : F (sib root) = false).
          { apply not_true_is_false. intros X. destruct (jk_flag _ _ _ JO _ X) as [_ Y]. unfold full in Y. fold f in SB. revert SB. apply Qcle_not_lt, Y. }
          intros x Hx Ho Fx. unfold F' in Fx |- *. destruct (Z.eqb_spec x root) as [Ex|Hne]; [rewrite Ex in *|].
          -- destruct (Z.eqb_spec (sib root) root); [congruence|]. cbn [orb]. exact FS.
          -- cbn [orb] in Fx. rewrite (K3 x Hx Ho Fx). rewrite orb_false_r. apply Z.eqb_neq. intros X.
             destruct (wplace x Hx) as [B1 B2 B3|B1 B2 B3 B4 B5 B6 B7 B8 B9 B10 B11 B12]; [congruence|]. rewrite X in B7. rewrite B7 in FS. congruence.
      + intros i Hi. unfold F'. rewrite Hi. apply orb_true_r.
      + pose proof (wf_size _ _ WF). lia.
      + left. lia.
      + qlra.
      + apply t_step. split; [lia|]. right. unfold F'. rewrite Z.eqb_refl. auto.
      + intros S d C. rewrite G3. destruct (S root) eqn:SR.
        * destruct (EXT S d C SR) as [-> | X]; [right|left; exact X]. qlra.
        * right. match goal with |- context [S ?k] => destruct (S k) end; qlra.
      + rewrite G3. ring.
    - (* up to the parent *)
      destruct (wplace root Hr) as [A1 A2 A3|A1 A2 A3 A4 A5 A6 A7 A8 A9 A10 A11 A12]; [congruence|].
      set (f1 := fun j => if j =? root then V root else f j).
      destruct (Hfill f1 KV (fun j => eq_refl)) as [G1 [G2 [G3 [G4 G5]]]].
      set (f2 := fun j => if j =? sib root then V (sib root) else f1 j).
      assert (F1S : f1 (sib root) = f (sib root)) by (unfold f1; destruct (Z.eqb_spec (sib root) root); [contradiction|reflexivity]).
      assert (VS : (0 <= V (sib root))%Qc) by (apply V_nonneg; lia).
      assert (VR : (0 <= V root)%Qc) by (apply V_nonneg; lia).
      assert (F2S : f2 (sib root) = V (sib root)) by (unfold f2; rewrite Z.eqb_refl; reflexivity).
      assert (F2N : forall j, j <> sib root -> f2 j = f1 j) by (intros j Hj; unfold f2; destruct (Z.eqb_spec j (sib root)); [contradiction|reflexivity]).
      assert (STEP2 : fok f2 /\ mono f1 f2 /\ forall S, (tsum S f2 = tsum S f1 + (if S (sib root) then V (sib root) - f (sib root) else 0))%Qc).
      { destruct (qeqP (f (sib root)) (V (sib root))) as [QE|QN].
        - assert (forall j, f2 j = f1 j).
          { intros j. unfold f2. destruct (Z.eqb_spec j (sib root)) as [->|]; [rewrite F1S; auto|reflexivity]. }
          split; [|split].
          + destruct G1 as [P M HE]. constructor; [intros; rewrite H; auto| |]; intros d Hd Hd'; unfold full; rewrite !H in *; [apply M|apply HE]; auto.
          + constructor; intros d Hd; unfold full, ready; rewrite H; auto.
          + intros S. rewrite (tsum_ext S f2 f1) by auto. rewrite QE. destruct (S _); ring.
        - assert (SB' : (V (sib root) < f (sib root))%Qc).
          { destruct (qltP (V (sib root)) (f (sib root))) as [|X]; auto. exfalso. apply QN. apply Qcle_antisym; auto. apply Qcnot_lt_le in X. exact X. }
          destruct (upd_ok f1 f2 (sib root) G1) as [X [Y Z]]; auto.
          + lia.
          + right; left. rewrite F1S. intros X. rewrite X in SB'. revert SB'. apply Qcle_not_lt, VS.
          + rewrite F2S. exact VS.
          + rewrite F2S. apply rdy_V; lia.
          + intros _ _. unfold full. rewrite F2S. apply Qcle_refl.
          + intros Hm _. rewrite F2S. apply wmeta; lia.
          + split; auto. split; auto. intros S. rewrite Z, F2S, F1S. reflexivity. }
      destruct STEP2 as [H1 [H2 H3]].
      assert (F2R : f2 root = V root) by (rewrite F2N by auto; unfold f1; rewrite Z.eqb_refl; reflexivity).
      assert (F2P : f2 (par root) = f (par root)).
      { rewrite F2N by lia. unfold f1. destruct (Z.eqb_spec (par root) root); [lia|reflexivity]. }
      assert (CH : full f2 (lch (par root)) /\ full f2 (rch (par root)) /\ (V (lch (par root)) + V (rch (par root)) = V root + V (sib root))%Qc).
      { unfold full. destruct A10 as [[-> ->]|[-> ->]]; rewrite F2R, F2S; split; try apply Qcle_refl; (split; [apply Qcle_refl|ring]). }
      destruct CH as [CL [CR CS]].
      assert (STEP3 : fok (wat wv') /\ mono f2 (wat wv') /\ (forall S, tsum S (wat wv') = tsum S f2) /\ ready (wat wv') (par root) /\
        (forall x, 0 < x < len -> (f2 x <= V x)%Qc -> (wat wv' x <= V x)%Qc)).
      { assert (JP : forall j, j <> par root -> wat wv' j = f2 j).
        { intros j Hj. rewrite J. destruct (Z.eqb_spec j root) as [->|]; [auto|]. destruct (Z.eqb_spec j (sib root)) as [->|]; [auto|].
          destruct (Z.eqb_spec j (par root)); [contradiction|]. rewrite F2N by auto. unfold f1. destruct (Z.eqb_spec j root); [contradiction|reflexivity]. }
        assert (JQ : wat wv' (par root) = if qeq (f (par root)) 0 then (V root + V (sib root))%Qc else f (par root)).
        { rewrite J. destruct (Z.eqb_spec (par root) root) as [X|_]; [lia|]. destruct (Z.eqb_spec (par root) (sib root)) as [X|_]; [lia|].
          rewrite Z.eqb_refl. reflexivity. }
        destruct (qeqP (f (par root)) 0) as [Z0|Z0].
        - destruct (merge_ok f2 (wat wv') (par root) H1) as [X1 [X2 [X3 [X4 X5]]]]; auto; [lia|rewrite F2P; auto|rewrite JQ, CS; reflexivity|].
          split; auto. split; auto. split; auto. split; auto. intros x Hx Hl. destruct (Z.eq_dec x (par root)) as [->|]; [exact X5|rewrite JP; auto].
        - assert (JJ : forall j, wat wv' j = f2 j).
          { intros j. destruct (Z.eq_dec j (par root)) as [->|]; [rewrite JQ, F2P; reflexivity|auto]. }
          split; [|split; [|split; [|split]]].
          + destruct H1 as [P M HE]. constructor; [intros; rewrite JJ; auto| |]; intros d Hd Hd'; unfold full; rewrite !JJ in *; [apply M|apply HE]; auto.
          + constructor; intros d Hd; unfold full, ready; rewrite JJ; auto.
          + intros S. apply tsum_ext. auto.
          + right; left. rewrite JJ, F2P. exact Z0.
          + intros x Hx. rewrite JJ. auto. }
      destruct STEP3 as [K1 [K2 [K3 [K4 K5]]]].
      assert (MM : mono f (wat wv')) by (eapply mono_trans; [exact G2|]; eapply mono_trans; [exact H2|exact K2]).
      assert (FR : full (wat wv') root) by (apply (mn_full _ _ K2); [lia|]; unfold full; rewrite F2R; apply Qcle_refl).
      assert (FS : full (wat wv') (sib root)) by (apply (mn_full _ _ K2); [lia|]; unfold full; rewrite F2S; apply Qcle_refl).
      assert (EXT : exits (wat wv') root (par root)) by (apply exits_step; auto).
      assert (EXT2 : exits (wat wv') (sib root) (par root)) by (rewrite <- A8; apply exits_step; auto).
      exists F. constructor; auto; try (rewrite EX, KV in *).
      + apply (jok_mono f); auto.
      + pose proof (wf_size _ _ WF). lia.
      + fold f in SB |- *. qlra.
      + apply t_step. split; [lia|]. auto.
      + intros x Hx Hl. apply K5; auto. destruct (Z.eq_dec x (sib root)) as [->|]; [rewrite F2S; apply Qcle_refl|]. rewrite F2N by auto. apply G5; auto.
      + intros S d C. rewrite K3, H3, G3. fold f in SB |- *.
        assert (S1 : S root = true -> S (par root) = true \/ 0 < d < len /\ full (wat wv') d) by (intros X; apply (EXT S d C X)).
        assert (S2 : S (sib root) = true -> S (par root) = true \/ 0 < d < len /\ full (wat wv') d) by (intros X; apply (EXT2 S d C X)).
        destruct (S root), (S (sib root)), (S (par root));
          try (destruct (S1 eq_refl) as [Y|Y]; [discriminate Y|left; exact Y]);
          try (destruct (S2 eq_refl) as [Y|Y]; [discriminate Y|left; exact Y]); right; qlra.
      + rewrite K3, H3, G3. fold f. ring.
    - (* into the depression, or ocean, on the other side *)
      destruct (Hfill (wat wv') KV J) as [G1 [G2 [G3 [G4 G5]]]]. exists F.
      destruct (wplace root Hr) as [A1 A2 A3|A1 A2 A3 A4 A5 A6 A7 A8 A9 A10 A11 A12]; [|congruence].
      assert (EXT : exits (wat wv') root (par root)) by (apply exits_step; auto).
      constructor; auto; try (rewrite EX, KV in *).
      + apply (jok_mono f); auto.
      + pose proof (wf_size _ _ WF). lia.
      + left. lia.
      + qlra.
      + apply t_step. split; [lia|]. auto.
      + intros S d C. rewrite G3. destruct (S root) eqn:SR.
        * destruct (EXT S d C SR) as [-> | X]; [right|left; exact X]. qlra.
        * right. match goal with |- context [S ?k] => destruct (S k) end; qlra.
      + rewrite G3. ring.
  Qed.

  (** *** the effect of OverflowInto *)
  Record result (f : Z -> Qc) (F : Z -> bool) (root : Z) (extra : Qc) (r : Z) (g : Z -> Qc) (F' : Z -> bool) (jump' : Z -> option Z) : Prop := {
    rs_fok : fok g; rs_mono : mono f g; rs_jok : jok g jump' F'; rs_F : forall i, F i = true -> F' i = true;
    rs_in : 0 <= r < len; rs_ready : ready g r; rs_path : r = root \/ path F' r root; rs_exits : exits g root r;
    rs_le : forall x, 0 < x < len -> x <> stop -> (f x <= V x)%Qc \/ x = root -> (g x <= V x)%Qc;
    rs_sum : forall S d, closed S d -> (0 < d < len /\ full g d) \/
      (tsum S f + (if S root then extra else 0) - fp_error <= tsum S g)%Qc;
    rs_all : (tsum (fun _ => true) g <= tsum (fun _ => true) f + extra)%Qc }.

  Lemma stop_result f g F jump root extra : fok f -> ready f root -> jok f jump F -> 0 <= root < len -> root = stop \/ root = 0 -> (0 <= extra)%Qc ->
    (forall j, g j = if j =? root then (f root + extra)%Qc else f j) -> result f F root extra root g F jump.
  Proof.
    intros FO RD JO Hr Hs He J. pose proof fp_pos.
    assert (GR : g root = (f root + extra)%Qc) by (rewrite J, Z.eqb_refl; reflexivity).
    assert (JN : forall j, j <> root -> g j = f j) by (intros j Hj; rewrite J; destruct (Z.eqb_spec j root); [contradiction|reflexivity]).
    pose proof (fk_pos _ FO root) as P0.
    destruct (upd_ok f g root FO) as [A [B C]]; auto; [rewrite GR; qlra|rewrite GR; apply (rdy_le root (f root)); auto; qlra|
      intros _ X; unfold full in *; rewrite GR; qlra|intros Hm _; pose proof (ready_held f root FO RD ltac:(lia)); rewrite GR; qlra|].
    constructor; auto.
    - apply (jok_mono f); auto.
    - apply (mn_ready _ _ B); auto.
    - apply exits_refl.
    - intros x Hx Hs' [Hl| ->]; [|destruct Hs; [congruence|lia]]. destruct (Z.eq_dec x root) as [->|]; [destruct Hs; [congruence|lia]|]. rewrite JN by auto. exact Hl.
    - intros S d _. right. rewrite C, GR. destruct (S root); qlra.
    - rewrite C, GR. qlra.
  Qed.
  Lemma stash_result f g F jump root extra wv : f = wat wv -> fok f -> ready f root -> jok f jump F -> 0 < root < len -> (0 <= extra)%Qc ->
    (forall j, g j = if j =? root then kept wv root extra else f j) -> (rest wv root extra < fp_error)%Qc -> result f F root extra root g F jump.
  Proof.
    intros -> FO RD JO Hr He J RP. pose proof fp_pos. set (f := wat wv) in *.
    assert (GR : g root = kept wv root extra) by (rewrite J, Z.eqb_refl; reflexivity).
    assert (JN : forall j, j <> root -> g j = f j) by (intros j Hj; rewrite J; destruct (Z.eqb_spec j root); [contradiction|reflexivity]).
    pose proof (fk_pos _ FO root) as P0. assert (VR : (0 <= V root)%Qc) by (apply V_nonneg; lia).
    unfold kept, rest, kept in *. fold f in GR, RP.
    destruct (upd_ok f g root FO) as [A [B C]]; auto.
    - lia.
    - rewrite GR. qlra.
    - destruct (qltP (f root + extra) (V root)) as [X|X].
      + apply (rdy_le root (f root)); auto. rewrite GR. qlra.
      + replace (g root) with (V root); [apply rdy_V; lia|]. rewrite GR. qlra.
    - intros _ X; unfold full in *; rewrite GR; qlra.
    - intros Hm _. pose proof (ready_held f root FO RD ltac:(lia)). destruct (wmeta root) as [_ [_ [_ [_ [_ [_ [_ [_ [_ VV]]]]]]]]]; [lia|]. rewrite GR. qlra.
    - assert (LE : (g root <= V root)%Qc) by (rewrite GR; qlra).
      constructor; auto.
      + apply (jok_mono f); auto.
      + lia.
      + apply (mn_ready _ _ B); auto. lia.
      + apply exits_refl.
      + intros x Hx Hs' [Hl| ->]; [|exact LE]. destruct (Z.eq_dec x root) as [->|]; [exact LE|]. rewrite JN by auto. exact Hl.
      + intros S d _. right. rewrite C, GR. destruct (S root); qlra.
      + rewrite C, GR. qlra.
  Qed.

  Lemma overflow_ok : forall k jump root wv extra F L, length wv = N -> fok (wat wv) -> ready (wat wv) root -> jok (wat wv) jump F ->
    0 <= root < len -> (0 <= extra)%Qc -> NoDup L -> (forall z, In z L -> 0 <= z < len /\ path F root z) -> (N < k + length L)%nat ->
    exists r wv' jump' F', OverflowInto k deps stop jump root wv extra = Some (Ok (r, wv', jump')) /\ length wv' = N /\
      result (wat wv) F root extra r (wat wv') F' jump'.
  Proof.
    induction k as [|k IH]; intros jump root wv extra F L HL FO RD JO Hr He ND PL HK.
    { exfalso. assert (length L <= length (zrange 0 N))%nat; [|rewrite zrange_length in *; lia].
      apply NoDup_incl_length; auto. intros z Hz. apply zrange_In. destruct (PL z Hz). lia. }
    cbn [OverflowInto].
    destruct (Z.eq_dec root stop) as [Es|Ns]; [|destruct (Z.eq_dec root 0) as [Es|N0]].
    1, 2: destruct (step_stop jump root wv extra HL Hr ltac:(auto)) as [wv' [E [L' J]]]; rewrite E;
      exists root, wv', jump, F; split; [reflexivity|]; split; [exact L'|]; apply stop_result; auto.
    assert (Hr' : 0 < root < len) by lia.
    destruct (step_ok jump root wv extra HL Hr' Ns He) as [nx [E SP]]. rewrite E.
    destruct nx as [r wv'|nx wv1 ex].
    { inversion SP as [w0 L' J RP| | | |]; subst. exists r, wv', jump, F. split; [reflexivity|]. split; [exact L'|]. eapply stash_result; eauto. }
    destruct (go_ok jump root wv extra F nx wv1 ex FO RD JO Hr' He SP) as [L1 [F1 [G1 G2 G3 G4 G5 G6 G7 G8 G9 G10 G11 G12]]].
    destruct (IH jump nx wv1 ex F1 (root :: L)) as [r [wv' [jump' [F' [E' [L' [R1 R2 R3 R4 R5 R6 R7 R8 R9 R10 R11]]]]]]]; auto.
    { constructor; auto. intros X. destruct (PL root X) as [_ P]. eapply no_cycle; [exact (jk_one _ _ _ JO)|exact Hr|exact P]. }
    { intros z [<-|Hz]; [split; [lia|exact G8]|]. destruct (PL z Hz) as [Z1 Z2]. split; auto. eapply t_trans; [exact G8|]. eapply path_mono; eauto. }
    { cbn [length]. lia. }
    rewrite E'. exists r, wv', (jset jump' root r), F'. split; [reflexivity|]. split; [exact L'|].
    assert (PR : path F' r root).
    { assert (path F' nx root) by (eapply path_mono; eauto). destruct R7 as [->|R7]; [auto|]. eapply t_trans; eauto. }
    assert (ER : exits (wat wv') root r) by (eapply exits_trans; [apply (exits_mono (wat wv1)); eauto|exact R8]).
    constructor; auto.
    - eapply mono_trans; eauto.
    - destruct R3 as [K1 K2 K3]. constructor; auto. intros x y H. unfold jset in H. destruct (Z.eqb_spec x root) as [->|]; [|auto].
      injection H as <-. auto.
    - intros S d C. destruct (R10 S d C) as [X|X]; [auto|]. destruct (G11 S d C) as [Y|Y].
      + left. split; [tauto|]. apply (mn_full _ _ R2); tauto.
      + right. qlra.
    - qlra.
  Qed.
End Route.
