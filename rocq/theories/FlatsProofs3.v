From Coq Require Import ZArith List Lia Bool Permutation.
From Verif Require Import Base Res BFS RasterSpec RasterFacts FlowModel FlowSpec FlowProofs FlatsModel FlatsSpec FlatsProofs FlatsProofs2.
Open Scope Z_scope.
Notation "g @ c" := (g (fst c) (snd c)) (at level 9, no associativity).

(** ** FindFlats *)
Lemma interior_touching w h p q : inside w h p -> ~ on_edge w h (fst p) (snd p) -> touching p q -> inside w h q.
Proof.
  intros Hp He T. apply touching_iff in T. destruct T as [n [_ ->]]. unfold inside, step8. cbn [fst snd].
  apply interior_nbr; auto.
Qed.

Lemma edge_false w h p : inside w h p -> isEdgeCell w h (fst p) (snd p) = false <-> ~ on_edge w h (fst p) (snd p).
Proof. intros Hp. rewrite (on_edge_iff w h _ _ Hp). destruct (isEdgeCell _ _ _ _); intuition congruence. Qed.

Lemma find_flat_cell_ok e nd w h p : inside w h p ->
  exists v, find_flat_cell e nd w h (fst p) (snd p) = Ok v /\
    ((v = -1 /\ ~ has_data e nd w h p) \/ (v = 1 /\ flat_cell e nd w h p) \/
     (v = 0 /\ has_data e nd w h p /\ ~ flat_cell e nd w h p)).
Proof.
  intros Hp. unfold find_flat_cell. rewrite gat_in by auto. cbn [bind].
  destruct (Z.eqb_spec (e @ p) nd) as [En|En].
  - exists FLAT_NO_DATA. split; [reflexivity|]. left. split; [reflexivity|]. unfold has_data, elev_at. tauto.
  - assert (Hd : has_data e nd w h p) by (split; auto).
    destruct (isEdgeCell w h (fst p) (snd p)) eqn:HE.
    + exists NOT_A_FLAT. split; [reflexivity|]. right. right. split; [reflexivity|]. split; auto.
      intros [_ [X _]]. apply X. apply on_edge_iff; auto.
    + apply edge_false in HE; auto.
      assert (Hn : forall n, in_raster w h (fst p + dx D8 n) (snd p + dy D8 n)) by (intros n; apply interior_nbr; auto).
      rewrite (anyM_ok _ _ (fun n => (e @ (step8 p n) <? e @ p) || (e @ (step8 p n) =? nd)))
        by (intros n _; rewrite gat_ok by auto; reflexivity).
      cbn [bind]. destruct (existsb _ _) eqn:X.
      * exists NOT_A_FLAT. split; [reflexivity|]. right. right. split; [reflexivity|]. split; auto.
        apply existsb_exists in X. destruct X as [n [Hnd Hx]]. intros [_ [_ F]].
        destruct (F (step8 p n)) as [Fd Fe]; [apply touching_iff; eauto|].
        apply orb_true_iff in Hx. unfold elev_at in *. destruct Fd as [_ Fd]. unfold elev_at in Fd.
        destruct Hx as [Hx|Hx]; [apply Z.ltb_lt in Hx; lia|apply Z.eqb_eq in Hx; contradiction].
      * exists IS_A_FLAT. split; [reflexivity|]. right. left. split; [reflexivity|].
        split; auto. split; auto. intros q T. apply touching_iff in T. destruct T as [n [Hnd ->]].
        assert (Y : (e @ (step8 p n) <? e @ p) || (e @ (step8 p n) =? nd) = false).
        { destruct (_ || _) eqn:Y; auto. assert (existsb (fun n => (e @ (step8 p n) <? e @ p) || (e @ (step8 p n) =? nd)) (dirs D8) = true) by (apply existsb_exists; eauto). congruence. }
        apply orb_false_iff in Y. destruct Y as [Y1 Y2]. apply Z.ltb_ge in Y1. apply Z.eqb_neq in Y2.
        split; [split; [apply Hn|auto]|auto].
Qed.

Lemma FindFlats_ok e nd w h order : (forall c, In c order <-> inside w h c) ->
  exists st, FindFlats e nd w h order = Ok st /\ forall p, inside w h p ->
    ((st @ p = -1 /\ ~ has_data e nd w h p) \/ (st @ p = 1 /\ flat_cell e nd w h p) \/
     (st @ p = 0 /\ has_data e nd w h p /\ ~ flat_cell e nd w h p)).
Proof.
  intros Ho. unfold FindFlats.
  match goal with |- context [forM order ?b _] => set (body := b) end.
  destruct (forM_inv (fun done (st : grid Z) => forall p, In p done ->
    ((st @ p = -1 /\ ~ has_data e nd w h p) \/ (st @ p = 1 /\ flat_cell e nd w h p) \/
     (st @ p = 0 /\ has_data e nd w h p /\ ~ flat_cell e nd w h p))) body order) with (s := fun _ _ : Z => 0) as [st [E H]].
  - intros done c rest st Eo HI. unfold body.
    assert (Hc : inside w h c) by (apply Ho; rewrite Eo; apply in_or_app; right; left; auto).
    destruct (find_flat_cell_ok e nd w h c Hc) as [v [Ev Hv]]. rewrite Ev. cbn [bind].
    eexists. split; [reflexivity|]. intros p Hp. rewrite gset_cell. destruct (ceqb_spec p c) as [->|Hn]; auto.
    apply HI. apply in_app_or in Hp. destruct Hp as [?|[?|[]]]; auto. congruence.
  - intros p [].
  - exists st. split; auto. intros p Hp. apply H. apply Ho; auto.
Qed.

Lemma flat_cell_data e nd w h p : flat_cell e nd w h p -> has_data e nd w h p.
Proof. intros H. exact (proj1 H). Qed.
Lemma no_flow_data e nd w h p : no_flow_cell e nd w h p -> has_data e nd w h p.
Proof. intros H. exact (proj1 H). Qed.

(** ** GetFlatMask *)
Definition good_mask (e : grid Z) (nd w h : Z) (flat : cell -> Prop) (mask labels : grid Z) : Prop :=
  (forall p, inside w h p -> mask_value e nd w h flat p (mask @ p)) /\
  (forall p, 0 <= labels @ p) /\
  (forall p, 0 < labels @ p <-> drainable e nd w h flat p) /\
  (forall p q, drainable e nd w h flat p -> (labels @ q = labels @ p <-> same_flat e nd w h p q)).

Lemma GetFlatMask_ok e nd w h o1 o2 :
  (forall c, In c o1 <-> inside w h c) -> (forall c, In c o2 <-> inside w h c) ->
  exists mask labels, GetFlatMask e nd w h o1 o2 = Some (Ok (mask, labels)) /\
    good_mask e nd w h (flat_cell e nd w h) mask labels.
Proof.
  intros H1 H2. unfold GetFlatMask. destruct (FindFlats_ok e nd w h o1 H1) as [st [E H]]. rewrite E. cbn [bindF].
  apply flat_mask_ok; auto.
  - intros p Hp. cbn. destruct (H p Hp) as [[-> X]|[[-> X]|[-> [X Y]]]]; cbn.
    + tauto.
    + split; [discriminate|]. intros N. exfalso. apply N. exact (proj1 X).
    + split; [discriminate|]. tauto.
  - intros p Hp. cbn. destruct (H p Hp) as [[-> X]|[[-> X]|[-> [X Y]]]]; cbn.
    + split; [discriminate|]. intros N. exfalso. apply X. exact (proj1 N).
    + tauto.
    + split; [discriminate|]. tauto.
  - apply flat_cell_data.
  - intros p Hp. cbn. destruct (H p (proj1 Hp)) as [[-> X]|[[-> X]|[-> [X Y]]]]; cbn; try reflexivity. contradiction.
  - right. intros p q [_ [_ F]] T. apply F; auto.
Qed.

(** ** Changing the DEM *)
Lemma alter_ok next w h mask labels e order : NoDup order -> (forall c, In c order -> inside w h c) ->
  exists e', alter_dem next w h mask labels e order = Ok e' /\
    forall p, e' @ p = if existsb (ceqb p) order && negb (labels @ p =? 0) then Nat.iter (Z.to_nat (mask @ p)) next (e @ p) else e @ p.
Proof.
  intros ND Hin. unfold alter_dem.
  match goal with |- context [forM order ?b _] => set (body := b) end.
  destruct (forM_inv (fun done (g : grid Z) => forall p,
     g @ p = if existsb (ceqb p) done && negb (labels @ p =? 0) then Nat.iter (Z.to_nat (mask @ p)) next (e @ p) else e @ p) body order)
     with (s := e) as [e' [E H]].
  - intros done c rest g Eo HI. unfold body.
    assert (Hc : inside w h c) by (apply Hin; rewrite Eo; apply in_or_app; right; left; auto).
    assert (Hn : existsb (ceqb c) done = false).
    { destruct (existsb _ _) eqn:X; auto. apply existsb_exists in X. destruct X as [d [Hd Ed]].
      destruct (ceqb_spec c d); [subst d|discriminate]. rewrite Eo in ND. apply NoDup_remove_2 in ND.
      exfalso. apply ND. apply in_or_app; auto. }
    rewrite gat_in by auto. cbn [bind]. destruct (Z.eqb_spec (labels @ c) 0) as [L|L].
    + exists g. split; [reflexivity|]. intros p. rewrite HI, existsb_app. cbn [existsb].
      destruct (ceqb_spec p c) as [->|Hne]; [rewrite L; cbn [Z.eqb negb]; rewrite !andb_false_r; reflexivity|].
      rewrite !orb_false_r. reflexivity.
    + rewrite !gat_in by auto. cbn [bind]. eexists. split; [reflexivity|]. intros p. rewrite gset_cell, existsb_app. cbn [existsb].
      destruct (ceqb_spec p c) as [->|Hne].
      * rewrite orb_true_r. cbn [orb andb]. destruct (Z.eqb_spec (labels @ c) 0); [contradiction|]. cbn [negb].
        rewrite HI, Hn. reflexivity.
      * rewrite !orb_false_r. apply HI.
  - intros p. reflexivity.
  - exists e'. auto.
Qed.

Lemma interior_cells_In w h p : In p (interior_cells w h) <-> inside w h p /\ ~ on_edge w h (fst p) (snd p).
Proof.
  destruct p as [x y]. unfold interior_cells, cellt. rewrite in_prod_iff, !zrange_In. unfold inside, on_edge, in_raster. cbn [fst snd]. lia.
Qed.
Lemma interior_cells_NoDup w h : NoDup (interior_cells w h).
Proof. apply list_prod_NoDup; apply zrange_NoDup. Qed.

Lemma next_float_iter top n : forall v, v + Z.of_nat n <= top -> Nat.iter n (next_float top) v = v + Z.of_nat n.
Proof.
  induction n as [|n IH]; intros v Hv; [cbn; lia|]. change (Nat.iter (S n) (next_float top) v) with (next_float top (Nat.iter n (next_float top) v)).
  rewrite IH by lia. unfold next_float. destruct (Z.eqb_spec (v + Z.of_nat n) top); lia.
Qed.
Lemma next_int_iter n : forall v, Z.of_nat n <= v -> Nat.iter n next_int v = v - Z.of_nat n.
Proof.
  induction n as [|n IH]; intros v Hv; [cbn; lia|]. change (Nat.iter (S n) next_int v) with (next_int (Nat.iter n next_int v)).
  rewrite IH by lia. unfold next_int. destruct (Z.eqb_spec (v - Z.of_nat n) 0); [lia|]. destruct (Z.gtb_spec (v - Z.of_nat n) 0); lia.
Qed.

Section Altered.
  Variables (e : grid Z) (nd w h : Z) (flat : cell -> Prop) (mask labels : grid Z).
  Hypothesis flat_dec : forall p, flat p \/ ~ flat p.
  Hypothesis flat_data : forall p, flat p -> has_data e nd w h p.
  Hypothesis flat_interior : forall p, flat p -> ~ on_edge w h (fst p) (snd p).
  Hypothesis HG : good_mask e nd w h flat mask labels.
  Notation drain := (drainable e nd w h flat).

  Lemma mask_pos p : inside w h p -> 0 <= mask @ p.
  Proof. intros Hp. eapply (mask_value_nonneg e nd w h flat); auto. apply HG; auto. Qed.

  Lemma descends p : flat p -> drain p -> exists q, level_step e nd w h p q /\ mask @ q < mask @ p.
  Proof. intros. apply (mask_descends e nd w h flat) with (mask := fun p => mask @ p); auto. apply HG. Qed.

  (** effect of alter_dem on the cells, for a given total-effect function *)
  Definition altered (next : Z -> Z) (e' : grid Z) : Prop := forall p, inside w h p ->
    (drain p -> ~ on_edge w h (fst p) (snd p) -> e' @ p = Nat.iter (Z.to_nat (mask @ p)) next (e @ p)) /\
    (~ drain p \/ on_edge w h (fst p) (snd p) -> e' @ p = e @ p).

  Lemma alter_altered next order : Permutation order (interior_cells w h) ->
    exists e', alter_dem next w h mask labels e order = Ok e' /\ altered next e'.
  Proof.
    intros Ho. destruct (alter_ok next w h mask labels e order) as [e' [E H]].
    - eapply Permutation_NoDup; [symmetry; eauto|apply interior_cells_NoDup].
    - intros c Hc. apply (interior_cells_In w h). eapply Permutation_in; eauto.
    - exists e'. split; auto. intros p Hp. rewrite H. destruct HG as [_ [Hn [Hd _]]]. split.
      + intros D NE. assert (X : existsb (ceqb p) order = true).
        { apply existsb_exists. exists p. split; [|destruct (ceqb_spec p p); congruence].
          eapply Permutation_in; [symmetry; eauto|]. apply interior_cells_In; auto. }
        rewrite X. apply Hd in D. destruct (Z.eqb_spec (labels @ p) 0); [lia|]. reflexivity.
      + intros [D|D].
        * assert (L : labels @ p = 0) by (specialize (Hn p); rewrite <- Hd in D; lia).
          rewrite L. cbn [Z.eqb negb]. rewrite andb_false_r. reflexivity.
        * destruct (existsb (ceqb p) order) eqn:X; [|reflexivity]. exfalso.
          apply existsb_exists in X. destruct X as [d [Hd' Ed]]. destruct (ceqb_spec p d); [subst d|discriminate].
          eapply Permutation_in in Hd'; [|eauto]. apply interior_cells_In in Hd'. tauto.
  Qed.

  (** floating point DEM: drained flats get a downhill neighbour *)
  Lemma altered_descends top e' p : altered (next_float top) e' -> flat p -> drain p -> e @ p + mask @ p <= top ->
    exists q, level_step e nd w h p q /\ e' @ q < e' @ p.
  Proof.
    intros HA Hf Hd Ht. destruct (descends p Hf Hd) as [q [Hs Hm]]. exists q. split; auto.
    assert (Hq : inside w h q) by apply Hs. assert (Hp : inside w h p) by (apply (flat_data p Hf)).
    assert (Eq : e @ p = e @ q) by apply Hs.
    pose proof (mask_pos q Hq). pose proof (mask_pos p Hp).
    rewrite (proj1 (HA p Hp) Hd (flat_interior p Hf)). rewrite next_float_iter by lia. rewrite Z2Nat.id by lia.
    destruct (isEdgeCell w h (fst q) (snd q)) eqn:HE.
    - rewrite (proj2 (HA q Hq)) by (right; apply on_edge_iff; auto). lia.
    - apply edge_false in HE; auto.
      assert (Dq : drain q) by (eapply drainable_flat; eauto; apply sflat_step; auto).
      rewrite (proj1 (HA q Hq) Dq HE). rewrite next_float_iter by lia. rewrite Z2Nat.id by lia. lia.
  Qed.

  (** integer DEM: the cells are lowered instead, and the gradient points the wrong way *)
  Lemma altered_int_rises e' p : altered next_int e' -> flat p -> drain p -> mask @ p <= e @ p ->
    exists q, level_step e nd w h p q /\ mask @ q < mask @ p /\ e' @ p < e' @ q /\ e' @ p = e @ p - mask @ p.
  Proof.
    intros HA Hf Hd Ht. destruct (descends p Hf Hd) as [q [Hs Hm]]. exists q. split; auto. split; auto.
    assert (Hq : inside w h q) by apply Hs. assert (Hp : inside w h p) by (apply (flat_data p Hf)).
    assert (Eq : e @ p = e @ q) by apply Hs.
    pose proof (mask_pos q Hq). pose proof (mask_pos p Hp).
    rewrite (proj1 (HA p Hp) Hd (flat_interior p Hf)). rewrite next_int_iter by lia. rewrite Z2Nat.id by lia.
    split; [|lia]. destruct (isEdgeCell w h (fst q) (snd q)) eqn:HE.
    - rewrite (proj2 (HA q Hq)) by (right; apply on_edge_iff; auto). lia.
    - apply edge_false in HE; auto.
      assert (Dq : drain q) by (eapply drainable_flat; eauto; apply sflat_step; auto).
      rewrite (proj1 (HA q Hq) Dq HE). rewrite next_int_iter by lia. rewrite Z2Nat.id by lia. lia.
  Qed.
End Altered.

(** ** D8 directions over resolved flats *)
Section Masked.
  Variables (mask labels : grid Z) (w h x y : Z).
  Hypothesis Hin : in_raster w h x y.
  Hypothesis Hint : ~ on_edge w h x y.
  Let v (n : Z) : Z := mask (x + dx D8 (Z.to_nat n)) (y + dy D8 (Z.to_nat n)).
  Let same (n : Z) : Prop := labels (x + dx D8 (Z.to_nat n)) (y + dy D8 (Z.to_nat n)) = labels x y.

  Definition minv (k : Z) (st : Z * Z) : Prop :=
    (snd st = 0 /\ fst st = mask x y /\ forall n, 1 <= n <= k -> same n -> mask x y <= v n) \/
    (1 <= snd st <= k /\ same (snd st) /\ fst st = v (snd st) /\ v (snd st) < mask x y /\
     forall n, 1 <= n <= k -> same n -> v (snd st) <= v n /\ (v (snd st) = v n -> preferred (snd st) n)).

  Lemma mstep k st : 0 <= k < 8 -> minv k st ->
    exists st', masked_step mask labels w h x y (Z.to_nat (k + 1)) st = Ok st' /\ minv (k + 1) st'.
  Proof.
    intros Hk I. destruct st as [m fd]. unfold masked_step.
    rewrite !gat_ok by (try apply interior_nbr; auto). cbn [bind].
    destruct (Z.eqb_spec (labels (x + dx D8 (Z.to_nat (k + 1))) (y + dy D8 (Z.to_nat (k + 1)))) (labels x y)) as [SM|SM]; cbn [negb].
    2:{ exists (m, fd). split; [reflexivity|]. unfold minv in *. cbn [fst snd] in *.
        destruct I as [[E1 [E2 I]]|[E1 [E0 [E2 [E3 I]]]]]; [left|right].
        - split; [auto|]. split; [auto|]. intros n Hn Sn. destruct (Z.eq_dec n (k + 1)) as [->|]; [contradiction|apply I; auto; lia].
        - split; [lia|]. split; [auto|]. split; [auto|]. split; [auto|]. intros n Hn Sn.
          destruct (Z.eq_dec n (k + 1)) as [->|]; [contradiction|apply I; auto; lia]. }
    fold (same (k + 1)) in SM. fold (v (k + 1)). rewrite odd_nat, Z2Nat.id by lia.
    unfold minv in *. cbn [fst snd] in *.
    destruct ((v (k + 1) <? m) || ((v (k + 1) =? m) && (fd >? 0) && Z.even fd && negb (Z.even (k + 1)))) eqn:B.
    - exists (v (k + 1), k + 1). split; [reflexivity|]. cbn [fst snd]. right.
      apply orb_true_iff in B. destruct B as [B|B].
      + apply Z.ltb_lt in B.
        assert (Hm : m <= mask x y) by lia.
        split; [lia|]. split; [auto|]. split; [auto|]. split; [lia|]. intros n Hn Sn.
        destruct (Z.eq_dec n (k + 1)) as [->|Hne].
        * split; [lia|]. intros _. unfold preferred. destruct (straight_dec (k + 1)); [left|right]; (split; [auto|]); [lia|split; [auto|lia]].
        * destruct I as [[E1 [E2 I]]|[E1 [E0 [E2 [E3 I]]]]].
          -- assert (mask x y <= v n) by (apply I; auto; lia). lia.
          -- destruct (I n) as [I1 _]; auto; lia.
      + rewrite !andb_true_iff in B. destruct B as [[[B1 B2] B3] B4].
        apply Z.eqb_eq in B1. apply Z.gtb_lt in B2.
        destruct I as [[E1 [E2 I]]|[E1 [E0 [E2 [E3 I]]]]]; [lia|].
        assert (S1 : straight (k + 1)) by (apply even_straight; [lia|]; destruct (Z.even (k + 1)); auto).
        assert (S2 : ~ straight fd) by (intros C; apply even_straight in C; [congruence|lia]).
        split; [lia|]. split; [auto|]. split; [auto|]. split; [lia|]. intros n Hn Sn.
        destruct (Z.eq_dec n (k + 1)) as [->|Hne].
        * split; [lia|]. intros _. left. split; [auto|lia].
        * destruct (I n) as [I1 I2]; [lia|auto|]. split; [lia|]. intros E. left. split; [auto|].
          intros Sn'. destruct I2 as [[C _]|[_ [C _]]]; [lia|contradiction|contradiction].
    - exists (m, fd). split; [reflexivity|]. cbn [fst snd].
      apply orb_false_iff in B. destruct B as [B1 B2]. apply Z.ltb_ge in B1.
      destruct I as [[E1 [E2 I]]|[E1 [E0 [E2 [E3 I]]]]].
      + left. split; [auto|]. split; [auto|]. intros n Hn Sn. destruct (Z.eq_dec n (k + 1)) as [->|]; [lia|apply I; auto; lia].
      + right. split; [lia|]. split; [auto|]. split; [auto|]. split; [auto|]. intros n Hn Sn.
        destruct (Z.eq_dec n (k + 1)) as [->|]; [|apply I; auto; lia].
        split; [lia|]. intros E. rewrite <- E, E2 in B2. rewrite Z.eqb_refl in B2.
        replace (fd >? 0) with true in B2 by (symmetry; apply Z.gtb_lt; lia). cbn [andb] in B2.
        destruct (Z.even fd) eqn:Ev.
        * cbn [andb] in B2. apply negb_false_iff in B2. right.
          assert (~ straight fd) by (intros C; apply even_straight in C; [congruence|lia]).
          assert (~ straight (k + 1)) by (intros C; apply even_straight in C; [congruence|lia]).
          split; [auto|]. split; [auto|lia].
        * left. split; [apply even_straight; [lia|auto]|]. intros; lia.
  Qed.

  Lemma mloop : forall (k : nat), (k <= 8)%nat ->
    exists st, forM (seq 1 k) (masked_step mask labels w h x y) (mask x y, 0) = Ok st /\ minv (Z.of_nat k) st.
  Proof.
    induction k as [|k IH]; intros Hk.
    - exists (mask x y, 0). split; [reflexivity|]. left. cbn [fst snd]. split; [auto|]. split; [auto|]. intros n Hn. lia.
    - destruct IH as [st [E I]]; [lia|]. rewrite seq_S, forM_app, E. cbn [bind forM].
      destruct (mstep (Z.of_nat k) st) as [st' [E' I']]; [lia|auto|].
      replace (Z.to_nat (Z.of_nat k + 1)) with (1 + k)%nat in E' by lia.
      rewrite E'. cbn [bind]. exists st'. split; [auto|]. rewrite Nat2Z.inj_succ. exact I'.
  Qed.

  (** direction [d]: towards the smallest mask value among the neighbours with the same label, if that is
      smaller than the cell's own; ties as for D8 *)
  Definition mask_direction (d : Z) : Prop :=
    (d = 0 /\ forall n x' y', toward n x y x' y' -> labels x' y' = labels x y -> mask x y <= mask x' y') \/
    (exists xd yd, toward d x y xd yd /\ labels xd yd = labels x y /\ mask xd yd < mask x y /\
       forall n x' y', toward n x y x' y' -> labels x' y' = labels x y ->
         mask xd yd <= mask x' y' /\ (mask xd yd = mask x' y' -> preferred d n)).

  Lemma masked_ok : exists d, d8_masked_FlowDir mask labels w h x y = Ok d /\ mask_direction d.
  Proof.
    unfold d8_masked_FlowDir. rewrite gat_ok by auto. cbn [bind].
    destruct (mloop 8) as [[m d] [E I]]; [lia|]. unfold dirs. cbn [nmax]. unfold NO_FLOW. rewrite E. cbn [bind snd].
    exists d. split; [auto|]. destruct I as [[E1 [E2 I]]|[E1 [E0 [E2 [E3 I]]]]]; cbn [fst snd] in *.
    - left. split; [auto|]. intros n x' y' T. apply toward_iff in T. destruct T as [Hn [-> ->]]. apply I. lia.
    - right. exists (x + dx D8 (Z.to_nat d)), (y + dy D8 (Z.to_nat d)).
      split; [apply toward_iff; split; [lia|auto]|]. split; [exact E0|]. split; [auto|].
      intros n x' y' T. apply toward_iff in T. destruct T as [Hn [-> ->]]. apply I. lia.
  Qed.
End Masked.

Lemma toward_touching d p q : toward d (fst p) (snd p) (fst q) (snd q) -> touching p q.
Proof.
  intros H. apply toward_iff in H. destruct H as [Hd [E1 E2]]. apply touching_iff. exists (Z.to_nat d).
  split; [apply dirs_In; cbn; lia|]. destruct p, q. unfold step8. cbn [fst snd] in *. congruence.
Qed.
Lemma touching_toward p q : touching p q -> exists d, 1 <= d <= 8 /\ toward d (fst p) (snd p) (fst q) (snd q).
Proof.
  intros H. apply touching_iff in H. destruct H as [n [Hn ->]]. apply dirs_In in Hn. cbn in Hn.
  exists (Z.of_nat n). split; [lia|]. apply toward_iff. rewrite Nat2Z.id. unfold step8. cbn [fst snd]. split; [lia|auto].
Qed.

Lemma d8_flow_flats_ok mask labels w h order fd : NoDup order ->
  (forall c, In c order -> inside w h c /\ ~ on_edge w h (fst c) (snd c)) ->
  (forall p, inside w h p -> 0 <= mask @ p) ->
  exists fd', d8_flow_flats mask labels w h order fd = Ok fd' /\
    forall p, (In p order -> fd @ p = 0 -> mask_direction mask labels (fst p) (snd p) (fd' @ p)) /\
              (~ In p order \/ fd @ p <> 0 -> fd' @ p = fd @ p).
Proof.
  intros ND Hin Hm. unfold d8_flow_flats.
  match goal with |- context [forM order ?b _] => set (body := b) end.
  destruct (forM_inv (fun done (g : grid Z) => forall p,
    (In p done -> fd @ p = 0 -> mask_direction mask labels (fst p) (snd p) (g @ p)) /\
    (~ In p done \/ fd @ p <> 0 -> g @ p = fd @ p)) body order) with (s := fd) as [fd' [E H]].
  - intros done c rest g Eo HI. unfold body.
    assert (Hc : In c order) by (rewrite Eo; apply in_or_app; right; left; auto).
    destruct (Hin c Hc) as [Hci Hce].
    assert (Hn : ~ In c done).
    { rewrite Eo in ND. apply NoDup_remove_2 in ND. intros X. apply ND. apply in_or_app; auto. }
    rewrite gat_in by auto. cbn [bind]. destruct (Z.eqb_spec (mask @ c) (-1)) as [X|_]; [specialize (Hm c Hci); lia|].
    rewrite gat_in by auto. cbn [bind]. rewrite (proj2 (HI c)) by auto.
    destruct (Z.eqb_spec (fd @ c) NO_FLOW) as [F|F].
    + destruct (masked_ok mask labels w h (fst c) (snd c) Hci Hce) as [d [Ed Hd]]. rewrite Ed. cbn [bind].
      eexists. split; [reflexivity|]. intros p. rewrite gset_cell. destruct (ceqb_spec p c) as [->|Hne].
      * split; [auto|]. intros [X|X]; [exfalso; apply X; apply in_or_app; right; left; auto|contradiction].
      * destruct (HI p) as [H1 H2]. rewrite in_app_iff. cbn [In]. split.
        -- intros [?|[?|[]]]; [auto|congruence].
        -- intros [X|X]; apply H2; auto.
    + exists g. split; [reflexivity|]. intros p. destruct (HI p) as [H1 H2]. rewrite in_app_iff. cbn [In]. split.
      * intros [?|[<-|[]]]; [auto|contradiction].
      * intros [X|X]; apply H2; auto.
  - intros p. split; [intros []|auto].
  - exists fd'. auto.
Qed.

(** The status raster made of D8 flow directions. *)
Lemma resolve_flats_barnes_ok e nd w h order fd :
  Permutation order (cells w h) -> d8_flow_directions e nd w h order = Ok fd ->
  (forall p, inside w h p -> (fd @ p = 255 <-> ~ has_data e nd w h p) /\ (fd @ p = 0 <-> no_flow_cell e nd w h p) /\
     (has_data e nd w h p -> 0 <= fd @ p <= 8 /\ right_direction e w h (fst p) (snd p) (fd @ p))) /\
  exists mask labels, resolve_flats_barnes e fd w h = Some (Ok (mask, labels)) /\
    good_mask e nd w h (no_flow_cell e nd w h) mask labels.
Proof.
  intros Ho E. destruct (d8_flow_directions_ok e nd w h order) as [fd' [E' H]].
  { intros [a b] Hab. apply cells_In. eapply Permutation_in; eauto. }
  rewrite E in E'. injection E' as <-.
  assert (S : forall p, inside w h p -> (fd @ p = 255 <-> ~ has_data e nd w h p) /\ (fd @ p = 0 <-> no_flow_cell e nd w h p) /\
     (has_data e nd w h p -> 0 <= fd @ p <= 8 /\ right_direction e w h (fst p) (snd p) (fd @ p))).
  { intros [x y] Hp. cbn [fst snd] in *. destruct (H x y) as [H1 _].
    destruct H1 as [Hnd Hd]; [eapply Permutation_in; [symmetry; eauto|]; apply cells_In; exact Hp|].
    unfold has_data, elev_at. cbn [fst snd].
    destruct (Z.eq_dec (e x y) nd) as [En|En].
    - rewrite (Hnd En). split; [tauto|]. split; [|tauto]. split; [discriminate|]. intros [[_ N] _]. contradiction.
    - destruct (Hd En) as [R1 [R2 _]]. split; [split; [lia|tauto]|]. split; [|auto].
      assert (HD : has_data e nd w h (x, y)) by (split; auto).
      destruct R2 as [R2 R3]. split.
      + intros F. rewrite F in *. destruct (isEdgeCell w h x y) eqn:HE.
        * apply on_edge_iff in HE; auto. specialize (R2 HE). inversion R2.
        * assert (NE : ~ on_edge w h x y) by (rewrite on_edge_iff by auto; congruence).
          split; auto. split; auto. intros q T. destruct (R3 Hp NE) as [[_ R]|[xd [yd [T' _]]]]; [|inversion T'].
          apply touching_toward in T. destruct T as [d [_ T]]. eapply R. exact T.
      + intros [_ [NE F]]. cbn [fst snd] in NE. destruct (R3 Hp NE) as [[R _]|[xd [yd [T [Hlt _]]]]]; auto.
        assert (e x y <= e xd yd); [|lia]. apply (F (xd, yd)). apply (toward_touching (fd x y) (x, y) (xd, yd)). exact T. }
  split; [exact S|]. unfold resolve_flats_barnes. apply flat_mask_ok.
  - intros p Hp. cbn. rewrite Z.eqb_eq. apply S; auto.
  - intros p Hp. cbn. rewrite Z.eqb_eq. apply S; auto.
  - apply no_flow_data.
  - intros p Hp. reflexivity.
  - left. reflexivity.
  - intros c. apply cells_inside.
Qed.
