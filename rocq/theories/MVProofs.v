From Coq Require Import ZArith List Lia Bool Arith.
From Verif Require Import Base MVModel.
Local Open Scope nat_scope.

(** An assignment is careful if its target does not currently wrap external memory and is not its own source. *)
Definition careful (o : mop) (s : st) : Prop :=
  match o with
  | VCopyAssign i _ => forall oi, objs s i = Some oi -> v_owned oi = true
  | VMoveAssign i j => i <> j /\ forall oi, objs s i = Some oi -> v_owned oi = true
  | _ => True
  end.
Fixpoint careful_run (l : list mop) (s : st) : Prop :=
  match l with [] => True | o :: l' => careful o s /\ match mstep o s with Some s' => careful_run l' s' | None => True end end.

Record VInv (s : st) : Prop := {
  V_owned : forall i o, objs s i = Some o -> v_owned o = true -> v_data o = None \/ exists n, v_data o = Some (Own n) /\ n < next s /\ ~ In (Own n) (freed s);
  V_wrap : forall i o, objs s i = Some o -> v_owned o = false -> exists k, v_data o = Some (Ext k);
  V_sep : forall i j oi oj n, i <> j -> objs s i = Some oi -> objs s j = Some oj -> v_data oi = Some (Own n) -> v_data oj = Some (Own n) -> False;
  V_freed : forall b, In b (freed s) -> exists n, b = Own n /\ n < next s;
  V_nodup : NoDup (freed s);
  V_leak : forall n, n < next s -> In (Own n) (freed s) \/ exists i o, objs s i = Some o /\ v_data o = Some (Own n) /\ v_owned o = true }.

Lemma oset_same f i o : oset f i o i = o. Proof. unfold oset. rewrite Nat.eqb_refl. auto. Qed.
Lemma oset_other f i o j : j <> i -> oset f i o j = f j.
Proof. unfold oset. intros H. apply Nat.eqb_neq in H. rewrite H. auto. Qed.
Lemma oset_cases f i o j : (j = i /\ oset f i o j = o) \/ (j <> i /\ oset f i o j = f j).
Proof. destruct (Nat.eq_dec j i) as [->|H]; [left; split; auto; apply oset_same|right; split; auto; apply oset_other; auto]. Qed.

Lemma VInv_owned_own s i o n : VInv s -> objs s i = Some o -> v_data o = Some (Own n) -> v_owned o = true /\ n < next s /\ ~ In (Own n) (freed s).
Proof.
  intros HI Ho Hd. destruct (v_owned o) eqn:E.
  - destruct (V_owned _ HI i o Ho E) as [H|(m & H & H1 & H2)]; [congruence|]. assert (m = n) by congruence. subst. auto.
  - destruct (V_wrap _ HI i o Ho E). congruence.
Qed.

(** Allocation into a slot whose previous owned block (if any) is freed. *)
Lemma VInv_alloc s i l n d : VInv s -> (objs s i = None /\ d = None \/ exists oi, objs s i = Some oi /\ v_owned oi = true /\ d = v_data oi) ->
  VInv (alloc i l n (del d (freed s)) s).
Proof.
  intros HI Hd.
  assert (D : forall b, In b (del d (freed s)) <-> In b (freed s) \/ d = Some b).
  { intros b. destruct d; cbn; [|intuition congruence]. split; intros [H|H]; auto; [subst; auto|inversion H; auto]. }
  assert (Dn : forall b, d = Some b -> exists m, b = Own m /\ m < next s /\ ~ In (Own m) (freed s) /\ exists oi, objs s i = Some oi /\ v_data oi = Some (Own m)).
  { intros b E. destruct Hd as [[_ ->]|(oi & Ho & Hw & ->)]; [discriminate|].
    destruct (V_owned _ HI i oi Ho Hw) as [H|(m & H & H1 & H2)]; [congruence|]. exists m. split; [congruence|]. eauto. }
  constructor; cbn [alloc objs next freed].
  - intros j o Hj Hw. destruct (oset_cases (objs s) i (Some (mkV (Some (Own (next s))) true n)) j) as [[-> E]|[Hne E]]; rewrite E in Hj.
    + inversion Hj; subst. right. exists (next s). cbn. split; [auto|]. split; [lia|]. rewrite D. intros [H|H].
      * destruct (V_freed _ HI _ H) as (m & Em & Hm). inversion Em. lia.
      * destruct (Dn _ H) as (m & Em & Hm & _). inversion Em. lia.
    + destruct (V_owned _ HI j o Hj Hw) as [|(m & H & H1 & H2)]; auto. right. exists m. split; [auto|]. split; [lia|].
      rewrite D. intros [|H3]; [auto|]. destruct (Dn _ H3) as (m' & Em & _ & _ & oi & Ho & Hdi). inversion Em; subst m'.
      apply (V_sep _ HI i j oi o m); auto.
  - intros j o Hj Hw. destruct (oset_cases (objs s) i (Some (mkV (Some (Own (next s))) true n)) j) as [[-> E]|[Hne E]]; rewrite E in Hj.
    + inversion Hj; subst. discriminate.
    + apply (V_wrap _ HI j o); auto.
  - intros a b oa ob m Hab Ha Hb Hda Hdb.
    destruct (oset_cases (objs s) i (Some (mkV (Some (Own (next s))) true n)) a) as [[-> E]|[Hne E]]; rewrite E in Ha;
    destruct (oset_cases (objs s) i (Some (mkV (Some (Own (next s))) true n)) b) as [[-> E']|[Hne' E']]; rewrite E' in Hb.
    + congruence.
    + inversion Ha; subst oa. cbn in Hda. inversion Hda; subst m. destruct (VInv_owned_own _ _ _ _ HI Hb Hdb) as (_ & H & _). lia.
    + inversion Hb; subst ob. cbn in Hdb. inversion Hdb; subst m. destruct (VInv_owned_own _ _ _ _ HI Ha Hda) as (_ & H & _). lia.
    + eapply (V_sep _ HI a b); eauto.
  - intros b Hb. apply D in Hb as [Hb|Hb].
    + destruct (V_freed _ HI _ Hb) as (m & -> & Hm). eauto.
    + destruct (Dn _ Hb) as (m & -> & Hm & _). eauto.
  - destruct d as [b|]; cbn; [|apply HI]. constructor; [|apply HI]. destruct (Dn _ eq_refl) as (m & -> & _ & H & _). auto.
  - intros m Hm. destruct (Nat.eq_dec m (next s)) as [->|Hne].
    + right. exists i. eexists. rewrite oset_same. split; [reflexivity|]. auto.
    + destruct (V_leak _ HI m) as [H|(j & o & Hj & H1 & H2)]; [lia|left; apply D; auto|].
      destruct (Nat.eq_dec j i) as [->|Hji].
      * destruct Hd as [[E _]|(oi & Ho & Hw & Ed)]; [congruence|]. left. apply D. right. congruence.
      * right. exists j, o. rewrite oset_other by auto. auto.
Qed.

Lemma mstep_inv s o s' : VInv s -> careful o s -> mstep o s = Some s' -> VInv s'.
Proof.
  intros HI HC E. destruct o as [i|i n v|i k n|i j|i j|i j|i j|i n junk|i k v|i]; cbn [mstep careful] in *.
  - destruct (objs s i) as [|] eqn:Ei; [discriminate|]. injection E as <-.
    constructor; cbn [objs next freed]; try apply HI.
    + intros a o Ha. destruct (oset_cases (objs s) i (Some (mkV None true 0)) a) as [[-> Ea]|[Hne Ea]]; rewrite Ea in Ha; [injection Ha as <-; auto|apply (V_owned _ HI a); auto].
    + intros a o Ha. destruct (oset_cases (objs s) i (Some (mkV None true 0)) a) as [[-> Ea]|[Hne Ea]]; rewrite Ea in Ha; [injection Ha as <-; discriminate|apply (V_wrap _ HI a); auto].
    + intros a b oa ob m Hab Ha Hb Hda Hdb.
      destruct (oset_cases (objs s) i (Some (mkV None true 0)) a) as [[-> Ea]|[Hne Ea]]; rewrite Ea in Ha; [injection Ha as <-; discriminate|].
      destruct (oset_cases (objs s) i (Some (mkV None true 0)) b) as [[-> Eb]|[Hne' Eb]]; rewrite Eb in Hb; [injection Hb as <-; discriminate|].
      eapply (V_sep _ HI a b); eauto.
    + intros m Hm. destruct (V_leak _ HI m Hm) as [|(a & o & Ha & H1 & H2)]; auto. right. exists a, o. rewrite oset_other; auto. congruence.
  - destruct (objs s i) as [|] eqn:Ei; [discriminate|]. injection E as <-.
    apply (VInv_alloc s i (repeat v n) n None HI). auto.
  - destruct (objs s i) as [|] eqn:Ei; [discriminate|]. injection E as <-.
    set (o0 := mkV (Some (Ext k)) false n).
    constructor; cbn [objs next freed]; try apply HI.
    + intros a o Ha. destruct (oset_cases (objs s) i (Some o0) a) as [[-> Ea]|[Hne Ea]]; rewrite Ea in Ha; [injection Ha as <-; discriminate|apply (V_owned _ HI a); auto].
    + intros a o Ha. destruct (oset_cases (objs s) i (Some o0) a) as [[-> Ea]|[Hne Ea]]; rewrite Ea in Ha; [injection Ha as <-; exists k; auto|apply (V_wrap _ HI a); auto].
    + intros a b oa ob m Hab Ha Hb Hda Hdb.
      destruct (oset_cases (objs s) i (Some o0) a) as [[-> Ea]|[Hne Ea]]; rewrite Ea in Ha; [injection Ha as <-; discriminate|].
      destruct (oset_cases (objs s) i (Some o0) b) as [[-> Eb]|[Hne' Eb]]; rewrite Eb in Hb; [injection Hb as <-; discriminate|].
      eapply (V_sep _ HI a b); eauto.
    + intros m Hm. destruct (V_leak _ HI m Hm) as [|(a & o & Ha & H1 & H2)]; auto. right. exists a, o. rewrite oset_other; auto. congruence.
  - destruct (objs s i) as [|] eqn:Ei; [discriminate|]. destruct (objs s j) as [oj|]; [|discriminate]. injection E as <-.
    apply (VInv_alloc s i _ _ None HI). auto.
  - destruct (objs s i) as [|] eqn:Ei; [discriminate|]. destruct (objs s j) as [oj|] eqn:Ej; [|discriminate]. injection E as <-.
    assert (Hij : i <> j) by congruence.
    assert (G : forall a o, oset (oset (objs s) i (Some oj)) j (Some (mkV None true 0)) a = Some o ->
      (a = j /\ o = mkV None true 0) \/ (a = i /\ o = oj) \/ (a <> i /\ a <> j /\ objs s a = Some o)).
    { intros a o Ha. destruct (Nat.eq_dec a j) as [->|]; [rewrite oset_same in Ha; injection Ha as <-; auto|].
      rewrite oset_other in Ha by auto. destruct (Nat.eq_dec a i) as [->|]; [rewrite oset_same in Ha; injection Ha as <-; auto|].
      rewrite oset_other in Ha by auto. auto 6. }
    constructor; cbn [objs next freed]; try apply HI.
    + intros a o Ha Hw. destruct (G _ _ Ha) as [[-> ->]|[[-> ->]|(? & ? & Ha')]]; auto; eapply (V_owned _ HI); eauto.
    + intros a o Ha Hw. destruct (G _ _ Ha) as [[-> ->]|[[-> ->]|(? & ? & Ha')]]; [discriminate| |]; eapply (V_wrap _ HI); eauto.
    + intros a b oa ob m Hab Ha Hb Hda Hdb.
      destruct (G _ _ Ha) as [[-> ->]|[[-> ->]|(? & ? & Ha')]]; [discriminate| |];
      (destruct (G _ _ Hb) as [[-> ->]|[[-> ->]|(? & ? & Hb')]]; [discriminate| |]); try congruence.
      * eapply (V_sep _ HI j b); eauto.
      * eapply (V_sep _ HI a j); eauto.
      * eapply (V_sep _ HI a b); eauto.
    + intros m Hm. destruct (V_leak _ HI m Hm) as [|(a & o & Ha & H1 & H2)]; auto. right.
      destruct (Nat.eq_dec a j) as [->|Haj].
      * exists i, oj. rewrite oset_other by auto. rewrite oset_same. split; [auto|]. assert (o = oj) by congruence. subst; auto.
      * exists a, o. rewrite oset_other by auto. rewrite oset_other by congruence. auto.
  - destruct (objs s i) as [oi|] eqn:Ei; [|discriminate]. destruct (objs s j) as [oj|]; [|discriminate]. injection E as <-.
    apply (VInv_alloc s i _ _ (v_data oi) HI). right. exists oi. split; [auto|]. split; [apply HC; auto|auto].
  - destruct HC as [Hij HC]. destruct (objs s i) as [oi|] eqn:Ei; [|discriminate]. destruct (objs s j) as [oj|] eqn:Ej; [|discriminate].
    destruct (Nat.eqb_spec i j); [contradiction|]. injection E as <-. specialize (HC _ eq_refl).
    assert (G : forall a o, oset (oset (objs s) i (Some (mkV (v_data oj) (v_owned oj) (v_size oj)))) j (Some (mkV None true 0)) a = Some o ->
      (a = j /\ o = mkV None true 0) \/ (a = i /\ o = oj) \/ (a <> i /\ a <> j /\ objs s a = Some o)).
    { intros a o Ha. destruct (Nat.eq_dec a j) as [->|]; [rewrite oset_same in Ha; injection Ha as <-; auto|].
      rewrite oset_other in Ha by auto. destruct (Nat.eq_dec a i) as [->|]; [rewrite oset_same in Ha; injection Ha as <-; destruct oj; auto|].
      rewrite oset_other in Ha by auto. auto 6. }
    assert (D : forall b, In b (del (v_data oi) (freed s)) <-> In b (freed s) \/ v_data oi = Some b).
    { intros b. destruct (v_data oi); cbn; [|intuition congruence]. split; intros [H|H]; auto; [subst; auto|inversion H; auto]. }
    assert (Dn : forall b, v_data oi = Some b -> exists m, b = Own m /\ m < next s /\ ~ In (Own m) (freed s)).
    { intros b Eb. destruct (V_owned _ HI i oi Ei HC) as [H|(m & H & H1 & H2)]; [congruence|]. exists m. split; [congruence|auto]. }
    constructor; cbn [move_assign objs next freed]; try apply HI.
    + intros a o Ha Hw. destruct (G _ _ Ha) as [[-> ->]|[[-> ->]|(? & ? & Ha')]]; auto.
      * destruct (V_owned _ HI j oj Ej Hw) as [|(m & H & H1 & H2)]; auto. right. exists m. split; [auto|]. split; [auto|].
        rewrite D. intros [|H3]; auto. apply (V_sep _ HI i j oi oj m); auto.
      * destruct (V_owned _ HI a o Ha' Hw) as [|(m & H3 & H1 & H2)]; auto. right. exists m. split; [auto|]. split; [auto|].
        rewrite D. intros [|H4]; auto. apply (V_sep _ HI i a oi o m); auto.
    + intros a o Ha Hw. destruct (G _ _ Ha) as [[-> ->]|[[-> ->]|(? & ? & Ha')]]; [discriminate| |]; eapply (V_wrap _ HI); eauto.
    + intros a b oa ob m Hab Ha Hb Hda Hdb.
      destruct (G _ _ Ha) as [[-> ->]|[[-> ->]|(? & ? & Ha')]]; [discriminate| |];
      (destruct (G _ _ Hb) as [[-> ->]|[[-> ->]|(? & ? & Hb')]]; [discriminate| |]); try congruence.
      * eapply (V_sep _ HI j b); eauto.
      * eapply (V_sep _ HI a j); eauto.
      * eapply (V_sep _ HI a b); eauto.
    + intros b Hb. apply D in Hb as [Hb|Hb]; [apply (V_freed _ HI); auto|]. destruct (Dn _ Hb) as (m & -> & Hm & _). eauto.
    + destruct (v_data oi) as [b|] eqn:Eb; cbn; [|apply HI]. constructor; [|apply HI]. destruct (Dn _ eq_refl) as (m & -> & _ & H). auto.
    + intros m Hm. destruct (V_leak _ HI m Hm) as [|(a & o & Ha & H1 & H2)]; [left; apply D; auto|].
      destruct (Nat.eq_dec a i) as [->|Hai].
      { left. apply D. right. congruence. }
      right. destruct (Nat.eq_dec a j) as [->|Haj].
      * exists i. eexists. rewrite oset_other by auto. rewrite oset_same. split; [reflexivity|]. cbn. assert (o = oj) by congruence. subst; auto.
      * exists a, o. rewrite oset_other by auto. rewrite oset_other by congruence. auto.
  - destruct (objs s i) as [oi|] eqn:Ei; [|discriminate]. destruct (Nat.eqb (v_size oi) n); [injection E as <-; auto|].
    destruct (v_owned oi) eqn:Ew; [|injection E as <-; auto]. injection E as <-.
    apply (VInv_alloc s i _ _ (v_data oi) HI). right. exists oi. auto.
  - destruct (objs s i) as [oi|] eqn:Ei; [|discriminate]. destruct (v_data oi); [|discriminate]. destruct (Nat.ltb k (v_size oi)); [|discriminate].
    injection E as <-. constructor; apply HI.
  - destruct (objs s i) as [oi|] eqn:Ei; [|discriminate]. injection E as <-.
    assert (G : forall a o, oset (objs s) i None a = Some o -> a <> i /\ objs s a = Some o).
    { intros a o Ha. destruct (oset_cases (objs s) i None a) as [[-> Ea]|[Hne Ea]]; rewrite Ea in Ha; [discriminate|auto]. }
    assert (D : forall b, In b (if v_owned oi then del (v_data oi) (freed s) else freed s) <-> In b (freed s) \/ (v_owned oi = true /\ v_data oi = Some b)).
    { intros b. destruct (v_owned oi); [|intuition congruence]. destruct (v_data oi); cbn; [|intuition congruence].
      split; intros H; [destruct H; auto; subst; auto|destruct H as [H|[_ H]]; auto; inversion H; auto]. }
    constructor; cbn [objs next freed].
    + intros a o Ha Hw. apply G in Ha as [Hne Ha]. destruct (V_owned _ HI a o Ha Hw) as [|(m & H & H1 & H2)]; auto. right. exists m.
      split; [auto|]. split; [auto|]. rewrite D. intros [|[_ H4]]; auto. apply (V_sep _ HI i a oi o m); auto.
    + intros a o Ha Hw. apply G in Ha as [Hne Ha]. eapply (V_wrap _ HI); eauto.
    + intros a b oa ob m Hab Ha Hb. apply G in Ha as [_ Ha]. apply G in Hb as [_ Hb]. eapply (V_sep _ HI a b); eauto.
    + intros b Hb. apply D in Hb as [Hb|[Hw Hb]]; [apply (V_freed _ HI); auto|].
      destruct (V_owned _ HI i oi Ei Hw) as [H|(m & H & H1 & H2)]; [congruence|]. exists m. split; [congruence|auto].
    + destruct (v_owned oi) eqn:Ew; [|apply HI]. destruct (v_data oi) as [b|] eqn:Ed; cbn; [|apply HI]. constructor; [|apply HI].
      destruct (V_owned _ HI i oi Ei Ew) as [H|(m & H & H1 & H2)]; congruence.
    + intros m Hm. destruct (V_leak _ HI m Hm) as [|(a & o & Ha & H1 & H2)]; [left; apply D; auto|].
      destruct (Nat.eq_dec a i) as [->|Hai]; [left; apply D; right; assert (o = oi) by congruence; subst; auto|].
      right. exists a, o. rewrite oset_other by auto. auto.
Qed.

Lemma mrun_inv l : forall s s', VInv s -> careful_run l s -> mrun l s = Some s' -> VInv s'.
Proof.
  induction l as [|o l IH]; intros s s' HI HC E; cbn in *; [injection E as <-; auto|].
  destruct HC as [HC1 HC2]. destruct (mstep o s) as [s1|] eqn:E1; [|discriminate].
  apply (IH s1); auto. apply (mstep_inv s o); auto.
Qed.
Lemma VInv_0 m : VInv (st0 m).
Proof. constructor; cbn; intros; try discriminate; try contradiction; try lia. constructor. Qed.

(** Careful programs never free external memory, never free twice and leak nothing. *)
Theorem careful_correct m l s : careful_run l (st0 m) -> mrun l (st0 m) = Some s ->
  (forall k, ~ In (Ext k) (freed s)) /\ NoDup (freed s) /\
  (forall i o b, objs s i = Some o -> v_data o = Some b -> ~ In b (freed s)) /\
  ((forall i, objs s i = None) -> forall n, n < next s -> In (Own n) (freed s)).
Proof.
  intros HC E. pose proof (mrun_inv l _ _ (VInv_0 m) HC E) as HI.
  split; [|split; [apply HI|split]].
  - intros k Hk. destruct (V_freed _ HI _ Hk) as (n & H & _). discriminate.
  - intros i o b Ho Hb Hin. destruct (V_freed _ HI _ Hin) as (n & -> & _).
    destruct (VInv_owned_own _ _ _ _ HI Ho Hb) as (_ & _ & H). auto.
  - intros HN n Hn. destruct (V_leak _ HI n Hn) as [|(i & o & Ho & _)]; auto. rewrite HN in Ho. discriminate.
Qed.

(** Exactly when a step frees external memory. *)
Theorem frees_external s o s' k : mstep o s = Some s' -> ~ In (Ext k) (freed s) ->
  (In (Ext k) (freed s') <->
    exists i oi, objs s i = Some oi /\ v_data oi = Some (Ext k) /\
      ((exists j, o = VCopyAssign i j) \/ (exists j, o = VMoveAssign i j /\ i <> j) \/
       (v_owned oi = true /\ (o = VDestroy i \/ exists n junk, o = VResize i n junk /\ v_size oi <> n)))).
Proof.
  intros E Hk.
  assert (D : forall d b l, In b (del d l) <-> In b l \/ d = Some b).
  { intros d b l. destruct d; cbn; [|intuition congruence]. split; intros [H|H]; auto; [subst; auto|inversion H; auto]. }
  assert (HF : forall i oi d, objs s i = Some oi -> v_data oi = d -> (In (Ext k) (del d (freed s)) <-> v_data oi = Some (Ext k))).
  { intros i oi d Hi <-. rewrite D. tauto. }
  destruct o as [i|i n v|i q n|i j|i j|i j|i j|i n junk|i q v|i]; cbn [mstep] in E;
    (destruct (objs s i) as [oi|] eqn:Ei); try discriminate E.
  1-2: injection E as <-; cbn; split; [tauto|intros (? & ? & ? & ? & [(? & H)|[(? & H & _)|(_ & [H|(? & ? & H & _)])]]); discriminate H].
  - injection E as <-; cbn; split; [tauto|intros (? & ? & ? & ? & [(? & H)|[(? & H & _)|(_ & [H|(? & ? & H & _)])]]); discriminate H].
  - destruct (objs s j); [|discriminate]. injection E as <-; cbn; split; [tauto|intros (? & ? & ? & ? & [(? & H)|[(? & H & _)|(_ & [H|(? & ? & H & _)])]]); discriminate H].
  - destruct (objs s j); [|discriminate]. injection E as <-; cbn; split; [tauto|intros (? & ? & ? & ? & [(? & H)|[(? & H & _)|(_ & [H|(? & ? & H & _)])]]); discriminate H].
  - destruct (objs s j); [|discriminate]. injection E as <-; cbn [alloc freed]. rewrite (HF i oi _ Ei eq_refl). split.
    + intros H. exists i, oi. split; [auto|]. split; [auto|]. left. eauto.
    + intros (a & oa & Ha & Hd & [(b & H)|[(b & H & _)|(_ & [H|(? & ? & H & _)])]]); try discriminate H. inversion H; subst. congruence.
  - destruct (objs s j) eqn:Ej; [|discriminate]. destruct (Nat.eqb_spec i j) as [->|Hij]; injection E as <-; cbn [move_assign freed].
    + split; [tauto|]. intros (a & oa & Ha & Hd & [(b & H)|[(b & H & Hb)|(_ & [H|(? & ? & H & _)])]]); try discriminate H. inversion H; subst. congruence.
    + rewrite (HF i oi _ Ei eq_refl). split.
      * intros H. exists i, oi. split; [auto|]. split; [auto|]. right; left. eauto.
      * intros (a & oa & Ha & Hd & [(b & H)|[(b & H & _)|(_ & [H|(? & ? & H & _)])]]); try discriminate H. inversion H; subst. congruence.
  - destruct (Nat.eqb_spec (v_size oi) n) as [Es|Es]; [|destruct (v_owned oi) eqn:Ew]; injection E as <-; cbn [alloc freed].
    + split; [tauto|]. intros (a & oa & Ha & Hd & [(b & H)|[(b & H & Hb)|(_ & [H|(? & ? & H & Hne)])]]); try discriminate H. inversion H; subst. congruence.
    + rewrite (HF i oi _ Ei eq_refl). split.
      * intros H. exists i, oi. split; [auto|]. split; [auto|]. right; right. split; [auto|]. right. eauto.
      * intros (a & oa & Ha & Hd & [(b & H)|[(b & H & _)|(_ & [H|(? & ? & H & _)])]]); try discriminate H. inversion H; subst. congruence.
    + split; [tauto|]. intros (a & oa & Ha & Hd & [(b & H)|[(b & H & Hb)|(Hw & [H|(? & ? & H & Hne)])]]); try discriminate H. inversion H; subst. congruence.
  - destruct (v_data oi); [|discriminate]. destruct (Nat.ltb q (v_size oi)); [|discriminate]. injection E as <-; cbn; split; [tauto|intros (? & ? & ? & ? & [(? & H)|[(? & H & _)|(_ & [H|(? & ? & H & _)])]]); discriminate H].
  - injection E as <-; cbn [freed]. destruct (v_owned oi) eqn:Ew.
    + rewrite (HF i oi _ Ei eq_refl). split.
      * intros H. exists i, oi. split; [auto|]. split; [auto|]. right; right. auto.
      * intros (a & oa & Ha & Hd & [(b & H)|[(b & H & _)|(_ & [H|(? & ? & H & _)])]]); try discriminate H. inversion H; subst. congruence.
    + split; [tauto|]. intros (a & oa & Ha & Hd & [(b & H)|[(b & H & Hb)|(Hw & [H|(? & ? & H & Hne)])]]); try discriminate H. inversion H; subst. congruence.
Qed.

(** Copies are deep. *)
Theorem copy_deep s i j s' : VInv s -> mstep (VCopyCtor i j) s = Some s' ->
  exists oi oj, objs s' i = Some oi /\ objs s j = Some oj /\ contents s' oi = contents s oj /\ v_owned oi = true /\ v_size oi = v_size oj /\
    (forall k v s2, mstep (VWrite i k v) s' = Some s2 -> 
       forall a oa, a <> i -> objs s2 a = Some oa -> objs s a = Some oa /\ contents s2 oa = contents s oa).
Proof.
  intros HI E. cbn [mstep] in E. destruct (objs s i) eqn:Ei; [discriminate|]. destruct (objs s j) as [oj|] eqn:Ej; [|discriminate].
  injection E as <-. eexists. exists oj. cbn [alloc objs]. rewrite oset_same. split; [reflexivity|]. split; [auto|].
  split; [|split; [auto|split; [auto|]]].
  - unfold contents at 1. cbn [v_data v_size mem alloc]. unfold mset. destruct (block_eq_dec (Own (next s)) (Own (next s))); [|contradiction].
    unfold contents. destruct (v_data oj); [|destruct (v_size oj); auto]. rewrite firstn_firstn, Nat.min_id. auto.
  - intros k v s2 E2 a oa Ha Hoa. cbn [mstep alloc objs] in E2. rewrite oset_same in E2. cbn [v_data v_size] in E2.
    destruct (Nat.ltb k (v_size oj)); [|discriminate]. injection E2 as <-. cbn [objs] in Hoa. rewrite oset_other in Hoa by auto.
    split; auto. unfold contents. cbn [mem]. destruct (v_data oa) as [b|] eqn:Eb; auto.
    unfold mset. destruct (block_eq_dec b (Own (next s))) as [->|]; auto.
    destruct (VInv_owned_own _ _ _ _ HI Hoa Eb) as (_ & H & _). lia.
Qed.
