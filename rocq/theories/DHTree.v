(** Building the hierarchy from the outlets (phase 2). *)
From Coq Require Import ZArith List Lia Bool Permutation Sorting.Sorted.
From Verif Require Import Base Res UFModel UFProofs UFSpec FlowModel FlatsSpec DHModel DHSpec.
Open Scope Z_scope.

(** ** Union-find: merging two representatives *)
Lemma merge_roots M s a b : 0 <= M -> M + 1 < 2 ^ 32 -> Inv M s -> root s a a -> a <> b -> valid_id b ->
  (b < u_size s -> root s b b) -> b <= u_size s ->
  exists s', mergeAintoB a b s = Ret tt s' /\ Inv (M + 1) s' /\ u_size s' = Z.max (u_size s) (b + 1) /\
    (forall i q, root s i q -> root s' i (if q =? a then b else q)) /\ root s' b b.
Proof.
  intros HM0 HM1 HI Ra Hab Vb Rb Hbs. unfold mergeAintoB.
  destruct (root_in _ _ _ Ra) as (Hia0 & _). destruct Hia0 as [Ha0 Ha1].
  assert (E1 : checkSize a s = s) by (unfold checkSize; destruct (Z.ltb_spec a (u_size s)); [auto|lia]).
  rewrite E1.
  destruct (checkSize_ok M s b HM0 HI Vb) as (HI2 & Hz2 & F2 & N2 & K2).
  set (s2 := checkSize b s) in *.
  destruct Vb as [Vb1 Vb2].
  destruct (Z.leb_spec (u_size s2) a); [lia|]. destruct (Z.leb_spec (u_size s2) b); [lia|]. cbn [orb].
  assert (Rra : root s2 a a) by auto.
  assert (Rrb : root s2 b b).
  { destruct (Z_lt_ge_dec b (u_size s)); [apply F2; auto|apply N2; lia]. }
  destruct (root_in _ _ _ Rra) as (Hia & _). destruct (root_in _ _ _ Rrb) as (Hib & _).
  pose proof (I_M _ _ HI2 a Hia). pose proof (I_M _ _ HI2 b Hib).
  pose proof (Inv_weaken _ (M + 1) _ HI2 ltac:(lia)) as HI3.
  assert (B : forall s', (forall i q, root s2 i q -> root s' i (if q =? a then b else q)) -> root s' b b).
  { intros s' F. specialize (F b b Rrb). destruct (Z.eqb_spec b a); auto. }
  destruct (Z.eqb_spec (u_rank s2 a) (u_rank s2 b)).
  { unfold u32. rewrite Z.mod_small by lia.
    destruct (link_ok (M + 1) s2 a b (u_rank s2 b + 1) HI3 Rra Rrb Hab ltac:(lia) ltac:(lia) ltac:(lia)) as [HI4 F].
    eexists. split; [reflexivity|]. split; [exact HI4|]. split; [auto|]. split; [auto|apply B; auto]. }
  destruct (Z.gtb_spec (u_rank s2 a) (u_rank s2 b)).
  { unfold u32. rewrite Z.mod_small by lia.
    destruct (link_ok (M + 1) s2 a b (u_rank s2 a + 1) HI3 Rra Rrb Hab ltac:(lia) ltac:(lia) ltac:(lia)) as [HI4 F].
    eexists. split; [reflexivity|]. split; [exact HI4|]. split; [auto|]. split; [auto|apply B; auto]. }
  { destruct (link_ok (M + 1) s2 a b (u_rank s2 b) HI3 Rra Rrb Hab ltac:(lia) ltac:(lia) ltac:(lia)) as [HI4 F].
    eexists. split; [reflexivity|].
    set (s4 := mkU (u_size s2) (upd (u_rank s2) b (u_rank s2 b)) (upd (u_parent s2) a b)) in *.
    set (s5 := mkU (u_size s2) (u_rank s2) (upd (u_parent s2) a b)).
    assert (R : same_roots s4 s5) by (apply root_ext; auto).
    assert (F5 : forall i q, root s2 i q -> root s5 i (if q =? a then b else q)) by (intros; apply R, F; auto).
    split; [apply (Inv_ext _ s4); auto; intros i; cbn; unfold upd; destruct (Z.eqb_spec i b); subst; auto|].
    split; [auto|]. split; [auto|apply B; auto]. }
Qed.

(** ** Records and counting *)
Definition no_parent (d : dep) : bool := d_parent d =? NO_PARENT.
Definition orphans (deps : list dep) : nat := length (filter no_parent deps).

Lemma filter_le {A} (p : A -> bool) l : (length (filter p l) <= length l)%nat.
Proof. induction l as [|x l IH]; cbn [filter length]; [lia|]. destruct (p x); cbn [length]; lia. Qed.

Lemma count_upd {A} (p : A -> bool) l n x v : nth_error l n = Some x ->
  (length (filter p (upd_nth n v l)) + (if p x then 1 else 0) = length (filter p l) + (if p v then 1 else 0))%nat.
Proof.
  revert n. induction l as [|a l IH]; intros [|n] E; cbn [nth_error] in E; try discriminate; cbn [upd_nth filter].
  - inversion E; subst. destruct (p x), (p v); cbn [length]; lia.
  - specialize (IH _ E). destruct (p a); cbn [length]; lia.
Qed.
Lemma wr_count {A} (p : A -> bool) l i x v l' : ix l i = Some x -> wr l i v = Ok l' ->
  (length (filter p l') + (if p x then 1 else 0) = length (filter p l) + (if p v then 1 else 0))%nat.
Proof.
  unfold ix, wr. destruct (Z.ltb_spec i 0); [discriminate|]. intros E.
  destruct (Z.leb_spec 0 i); [|lia]. destruct (Z.ltb_spec i (Z.of_nat (length l))); cbn [andb]; [|discriminate].
  intros W. inversion W; subst. apply count_upd; auto.
Qed.
Lemma at_in {A} (l : list A) i x : ix l i = Some x -> at_ l i = Ok x.
Proof.
  intros E. assert (0 <= i < Z.of_nat (length l)) by (apply ix_some_iff; eauto). unfold at_.
  destruct (Z.leb_spec 0 i); [|lia]. destruct (Z.ltb_spec i (Z.of_nat (length l))); [|lia]. cbn [andb]. apply rd_Ok; auto.
Qed.
Lemma ixr {A} (l : list A) i x : ix l i = Some x -> 0 <= i < Z.of_nat (length l).
Proof. intros E. apply ix_some_iff; eauto. Qed.
Lemma ix_snoc {A} (l : list A) x k : ix (l ++ [x]) k = if k =? Z.of_nat (length l) then Some x else ix l k.
Proof.
  unfold ix. destruct (Z.ltb_spec k 0).
  - destruct (Z.eqb_spec k (Z.of_nat (length l))); [lia|auto].
  - destruct (Z.eqb_spec k (Z.of_nat (length l))) as [->|Hn].
    + rewrite Nat2Z.id, nth_error_app2, Nat.sub_diag by lia. reflexivity.
    + destruct (Z_lt_ge_dec k (Z.of_nat (length l))); [rewrite nth_error_app1 by lia; auto|].
      rewrite (proj2 (nth_error_None l (Z.to_nat k))) by lia. apply nth_error_None. rewrite app_length. cbn [length]. lia.
Qed.

(** ** The parent relation inside a tree *)
Definition links (deps : list dep) (k p : Z) : Prop :=
  exists r, ix deps k = Some r /\ d_ocean_parent r = false /\ d_parent r <> NO_PARENT /\ d_parent r = p.
Lemma part_step deps k d p : part_of deps k d -> links deps d p -> part_of deps k p.
Proof. intros H [r [E [O [N <-]]]]. eapply part_up; eauto. Qed.
Lemma part_trans deps i k d : part_of deps i k -> part_of deps k d -> part_of deps i d.
Proof. intros A B. revert i A. induction B as [|k d r B IH E O N]; intros i A; auto. apply part_up with d; auto. Qed.
Lemma part_left deps k p d : links deps k p -> part_of deps p d -> part_of deps k d.
Proof. intros H1. apply part_trans. eapply part_step; [apply part_refl|auto]. Qed.
Lemma part_inv deps k d : part_of deps k d -> k = d \/ exists p, part_of deps k p /\ links deps p d.
Proof. intros H. destruct H as [|k d r H E O N]; auto. right. exists d. split; auto. exists r. auto. Qed.
Lemma part_ind' deps (P : Z -> Z -> Prop) : (forall k, P k k) -> (forall k d p, part_of deps k d -> P k d -> links deps d p -> P k p) ->
  forall k d, part_of deps k d -> P k d.
Proof. intros H1 H2 k d H. induction H; auto. eapply H2; eauto. exists r. auto. Qed.

Definition crosses (deps : list dep) (d : Z) (o : outlet) : Prop :=
  (part_of deps (o_a o) d /\ ~ part_of deps (o_b o) d) \/ (~ part_of deps (o_a o) d /\ part_of deps (o_b o) d).

(** the same, [g] being the end outside *)
Definition spills (deps : list dep) (d g : Z) (o : outlet) : Prop :=
  (part_of deps (o_a o) d /\ ~ part_of deps (o_b o) d /\ g = o_b o) \/ (~ part_of deps (o_a o) d /\ part_of deps (o_b o) d /\ g = o_a o).
Lemma spills_crosses deps d g o : spills deps d g o -> crosses deps d o.
Proof. unfold spills, crosses. tauto. Qed.

Definition fresh (r : dep) : Prop :=
  d_out r = None /\ d_out_elev r = None /\ d_odep r = NO_VALUE /\ d_geolink r = NO_VALUE /\ d_ocean_parent r = false.

Section Build.
  Variables (n0 : Z) (os : list outlet) (deps0 : list dep).
  Hypothesis Hn0 : 1 <= n0 <= 2 ^ 31.
  Hypothesis Hlen0 : Z.of_nat (length deps0) = n0.
  Hypothesis Hos : forall o, In o os -> 0 <= o_a o < o_b o /\ o_b o < n0.
  Hypothesis Hsorted : StronglySorted (fun a b => o_elev a <= o_elev b) os.
  Hypothesis Hdeps0 : forall k r, ix deps0 k = Some r -> d_parent r = NO_PARENT /\ fresh r /\ d_lchild r = NO_VALUE /\ d_rchild r = NO_VALUE /\
    d_ocean_linked r = [] /\ d_label r = k.

  Record TI (done : list outlet) (deps : list dep) (rt : Z -> Z) : Prop := {
    t_n0 : n0 <= Z.of_nat (length deps);
    t_count : Z.of_nat (length deps) + Z.of_nat (orphans deps) <= 2 * n0;
    t_ocean : exists r, ix deps 0 = Some r /\ d_parent r = NO_PARENT;
    t_un : forall k r, ix deps k = Some r -> d_parent r = NO_PARENT -> rt k = k /\ fresh r;
    t_oc : forall k r, ix deps k = Some r -> d_ocean_parent r = true -> d_parent r <> NO_PARENT /\ 0 <= d_parent r < n0 /\
      d_geolink r = d_parent r /\ d_odep r = NO_VALUE /\ rt k = 0 /\ k <> 0 /\ rt (d_parent r) = 0;
    t_sea : forall k r d r', ix deps k = Some r -> d_ocean_parent r = true -> part_of deps (d_parent r) d -> ix deps d = Some r' -> d <> 0 ->
      exists z z', d_out_elev r = Some z /\ d_out_elev r' = Some z' /\ z' <= z;
    t_link : forall k p, links deps k p -> k < p < Z.of_nat (length deps) /\ n0 <= p /\ rt k = rt p /\
      exists r rp, ix deps k = Some r /\ ix deps p = Some rp /\
        ((k = d_lchild rp /\ d_odep r = d_rchild rp) \/ (k = d_rchild rp /\ d_odep r = d_lchild rp)) /\
        0 <= d_geolink r < n0 /\ part_of deps (d_geolink r) (d_odep r);
    t_leaf : forall k r, ix deps k = Some r -> k < n0 -> d_lchild r = NO_VALUE /\ d_rchild r = NO_VALUE;
    t_meta : forall k r, ix deps k = Some r -> n0 <= k -> d_lchild r <> d_rchild r /\
      forall c, c = d_lchild r \/ c = d_rchild r -> 1 <= c < k /\ links deps c k;
    t_linked : forall k r, ix deps k = Some r -> NoDup (d_ocean_linked r) /\
      forall j, In j (d_ocean_linked r) <-> exists q, ix deps j = Some q /\ d_ocean_parent q = true /\ d_parent q = k;
    t_flows : forall k, 0 <= k < Z.of_nat (length deps) -> rt k = 0 -> flows_to_ocean deps k;
    t_done : forall o, In o done -> rt (o_a o) = rt (o_b o);
    t_out : forall d r, ix deps d = Some r -> d_parent r <> NO_PARENT -> exists o, In o done /\
      d_out_elev r = Some (o_elev o) /\ d_out r = Some (o_cell o) /\ spills deps d (d_geolink r) o /\
      forall o', In o' os -> crosses deps d o' -> o_elev o <= o_elev o';
    t_mono : forall k p r rp, links deps k p -> ix deps k = Some r -> ix deps p = Some rp -> d_parent rp <> NO_PARENT ->
      exists z z', d_out_elev r = Some z /\ d_out_elev rp = Some z' /\ z <= z';
    t_label : forall k r, ix deps k = Some r -> d_label r = k;
    t_pit0 : forall k r0, ix deps0 k = Some r0 -> exists r, ix deps k = Some r /\ d_pit r = d_pit r0 /\ d_pit_elev r = d_pit_elev r0 /\
       d_count r = d_count r0 /\ d_vol r = d_vol r0 /\ d_total r = d_total r0;
    t_pit1 : forall k r, ix deps k = Some r -> n0 <= k -> d_count r = 0 /\ d_vol r = Some 0 /\ d_total r = 0 /\ d_pit_elev r = None /\
       exists q, ix deps (d_lchild r) = Some q /\ d_pit r = d_pit q }.

  Definition UI (deps : list dep) (u : uf) (rt : Z -> Z) : Prop :=
    u_size u = Z.of_nat (length deps) /\ (forall k, 0 <= k < Z.of_nat (length deps) -> root u k (rt k)) /\
    exists M, 0 <= M /\ Inv M u /\ M + 2 * Z.of_nat (orphans deps) <= 2 * n0.

  Section Facts.
    Variables (done : list outlet) (deps : list dep) (rt : Z -> Z) (u : uf).
    Hypothesis H : TI done deps rt.
    Hypothesis HU : UI deps u rt.

    Lemma rt_in k : 0 <= k < Z.of_nat (length deps) -> 0 <= rt k < Z.of_nat (length deps) /\ rt (rt k) = rt k.
    Proof.
      destruct HU as [Hz [HR _]]. intros Hk. destruct (root_in _ _ _ (HR k Hk)) as (A & B & C).
      assert (B' : 0 <= rt k < Z.of_nat (length deps)) by (unfold inr in B; lia).
      split; auto. apply (root_fun u (rt k)); auto. apply root_here; auto.
    Qed.

    Lemma part_le k d : part_of deps k d -> k <= d.
    Proof.
      intros P. induction P as [|k d p P IH L] using part_ind'; [lia|]. destruct (t_link _ _ _ H _ _ L) as [A _]. lia.
    Qed.
    Lemma part_rt k d : part_of deps k d -> rt k = rt d.
    Proof.
      intros P. induction P as [|k d p P IH L] using part_ind'; [auto|]. destruct (t_link _ _ _ H _ _ L) as [_ [_ [A _]]]. congruence.
    Qed.

    (** the three kinds of depressions *)
    Lemma kinds k : 0 <= k < Z.of_nat (length deps) ->
      (rt k = k /\ exists r, ix deps k = Some r /\ d_parent r = NO_PARENT /\ fresh r) \/
      (k <> 0 /\ rt k = 0 /\ exists r, ix deps k = Some r /\ d_ocean_parent r = true /\ d_parent r <> NO_PARENT) \/
      (exists p, links deps k p).
    Proof.
      intros Hk. apply ix_some_iff in Hk. destruct Hk as [r E].
      destruct (Z.eq_dec (d_parent r) NO_PARENT) as [N|N].
      - left. destruct (t_un _ _ _ H k r E N). split; eauto.
      - right. destruct (d_ocean_parent r) eqn:O.
        + left. destruct (t_oc _ _ _ H k r E O) as [A [B [C [D [F [G G']]]]]]. split; auto. split; auto. exists r. auto.
        + right. exists (d_parent r). exists r. auto.
    Qed.

    Lemma class_part k : 0 <= k < Z.of_nat (length deps) -> rt k <> 0 -> part_of deps k (rt k).
    Proof.
      remember (Z.to_nat (Z.of_nat (length deps) - k)) as m eqn:Em. revert k Em.
      induction m as [m IH] using (well_founded_induction lt_wf). intros k Em Hk Hr.
      destruct (kinds k Hk) as [[E _]|[[_ [E _]]|[p L]]]; [rewrite E; constructor|contradiction|].
      destruct (t_link _ _ _ H _ _ L) as [A [B [C D]]]. apply part_left with p; auto. rewrite C. rewrite C in Hr.
      apply (IH (Z.to_nat (Z.of_nat (length deps) - p))); lia.
    Qed.

    Lemma top_orphan a : 0 <= a < Z.of_nat (length deps) -> rt a = a -> exists r, ix deps a = Some r /\ d_parent r = NO_PARENT /\ fresh r.
    Proof.
      intros Ha E. destruct (kinds a Ha) as [[_ X]|[[N [X _]]|[p L]]]; auto; [congruence|].
      destruct (t_link _ _ _ H _ _ L) as [A [B [C D]]]. destruct (Z.eq_dec a 0) as [->|Hn].
      - destruct (t_ocean _ _ _ H) as [r [E1 E2]]. destruct L as [r' [E3 [_ [E4 _]]]]. congruence.
      - assert (P : part_of deps p a) by (rewrite <- E, C; apply class_part; [lia|congruence]). apply part_le in P. lia.
    Qed.

    Lemma part_iff k a : 0 <= k < Z.of_nat (length deps) -> 0 <= a < Z.of_nat (length deps) -> a <> 0 -> rt a = a ->
      (part_of deps k a <-> rt k = a).
    Proof.
      intros Hk Ha Hn E. split.
      - intros P. apply part_rt in P. congruence.
      - intros R. rewrite <- R. apply class_part; [auto|congruence].
    Qed.

    (** no processed outlet leaves a class *)
    Lemma done_crosses a o : incl done os -> In o done -> 0 <= a < Z.of_nat (length deps) -> a <> 0 -> rt a = a -> ~ crosses deps a o.
    Proof.
      intros I Ho Ha Hn E. pose proof (t_done _ _ _ H o Ho) as D. destruct (Hos o (I _ Ho)) as [A B]. pose proof (t_n0 _ _ _ H).
      unfold crosses. rewrite !part_iff by (auto; lia). rewrite D. tauto.
    Qed.
  End Facts.

  Lemma sorted_split done o rest : os = done ++ o :: rest ->
    (forall o', In o' done -> o_elev o' <= o_elev o) /\ (forall o', In o' (o :: rest) -> o_elev o <= o_elev o').
  Proof.
    intros E. pose proof Hsorted as S. rewrite E in S. clear E. induction done as [|x done IH]; cbn [app] in S.
    - split; [intros o' []|]. inversion S as [|? ? S' F]; subst. intros o' [<-|Ho]; [lia|]. rewrite Forall_forall in F. apply F; auto.
    - inversion S as [|? ? S' F]; subst. destruct (IH S') as [A B]. split; auto.
      intros o' [<-|Ho]; auto. rewrite Forall_forall in F. apply F. apply in_or_app. right; left; auto.
  Qed.

  Lemma part_mono deps deps' : (forall k p, links deps k p -> links deps' k p) -> forall k d, part_of deps k d -> part_of deps' k d.
  Proof. intros Hl k d P. induction P as [|k d p P IH L] using part_ind'; [constructor|]. eapply part_step; eauto. Qed.
  Lemma part_same deps deps' : (forall k p, links deps k p <-> links deps' k p) -> forall k d, part_of deps k d <-> part_of deps' k d.
  Proof. intros Hl k d. split; apply part_mono; intros; apply Hl; auto. Qed.

  (** ** A metadepression finds the ocean *)
  Section Link.
    Variables (done : list outlet) (o : outlet) (rest : list outlet) (deps : list dep) (rt : Z -> Z) (u : uf) (a b la : Z).
    Hypothesis Hsplit : os = done ++ o :: rest.
    Hypothesis H : TI done deps rt.
    Hypothesis HU : UI deps u rt.
    Hypothesis Ha : a = rt la.
    Hypothesis Ha0 : a <> 0.
    Hypothesis Hb : rt b = 0.
    Hypothesis Hends : (la = o_a o /\ b = o_b o) \/ (la = o_b o /\ b = o_a o).

    Let rt' := fun k => if rt k =? a then 0 else rt k.

    Lemma link_step : exists deps' u', link_ocean a b o (deps, u) = Ok (deps', u') /\ TI (done ++ [o]) deps' rt' /\ UI deps' u' rt'.
    Proof.
      assert (Io : In o os) by (rewrite Hsplit; apply in_or_app; right; left; auto).
      assert (Idone : incl done os) by (intros x Hx; rewrite Hsplit; apply in_or_app; left; auto).
      destruct (Hos o Io) as [Ho1 Ho2]. pose proof (t_n0 _ _ _ H) as Hn.
      assert (Hla : 0 <= la < n0) by (destruct Hends as [[-> _]|[-> _]]; lia).
      assert (Hbr : 0 <= b < n0) by (destruct Hends as [[_ ->]|[_ ->]]; lia).
      destruct (rt_in _ _ _ HU la ltac:(lia)) as [Har Haa]. rewrite <- Ha in Har, Haa.
      destruct (top_orphan _ _ _ H a Har Haa) as [d [Ed [Nd Fd]]].
      assert (Hab : a <> b) by (intros E; apply Ha0; rewrite <- Haa, E; exact Hb).
      destruct (sorted_split _ _ _ Hsplit) as [S1 S2].
      unfold link_ocean. rewrite (at_in _ _ _ Ed). cbn [bind].
      destruct Fd as [F1 [F2 [F3 [F4 F5]]]]. rewrite F1, F3. cbn [none_cell andb Z.eqb NO_VALUE]. rewrite Z.eqb_refl. cbn [assert_ bind].
      destruct (wr_in deps a (with_ocean d b o) Har) as [deps1 [W1 [L1 V1]]]. rewrite W1. cbn [bind].
      assert (Hbl : 0 <= b < Z.of_nat (length deps)) by lia.
      destruct (proj2 (ix_some_iff deps b) Hbl) as [e Ee].
      assert (Ee1 : ix deps1 b = Some e) by (rewrite V1; destruct (Z.eqb_spec b a); [congruence|auto]).
      rewrite (at_in _ _ _ Ee1). cbn [bind].
      destruct (wr_in deps1 b (with_linked e a)) as [deps2 [W2 [L2 V2]]]; [lia|]. rewrite W2. cbn [bind].
      destruct HU as [Hz [HR [M [HM0 [HI HM]]]]].
      (* counting *)
      pose proof (wr_count no_parent _ _ _ _ _ Ed W1) as C1. pose proof (wr_count no_parent _ _ _ _ _ Ee1 W2) as C2.
      assert (P1 : no_parent d = true) by (unfold no_parent; apply Z.eqb_eq; auto).
      assert (P2 : no_parent (with_ocean d b o) = false).
      { unfold no_parent, with_ocean, NO_PARENT. cbn [d_parent]. apply Z.eqb_neq. change (2 ^ 31) with 2147483648 in *. change (2 ^ 32) with 4294967296. lia. }
      assert (P3 : no_parent (with_linked e a) = no_parent e) by reflexivity.
      rewrite P1, P2 in C1. rewrite P3 in C2.
      assert (OC : S (orphans deps2) = orphans deps) by (unfold orphans; destruct (no_parent e); lia). clear C1 C2.
      destruct (merge_roots M u a OCEAN) as [u' [Em [HI' [Hz' [HR' HRb]]]]]; auto.
      { change (2 ^ 31) with 2147483648 in *. change (2 ^ 32) with 4294967296. lia. }
      { rewrite <- Haa at 2. apply HR; auto. }
      { split; unfold OCEAN; [lia|]. change (2 ^ 32) with 4294967296. lia. }
      { intros _. destruct (t_ocean _ _ _ H) as [r0 [E0 N0]]. destruct (t_un _ _ _ H 0 r0 E0 N0) as [R0 _].
        specialize (HR 0). rewrite R0 in HR. apply HR. lia. }
      { unfold OCEAN. lia. }
      rewrite Em. cbn [uf_call bind snd]. exists deps2, u'. split; [reflexivity|].
      assert (V : forall j, ix deps2 j = if j =? b then Some (with_linked e a) else if j =? a then Some (with_ocean d b o) else ix deps j).
      { intros j. rewrite V2. destruct (Z.eqb_spec j b); auto. }
      assert (Hlen : length deps2 = length deps) by lia.
      clear W1 W2 V1 V2 L1 L2 Ee1 deps1.
      (* unchanged records *)
      assert (OLD : forall k r', k <> a -> ix deps2 k = Some r' -> exists r, ix deps k = Some r /\ d_pit r' = d_pit r /\ d_out r' = d_out r /\
         d_parent r' = d_parent r /\ d_odep r' = d_odep r /\ d_geolink r' = d_geolink r /\ d_pit_elev r' = d_pit_elev r /\
         d_out_elev r' = d_out_elev r /\ d_lchild r' = d_lchild r /\ d_rchild r' = d_rchild r /\ d_ocean_parent r' = d_ocean_parent r /\
         d_label r' = d_label r /\ d_count r' = d_count r /\ d_vol r' = d_vol r /\ d_total r' = d_total r /\
         d_ocean_linked r' = (if k =? b then d_ocean_linked r ++ [a] else d_ocean_linked r)).
      { intros k r' Hk E. rewrite V in E. destruct (Z.eqb_spec k b) as [->|Hkb].
        - inversion E; subst r'. exists e. unfold with_linked. cbn. repeat split; auto.
        - destruct (Z.eqb_spec k a); [congruence|]. exists r'. repeat split; auto. }
      assert (NEW : forall k r, k <> a -> ix deps k = Some r -> exists r', ix deps2 k = Some r').
      { intros k r Hk E. rewrite V. destruct (k =? b); [eauto|]. destruct (Z.eqb_spec k a); [congruence|eauto]. }
      assert (Ea : ix deps2 a = Some (with_ocean d b o)).
      { rewrite V. destruct (Z.eqb_spec a b); [congruence|]. rewrite Z.eqb_refl. auto. }
      assert (HL : forall k p, links deps k p <-> links deps2 k p).
      { intros k p. destruct (Z.eq_dec k a) as [->|Hk].
        - split; intros [r [E [O [N P]]]].
          + exfalso. congruence.
          + rewrite Ea in E. inversion E; subst r. discriminate O.
        - split; intros [r [E [O [N P]]]].
          + destruct (NEW k r Hk E) as [r' E']. destruct (OLD k r' Hk E') as [r2 [E2 D]]. assert (r2 = r) by congruence. subst r2.
            exists r'. intuition congruence.
          + destruct (OLD k r Hk E) as [r2 [E2 D]]. exists r2. intuition congruence. }
      pose proof (part_same _ _ HL) as HP.
      assert (HX : forall d o, crosses deps d o <-> crosses deps2 d o) by (intros; unfold crosses; rewrite <- !HP; tauto).
      assert (Hrt0 : forall k, rt k = 0 -> rt' k = 0) by (intros k E; unfold rt'; rewrite E; destruct (0 =? a); auto).
      assert (XA : crosses deps a o).
      { unfold crosses. rewrite !(part_iff _ _ _ H) by (auto; lia). destruct Hends as [[A B]|[A B]]; subst la b; [left|right]; split; congruence. }
      assert (XA' : spills deps a b o).
      { unfold spills. rewrite !(part_iff _ _ _ H) by (auto; lia). destruct Hends as [[A B]|[A B]]; subst la b; [left|right]; repeat split; congruence. }
      assert (HSP : forall d g o, spills deps d g o <-> spills deps2 d g o) by (intros; unfold spills; rewrite <- !HP; tauto).
      assert (MA : forall o', In o' os -> crosses deps a o' -> o_elev o <= o_elev o').
      { intros o' Io' X. rewrite Hsplit in Io'. apply in_app_or in Io'. destruct Io' as [Io'|Io']; [|apply S2; auto].
        exfalso. revert X. eapply done_crosses; eauto. }
      split.
      - constructor.
        + rewrite Hlen. auto.
        + pose proof (t_count _ _ _ H). rewrite Hlen. lia.
        + destruct (t_ocean _ _ _ H) as [r0 [E0 N0]]. destruct (NEW 0 r0 ltac:(auto) E0) as [r' E']. exists r'. split; auto.
          destruct (OLD 0 r' ltac:(auto) E') as [r2 [E2 D]]. intuition congruence.
        + intros k r' E N. destruct (Z.eq_dec k a) as [->|Hk].
          { rewrite Ea in E. inversion E; subst r'. exfalso. unfold no_parent in P2. apply Z.eqb_neq in P2. auto. }
          destruct (OLD k r' Hk E) as [r [E2 D]]. destruct (t_un _ _ _ H k r E2) as [A B]; [intuition congruence|].
          split; [unfold rt'; rewrite A; destruct (Z.eqb_spec k a); [contradiction|auto]|]. unfold fresh in *. intuition congruence.
        + intros k r' E O. destruct (Z.eq_dec k a) as [->|Hk].
          { rewrite Ea in E. inversion E; subst r'. cbn [with_ocean d_parent d_geolink d_odep].
            split; [unfold no_parent in P2; apply Z.eqb_neq in P2; exact P2|]. split; [lia|]. split; [reflexivity|]. split; [reflexivity|].
            split; [unfold rt'; rewrite Haa, Z.eqb_refl; reflexivity|]. split; [exact Ha0|]. apply Hrt0; exact Hb. }
          destruct (OLD k r' Hk E) as [r [E2 D]]. destruct D as [_ [_ [Dp [Do [Dg [_ [_ [_ [_ [Dc _]]]]]]]]]].
          destruct (t_oc _ _ _ H k r E2) as [A [B [C [D [F [G G']]]]]]; [congruence|]. rewrite Dp, Do, Dg.
          split; [exact A|]. split; [exact B|]. split; [exact C|]. split; [exact D|]. split; [apply Hrt0; exact F|]. split; [exact G|apply Hrt0; exact G'].
        + (* levels beyond an ocean link *)
          intros k r' d1 r1' E O P E1 Hd1. apply HP in P.
          assert (B1 : forall x, part_of deps x d1 -> 0 <= x < Z.of_nat (length deps) -> rt x = 0 -> d1 <> a /\ exists r1, ix deps d1 = Some r1 /\ d_out_elev r1' = d_out_elev r1 /\ d_parent r1 <> NO_PARENT).
          { intros x Px Hx Rx. apply (part_rt _ _ _ H) in Px. assert (N : d1 <> a) by (intros ->; congruence). split; auto.
            destruct (OLD d1 r1' N E1) as [r1 [E2 D2]]. exists r1. split; auto. split; [intuition congruence|].
            intros NP. destruct (t_un _ _ _ H d1 r1 E2 NP) as [R1 _]. congruence. }
          destruct (Z.eq_dec k a) as [->|Hk].
          { rewrite Ea in E. inversion E; subst r'. cbn [with_ocean d_parent d_out_elev] in *.
            destruct (B1 b P Hbl Hb) as [N [r1 [E2 [X Y]]]]. destruct (t_out _ _ _ H d1 r1 E2 Y) as [o1 [A1 [A2 _]]].
            exists (o_elev o), (o_elev o1). split; auto. split; [congruence|auto]. }
          destruct (OLD k r' Hk E) as [r [E2 D]]. destruct D as [_ [_ [Dp [_ [_ [_ [De [_ [_ [Dc _]]]]]]]]]].
          destruct (t_oc _ _ _ H k r E2) as [A [B [C [D [F [G G']]]]]]; [congruence|]. rewrite Dp in P.
          destruct (B1 (d_parent r) P ltac:(lia) G') as [N [r1 [E3 [X Y]]]]. rewrite De, X.
          apply (t_sea _ _ _ H k r d1 r1); auto. congruence.
        + intros k p L. apply HL in L. destruct (t_link _ _ _ H k p L) as [A [B [C [r [rp [E1 [E2 [E3 [E4 E5]]]]]]]]].
          rewrite Hlen. split; auto. split; auto. split; [unfold rt'; rewrite C; auto|].
          assert (k <> a) by (intros ->; destruct L as [rr [X1 [X2 [X3 X4]]]]; congruence).
          destruct (NEW k r ltac:(auto) E1) as [r' E1']. destruct (OLD k r' ltac:(auto) E1') as [r2 [X D]].
          assert (r2 = r) by congruence. subst r2. destruct D as [_ [_ [Dp [Do [Dg [_ [_ [_ [_ [Dc _]]]]]]]]]].
          assert (Hrp : exists rp', ix deps2 p = Some rp' /\ d_lchild rp' = d_lchild rp /\ d_rchild rp' = d_rchild rp).
          { destruct (Z.eq_dec p a) as [->|Hpa].
            - exists (with_ocean d b o). rewrite Ed in E2. inversion E2; subst. auto.
            - destruct (NEW p rp Hpa E2) as [rp' Y]. exists rp'. split; auto. destruct (OLD p rp' Hpa Y) as [r3 [Y2 D2]]. intuition congruence. }
          destruct Hrp as [rp' [Y1 [Y2 Y3]]]. exists r', rp'. split; auto. split; auto. rewrite Y2, Y3, Do, Dg. split; auto. split; auto. apply HP; auto.
        + intros k r' E Hk0. destruct (Z.eq_dec k a) as [->|Hk].
          { rewrite Ea in E. inversion E; subst r'. apply (t_leaf _ _ _ H a d Ed Hk0). }
          destruct (OLD k r' Hk E) as [r [E2 D]]. destruct (t_leaf _ _ _ H k r E2 Hk0). intuition congruence.
        + intros k r' E Hk0.
          assert (G : exists r, ix deps k = Some r /\ d_lchild r' = d_lchild r /\ d_rchild r' = d_rchild r).
          { destruct (Z.eq_dec k a) as [->|Hk]; [rewrite Ea in E; inversion E; subst r'; exists d; auto|].
            destruct (OLD k r' Hk E) as [r [E2 D]]. exists r. intuition congruence. }
          destruct G as [r [E2 [G1 G2]]]. destruct (t_meta _ _ _ H k r E2 Hk0) as [A B]. rewrite G1, G2. split; auto.
          intros c Hc. destruct (B c Hc). split; auto. apply HL; auto.
        + (* ocean_linked *)
          assert (LA : forall j, (exists q, ix deps2 j = Some q /\ d_ocean_parent q = true /\ d_parent q = b) <->
             j = a \/ (exists q, ix deps j = Some q /\ d_ocean_parent q = true /\ d_parent q = b)).
          { intros j. destruct (Z.eq_dec j a) as [->|Hj].
            - split; [auto|]. intros _. exists (with_ocean d b o). auto.
            - split.
              + intros [q [E [O P]]]. right. destruct (OLD j q Hj E) as [r [E2 D]]. exists r. intuition congruence.
              + intros [X|[q [E [O P]]]]; [contradiction|]. destruct (NEW j q Hj E) as [q' E']. exists q'. split; auto.
                destruct (OLD j q' Hj E') as [r [E2 D]]. intuition congruence. }
          assert (LB : forall k j, k <> b -> (exists q, ix deps2 j = Some q /\ d_ocean_parent q = true /\ d_parent q = k) <->
             (exists q, ix deps j = Some q /\ d_ocean_parent q = true /\ d_parent q = k)).
          { intros k j Hkb. destruct (Z.eq_dec j a) as [->|Hj].
            - split; intros [q [E [O P]]]; exfalso; [rewrite Ea in E; inversion E; subst q; cbn in P; congruence|congruence].
            - split; intros [q [E [O P]]].
              + destruct (OLD j q Hj E) as [r [E2 D]]. exists r. intuition congruence.
              + destruct (NEW j q Hj E) as [q' E']. exists q'. split; auto. destruct (OLD j q' Hj E') as [r [E2 D]]. intuition congruence. }
          intros k r' E. destruct (Z.eq_dec k b) as [->|Hkb].
          { rewrite V, Z.eqb_refl in E. inversion E; subst r'. cbn [with_linked d_ocean_linked].
            destruct (t_linked _ _ _ H b e Ee) as [A B]. split.
            - apply NoDup_app_disj; auto.
              + constructor; [intros []|constructor].
              + intros x Hx [<-|[]]. apply B in Hx. destruct Hx as [q [E1 [O P]]]. congruence.
            - intros j. rewrite LA, in_app_iff, B. cbn [In]. intuition. }
          assert (G : exists r, ix deps k = Some r /\ d_ocean_linked r' = d_ocean_linked r).
          { destruct (Z.eq_dec k a) as [->|Hk]; [rewrite Ea in E; inversion E; subst r'; exists d; auto|].
            destruct (OLD k r' Hk E) as [r [E2 D]]. exists r. split; auto. destruct (Z.eqb_spec k b); [contradiction|]. intuition. }
          destruct G as [r [E2 G]]. rewrite G. destruct (t_linked _ _ _ H k r E2) as [A B]. split; auto. intros j. rewrite LB; auto.
        + (* flows *)
          assert (FO : forall k, flows_to_ocean deps k -> flows_to_ocean deps2 k).
          { intros k F. induction F as [|k r E N F IH]; [constructor|].
            assert (Hk : k <> a) by (intros ->; congruence). destruct (NEW k r Hk E) as [r' E']. destruct (OLD k r' Hk E') as [r2 [E2 D]].
            assert (r2 = r) by congruence. subst r2. destruct D as [_ [_ [Dp _]]]. apply fto_parent with r'; auto; congruence. }
          assert (FA : flows_to_ocean deps2 a).
          { apply fto_parent with (with_ocean d b o); auto; cbn [with_ocean d_parent].
            - unfold no_parent in P2. apply Z.eqb_neq in P2. exact P2.
            - apply FO. apply (t_flows _ _ _ H); auto. }
          intros k Hk E. rewrite Hlen in Hk. unfold rt' in E. destruct (Z.eqb_spec (rt k) a) as [Ra|Ra].
          * assert (P : part_of deps2 k a) by (apply HP, (part_iff _ _ _ H); auto).
            clear E Ra Hk. remember a as a1 eqn:Q in P. revert Q. induction P as [k|k x p P IH L] using part_ind'; intros ->; auto.
            (* climb from the bottom *)
            assert (G : forall k x, part_of deps2 k x -> flows_to_ocean deps2 x -> flows_to_ocean deps2 k).
            { clear. intros k x P. induction P as [|k x p P IH L] using part_ind'; auto. intros F. apply IH.
              destruct L as [r [E [O [N <-]]]]. apply fto_parent with r; auto. }
            apply (G k a); auto. eapply part_step; eauto.
          * apply FO. apply (t_flows _ _ _ H); auto.
        + intros o' Ho'. apply in_app_or in Ho'. destruct Ho' as [Ho'|[<-|[]]].
          * unfold rt'. rewrite (t_done _ _ _ H o' Ho'). auto.
          * assert (E : rt' la = rt' b) by (unfold rt' at 1; rewrite <- Ha, Z.eqb_refl; symmetry; apply Hrt0; auto).
            destruct Hends as [[<- <-]|[<- <-]]; auto.
        + intros k r' E N. destruct (Z.eq_dec k a) as [->|Hk].
          { rewrite Ea in E. inversion E; subst r'. exists o. split; [apply in_or_app; right; left; auto|]. split; auto. split; auto.
            split; [apply HSP; exact XA'|]. intros o' Io' X. apply MA; auto. apply HX; auto. }
          destruct (OLD k r' Hk E) as [r [E2 D]]. destruct (t_out _ _ _ H k r E2) as [o1 [A [B [C [D1 D2]]]]]; [intuition congruence|].
          exists o1. split; [apply in_or_app; auto|]. split; [intuition congruence|]. split; [intuition congruence|].
          destruct D as [_ [_ [_ [_ [Dg _]]]]]. rewrite Dg. split; [apply HSP; auto|]. intros o' Io' X. apply D2; auto. apply HX; auto.
        + intros k p r' rp' L E1 E2 N. apply HL in L.
          assert (Hk : k <> a) by (intros ->; destruct L as [rr [X1 [X2 [X3 X4]]]]; congruence).
          destruct (OLD k r' Hk E1) as [r [E3 D]]. destruct D as [_ [_ [Dp [_ [_ [_ [De _]]]]]]].
          destruct (Z.eq_dec p a) as [->|Hp].
          { rewrite Ea in E2. inversion E2; subst rp'. destruct (t_out _ _ _ H k r E3) as [o1 [A [B [C _]]]].
            - destruct L as [rr [X1 [X2 [X3 X4]]]]. congruence.
            - exists (o_elev o1), (o_elev o). split; [congruence|]. split; auto. }
          destruct (OLD p rp' Hp E2) as [rp [E4 D]]. destruct D as [_ [_ [Dp' [_ [_ [_ [De' _]]]]]]].
          rewrite De, De'. apply (t_mono _ _ _ H k p); auto. congruence.
        + intros k r' E. destruct (Z.eq_dec k a) as [->|Hk].
          { rewrite Ea in E. inversion E; subst r'. apply (t_label _ _ _ H a d Ed). }
          destruct (OLD k r' Hk E) as [r [E2 D]]. pose proof (t_label _ _ _ H k r E2). intuition congruence.
        + intros k r0 E0. destruct (t_pit0 _ _ _ H k r0 E0) as [r [E D]]. destruct (Z.eq_dec k a) as [->|Hk].
          { exists (with_ocean d b o). split; auto. assert (r = d) by congruence. subst r. exact D. }
          destruct (NEW k r Hk E) as [r' E']. exists r'. split; auto. destruct (OLD k r' Hk E') as [r2 [E2 D2]].
          assert (r2 = r) by congruence. subst r2. intuition congruence.
        + intros k r' E Hk0.
          assert (PIT : forall j q, ix deps j = Some q -> exists q', ix deps2 j = Some q' /\ d_pit q' = d_pit q).
          { intros j q Eq. destruct (Z.eq_dec j a) as [->|Hj].
            - exists (with_ocean d b o). assert (q = d) by congruence. subst q. auto.
            - destruct (NEW j q Hj Eq) as [q' E']. exists q'. split; auto. destruct (OLD j q' Hj E') as [r2 [E2 D2]]. intuition congruence. }
          assert (G : exists r, ix deps k = Some r /\ d_lchild r' = d_lchild r /\ d_count r' = d_count r /\ d_vol r' = d_vol r /\
              d_total r' = d_total r /\ d_pit_elev r' = d_pit_elev r /\ d_pit r' = d_pit r).
          { destruct (Z.eq_dec k a) as [->|Hk]; [rewrite Ea in E; inversion E; subst r'; exists d; cbn; repeat split; auto|].
            destruct (OLD k r' Hk E) as [r [E2 D]]. exists r. intuition congruence. }
          destruct G as [r [E2 [G1 [G2 [G3 [G4 [G5 G6]]]]]]]. destruct (t_pit1 _ _ _ H k r E2 Hk0) as [A [B [C [D [q [Eq Pq]]]]]].
          split; [congruence|]. split; [congruence|]. split; [congruence|]. split; [congruence|].
          destruct (PIT _ _ Eq) as [q' [Eq' Pq']]. exists q'. rewrite G1. split; auto. congruence.
      - split; [rewrite Hz', Hlen, Hz; unfold OCEAN; lia|]. split.
        + intros k Hk. rewrite Hlen in Hk. specialize (HR' _ _ (HR k Hk)). exact HR'.
        + exists (M + 1). split; [lia|]. split; auto. lia.
    Qed.
  End Link.

  (** ** Two depressions meet *)
  Section Join.
    Variables (done : list outlet) (o : outlet) (rest : list outlet) (deps : list dep) (rt : Z -> Z) (u : uf) (a b : Z).
    Hypothesis Hsplit : os = done ++ o :: rest.
    Hypothesis H : TI done deps rt.
    Hypothesis HU : UI deps u rt.
    Hypothesis Ha : a = rt (o_a o).
    Hypothesis Hb : b = rt (o_b o).
    Hypothesis Ha0 : a <> 0.
    Hypothesis Hb0 : b <> 0.
    Hypothesis Hab : a <> b.

    Let new := Z.of_nat (length deps).
    Let rt' := fun k => if k =? new then new else if (rt k =? a) || (rt k =? b) then new else rt k.

    Lemma join_step : exists deps' u', join_deps a b (o_a o) (o_b o) o (deps, u) = Ok (deps', u') /\ TI (done ++ [o]) deps' rt' /\ UI deps' u' rt'.
    Proof.
      assert (Io : In o os) by (rewrite Hsplit; apply in_or_app; right; left; auto).
      assert (Idone : incl done os) by (intros x Hx; rewrite Hsplit; apply in_or_app; left; auto).
      destruct (Hos o Io) as [Ho1 Ho2]. pose proof (t_n0 _ _ _ H) as Hn. fold new in Hn.
      destruct (rt_in _ _ _ HU (o_a o) ltac:(fold new; lia)) as [Har Haa]. rewrite <- Ha in Har, Haa. fold new in Har.
      destruct (rt_in _ _ _ HU (o_b o) ltac:(fold new; lia)) as [Hbr Hbb]. rewrite <- Hb in Hbr, Hbb. fold new in Hbr.
      destruct (top_orphan _ _ _ H a Har Haa) as [da [Eda [Nda Fda]]].
      destruct (top_orphan _ _ _ H b Hbr Hbb) as [db [Edb [Ndb Fdb]]].
      destruct (sorted_split _ _ _ Hsplit) as [S1 S2].
      pose proof (t_count _ _ _ H) as HC. fold new in HC.
      (* there is the ocean besides a and b: three orphans *)
      assert (O2 : (2 <= orphans deps)%nat).
      { assert (P : exists k r, k <> a /\ ix deps k = Some r /\ no_parent r = true).
        { exists b, db. split; auto. split; auto. apply Z.eqb_eq; auto. }
        pose proof (wr_in deps a (with_ocean da 0 o) Har) as [l1 [W1 [L1 V1]]].
        pose proof (wr_count no_parent _ _ _ _ _ Eda W1) as C1.
        assert (P1 : no_parent da = true) by (apply Z.eqb_eq; auto). rewrite P1 in C1.
        assert (P2 : no_parent (with_ocean da 0 o) = false) by reflexivity. rewrite P2 in C1.
        assert (1 <= length (filter no_parent l1))%nat; [|unfold orphans; lia].
        assert (In db (filter no_parent l1)).
        { apply filter_In. split; [|apply Z.eqb_eq; auto]. assert (X : ix l1 b = Some db) by (rewrite V1; destruct (Z.eqb_spec b a); congruence).
          unfold ix in X. destruct (b <? 0); [discriminate|]. eapply nth_error_In; eauto. }
        destruct (filter no_parent l1); [destruct H0|cbn [length]; lia]. }
      assert (Hnew : new < 2 ^ 32 - 1) by (change (2 ^ 31) with 2147483648 in *; change (2 ^ 32) with 4294967296; lia).
      unfold join_deps. rewrite (at_in _ _ _ Eda), (at_in _ _ _ Edb). cbn [bind].
      assert (EA : (d_odep da =? NO_VALUE) && (d_odep db =? NO_VALUE) = true).
      { destruct Fda as [_ [_ [-> _]]], Fdb as [_ [_ [-> _]]]. reflexivity. }
      rewrite EA. cbn [assert_ bind]. fold new. rewrite (w32_id new) by (unfold new in *; lia).
      destruct (wr_in deps a (with_parent da new b (o_b o) o) Har) as [deps1 [W1 [L1 V1]]]. rewrite W1. cbn [bind].
      assert (Edb1 : ix deps1 b = Some db) by (rewrite V1; destruct (Z.eqb_spec b a); [congruence|auto]).
      destruct (wr_in deps1 b (with_parent db new a (o_a o) o)) as [deps2 [W2 [L2 V2]]]; [rewrite L1; exact Hbr|]. rewrite W2. cbn [bind].
      destruct HU as [Hz [HR [M [HM0 [HI HM]]]]].
      pose proof (wr_count no_parent _ _ _ _ _ Eda W1) as C1. pose proof (wr_count no_parent _ _ _ _ _ Edb1 W2) as C2.
      assert (P1 : no_parent da = true) by (apply Z.eqb_eq; auto).
      assert (P2 : no_parent db = true) by (apply Z.eqb_eq; auto).
      assert (PN : new <> NO_PARENT) by (unfold NO_PARENT; lia).
      assert (P3 : no_parent (with_parent da new b (o_b o) o) = false) by (apply Z.eqb_neq; exact PN).
      assert (P4 : no_parent (with_parent db new a (o_a o) o) = false) by (apply Z.eqb_neq; exact PN).
      rewrite P1, P3 in C1. rewrite P2, P4 in C2.
      set (mt := meta_dep a b new (d_pit da)).
      assert (OC : S (orphans (deps2 ++ [mt])) = orphans deps).
      { unfold orphans. rewrite filter_app, app_length. cbn. unfold orphans in *. lia. }
      clear C1 C2.
      assert (RA : root u a a) by (rewrite <- Haa at 2; apply HR; auto).
      assert (RB : root u b b) by (rewrite <- Hbb at 2; apply HR; auto).
      destruct (merge_roots M u a new) as [u1 [Em1 [HI1 [Hz1 [HR1 HRb1]]]]]; auto.
      { change (2 ^ 31) with 2147483648 in *. change (2 ^ 32) with 4294967296 in *. lia. }
      { lia. }
      { split; lia. }
      { fold new in Hz. lia. }
      { fold new in Hz. lia. }
      rewrite Em1. cbn [uf_call bind snd].
      assert (RB1 : root u1 b b). { specialize (HR1 _ _ RB). destruct (Z.eqb_spec b a); [congruence|auto]. }
      destruct (merge_roots (M + 1) u1 b new) as [u2 [Em2 [HI2 [Hz2 [HR2 HRb2]]]]]; auto.
      { lia. }
      { change (2 ^ 31) with 2147483648 in *. change (2 ^ 32) with 4294967296 in *. lia. }
      { lia. }
      { split; lia. }
      { lia. }
      rewrite Em2. cbn [uf_call bind snd]. fold mt. set (deps' := deps2 ++ [mt]). exists deps', u2. split; [reflexivity|].
      assert (Hlen2 : Z.of_nat (length deps2) = new) by (unfold new; lia).
      assert (Hlen : Z.of_nat (length deps') = new + 1) by (unfold deps'; rewrite app_length; cbn [length]; lia).
      assert (V : forall j, ix deps' j = if j =? new then Some mt else if j =? b then Some (with_parent db new a (o_a o) o)
          else if j =? a then Some (with_parent da new b (o_b o) o) else ix deps j).
      { intros j. unfold deps'. rewrite ix_snoc, Hlen2. destruct (j =? new); auto. rewrite V2. destruct (j =? b); auto. }
      clear W1 W2 V1 V2 L1 L2 Edb1 deps1.
      assert (IN : forall k r, ix deps k = Some r -> 0 <= k < new) by (intros k r E; apply ixr in E; exact E).
      assert (OLD : forall k r, k <> a -> k <> b -> ix deps k = Some r -> ix deps' k = Some r).
      { intros k r X Y E. rewrite V. destruct (Z.eqb_spec k new) as [->|]; [apply IN in E; lia|].
        destruct (Z.eqb_spec k b); [contradiction|]. destruct (Z.eqb_spec k a); [contradiction|auto]. }
      assert (Ea : ix deps' a = Some (with_parent da new b (o_b o) o)).
      { rewrite V. destruct (Z.eqb_spec a new); [lia|]. destruct (Z.eqb_spec a b); [congruence|]. rewrite Z.eqb_refl. auto. }
      assert (Eb : ix deps' b = Some (with_parent db new a (o_a o) o)).
      { rewrite V. destruct (Z.eqb_spec b new); [lia|]. rewrite Z.eqb_refl. auto. }
      assert (En : ix deps' new = Some mt) by (rewrite V, Z.eqb_refl; auto).
      assert (CASES : forall k r', ix deps' k = Some r' -> (k = new /\ r' = mt) \/ (k = a /\ r' = with_parent da new b (o_b o) o) \/
          (k = b /\ r' = with_parent db new a (o_a o) o) \/ (k <> new /\ k <> a /\ k <> b /\ ix deps k = Some r')).
      { intros k r' E. rewrite V in E. destruct (Z.eqb_spec k new) as [->|]; [left; split; congruence|].
        destruct (Z.eqb_spec k b) as [->|]; [right; right; left; split; congruence|].
        destruct (Z.eqb_spec k a) as [->|]; [right; left; split; congruence|]. right; right; right. auto. }
      clear V.
      assert (HL : forall k p, links deps' k p <-> links deps k p \/ (p = new /\ (k = a \/ k = b))).
      { intros k p. split.
        - intros [r [E [O [N P]]]]. destruct (CASES k r E) as [[-> ->]|[[-> ->]|[[-> ->]|[X [Y [W E']]]]]].
          + exfalso. apply N. reflexivity.
          + right. cbn in P. auto.
          + right. cbn in P. auto.
          + left. exists r. auto.
        - intros [[r [E [O [N P]]]]|[-> [-> | ->]]].
          + exists r. split; [apply OLD; auto; intros ->; congruence|auto].
          + exists (with_parent da new b (o_b o) o). split; auto. split; [apply Fda|]. split; auto.
          + exists (with_parent db new a (o_a o) o). split; auto. split; [apply Fdb|]. split; auto. }
      assert (HLold : forall k p, links deps k p -> k < p < new).
      { intros k p L. destruct (t_link _ _ _ H k p L) as [A _]. exact A. }
      assert (HPm : forall k d, part_of deps k d -> part_of deps' k d) by (apply part_mono; intros; apply HL; auto).
      assert (HP1 : forall k d, d <> new -> (part_of deps' k d <-> part_of deps k d)).
      { intros k d Hd. split; [|apply HPm]. intros P. revert Hd. induction P as [|k d p P IH L] using part_ind'; intros Hp; [constructor|].
        apply HL in L. destruct L as [L|[-> _]]; [|contradiction]. apply part_step with d; auto. apply IH. intros ->. apply HLold in L. lia. }
      assert (HP2 : forall k, part_of deps' k new <-> k = new \/ part_of deps k a \/ part_of deps k b).
      { intros k. split.
        - intros P. apply part_inv in P. destruct P as [->|[p [P L]]]; auto. right. apply HL in L. destruct L as [L|[_ [-> | ->]]].
          + apply HLold in L. lia.
          + left. apply HP1; [lia|auto].
          + right. apply HP1; [lia|auto].
        - intros [->|[P|P]]; [constructor| |].
          + apply part_step with a; [apply HPm; auto|apply HL; auto].
          + apply part_step with b; [apply HPm; auto|apply HL; auto]. }
      assert (HX : forall d o, d <> new -> (crosses deps' d o <-> crosses deps d o)) by (intros d x Hd; unfold crosses; rewrite !HP1 by auto; tauto).
      assert (PA : forall k, 0 <= k < new -> (part_of deps k a <-> rt k = a)) by (intros; apply (part_iff _ _ _ H); auto).
      assert (PB : forall k, 0 <= k < new -> (part_of deps k b <-> rt k = b)) by (intros; apply (part_iff _ _ _ H); auto).
      assert (XA : crosses deps a o) by (unfold crosses; rewrite !PA by lia; left; split; congruence).
      assert (XB : crosses deps b o) by (unfold crosses; rewrite !PB by lia; right; split; congruence).
      assert (HSP : forall d g o, d <> new -> (spills deps' d g o <-> spills deps d g o)) by (intros d g x Hd; unfold spills; rewrite !HP1 by auto; tauto).
      assert (XA' : spills deps a (o_b o) o) by (unfold spills; rewrite !PA by lia; left; repeat split; congruence).
      assert (XB' : spills deps b (o_a o) o) by (unfold spills; rewrite !PB by lia; right; repeat split; congruence).
      assert (MX : forall c o', (c = a \/ c = b) -> In o' os -> crosses deps c o' -> o_elev o <= o_elev o').
      { intros c o' Hc Io' X. rewrite Hsplit in Io'. apply in_app_or in Io'. destruct Io' as [Io'|Io']; [|apply S2; auto].
        exfalso. revert X. destruct Hc as [-> | ->]; eapply done_crosses; eauto. }
      assert (Rold : forall k, k <> new -> rt k <> a -> rt k <> b -> rt' k = rt k).
      { intros k A B C. unfold rt'. destruct (Z.eqb_spec k new); [contradiction|]. destruct (Z.eqb_spec (rt k) a); [contradiction|].
        destruct (Z.eqb_spec (rt k) b); [contradiction|auto]. }
      assert (Rab : forall k, rt k = a \/ rt k = b -> rt' k = new).
      { intros k C. unfold rt'. destruct (Z.eqb_spec k new); auto. destruct (Z.eqb_spec (rt k) a); cbn [orb]; auto.
        destruct (Z.eqb_spec (rt k) b); auto. destruct C; contradiction. }
      assert (Rnew : rt' new = new) by (unfold rt'; rewrite Z.eqb_refl; auto).
      assert (Req : forall k k', k <> new -> k' <> new -> rt k = rt k' -> rt' k = rt' k').
      { intros k k' A B E. unfold rt'. destruct (Z.eqb_spec k new); [contradiction|]. destruct (Z.eqb_spec k' new); [contradiction|]. rewrite E. auto. }
      assert (ORPH : forall k p, links deps k p -> k <> a /\ k <> b).
      { intros k p [r [E [O [N P]]]]. split; intros ->; congruence. }
      (* children and pits are unchanged *)
      assert (KEEP : forall k r, ix deps k = Some r -> exists r', ix deps' k = Some r' /\ d_lchild r' = d_lchild r /\ d_rchild r' = d_rchild r /\
         d_pit r' = d_pit r /\ d_pit_elev r' = d_pit_elev r /\ d_count r' = d_count r /\ d_vol r' = d_vol r /\ d_total r' = d_total r /\
         d_label r' = d_label r /\ d_ocean_linked r' = d_ocean_linked r /\ d_ocean_parent r' = d_ocean_parent r).
      { intros k r E. destruct (Z.eq_dec k a) as [->|A]; [|destruct (Z.eq_dec k b) as [->|B]].
        - assert (r = da) by congruence. subst r. eexists. split; [exact Ea|]. repeat split.
        - assert (r = db) by congruence. subst r. eexists. split; [exact Eb|]. repeat split.
        - exists r. split; [apply OLD; auto|]. repeat split. }
      assert (BACK : forall k r', ix deps' k = Some r' -> k <> new -> exists r, ix deps k = Some r /\ d_lchild r' = d_lchild r /\ d_rchild r' = d_rchild r /\
         d_pit r' = d_pit r /\ d_pit_elev r' = d_pit_elev r /\ d_count r' = d_count r /\ d_vol r' = d_vol r /\ d_total r' = d_total r /\
         d_label r' = d_label r /\ d_ocean_linked r' = d_ocean_linked r /\ d_ocean_parent r' = d_ocean_parent r).
      { intros k r' E Hk. destruct (CASES k r' E) as [[-> _]|[[-> ->]|[[-> ->]|[_ [_ [_ E']]]]]]; [contradiction| | |].
        - exists da. split; auto. repeat split.
        - exists db. split; auto. repeat split.
        - exists r'. split; auto. repeat split. }
      split.
      - constructor.
        + lia.
        + rewrite Hlen. unfold deps'. lia.
        + destruct (t_ocean _ _ _ H) as [r0 [E0 N0]]. exists r0. split; auto.
        + intros k r' E N. destruct (CASES k r' E) as [[-> ->]|[[-> ->]|[[-> ->]|[X [Y [W E']]]]]].
          * split; auto. repeat split.
          * exfalso. apply PN. exact N.
          * exfalso. apply PN. exact N.
          * destruct (t_un _ _ _ H k r' E' N) as [A B]. split; auto. rewrite Rold; auto; congruence.
        + intros k r' E O. destruct (CASES k r' E) as [[-> ->]|[[-> ->]|[[-> ->]|[X [Y [W E']]]]]].
          * discriminate O.
          * exfalso. destruct Fda as [_ [_ [_ [_ F]]]]. cbn in O. congruence.
          * exfalso. destruct Fdb as [_ [_ [_ [_ F]]]]. cbn in O. congruence.
          * destruct (t_oc _ _ _ H k r' E' O) as [A [B [C [D [F [G G']]]]]]. rewrite !Rold; [auto 10| | | | | |]; try congruence; lia.
        + intros k r' d1 r1' E O P E1 Hd1.
          destruct (CASES k r' E) as [[-> ->]|[[-> ->]|[[-> ->]|[X [Y [W E']]]]]].
          * discriminate O.
          * exfalso. destruct Fda as [_ [_ [_ [_ F]]]]. cbn in O. congruence.
          * exfalso. destruct Fdb as [_ [_ [_ [_ F]]]]. cbn in O. congruence.
          * destruct (t_oc _ _ _ H k r' E' O) as [A [B [C [D [F [G G']]]]]].
            assert (d1 <> new).
            { intros ->. apply HP2 in P. destruct P as [P|[P|P]]; [lia| |].
              - apply PA in P; [congruence|lia].
              - apply PB in P; [congruence|lia]. }
            apply HP1 in P; auto. pose proof (part_rt _ _ _ H _ _ P) as R1.
            destruct (CASES d1 r1' E1) as [[-> ->]|[[-> ->]|[[-> ->]|[_ [_ [_ E1']]]]]]; try congruence.
            apply (t_sea _ _ _ H k r' d1 r1'); auto.
        + intros k p L. rewrite Hlen. apply HL in L. destruct L as [L|[-> [-> | ->]]].
          * destruct (t_link _ _ _ H k p L) as [A [B [C [r [rp [E1 [E2 [E3 [E4 E5]]]]]]]]]. fold new in A.
            split; [lia|]. split; auto. split; [apply Req; auto; lia|]. destruct (ORPH k p L) as [O1 O2'].
            destruct (KEEP p rp E2) as [rp' [E2' [K1 [K2 _]]]]. exists r, rp'. split; [apply OLD; auto|]. split; auto.
            rewrite K1, K2. auto.
          * split; [lia|]. split; [lia|]. split; [rewrite Rnew; apply Rab; auto|].
            eexists. eexists. split; [exact Ea|]. split; [exact En|]. split; [left; split; reflexivity|]. split; [cbn; lia|].
            cbn. apply HPm, PB; [lia|auto].
          * split; [lia|]. split; [lia|]. split; [rewrite Rnew; apply Rab; auto|].
            eexists. eexists. split; [exact Eb|]. split; [exact En|]. split; [right; split; reflexivity|]. split; [cbn; lia|].
            cbn. apply HPm, PA; [lia|auto].
        + intros k r' E Hk0. destruct (BACK k r' E ltac:(lia)) as [r [E2 [K1 [K2 _]]]]. rewrite K1, K2. apply (t_leaf _ _ _ H k r); auto.
        + intros k r' E Hk0. destruct (Z.eq_dec k new) as [->|Hk].
          * rewrite En in E. inversion E; subst r'. split; [exact Hab|]. intros c [-> | ->]; (split; [cbn; lia|apply HL; cbn; auto]).
          * destruct (BACK k r' E Hk) as [r [E2 [K1 [K2 _]]]]. rewrite K1, K2. destruct (t_meta _ _ _ H k r E2 Hk0) as [A B]. split; auto.
            intros c Hc. destruct (B c Hc). split; auto. apply HL; auto.
        + assert (LB : forall k j, (exists q, ix deps' j = Some q /\ d_ocean_parent q = true /\ d_parent q = k) <->
             (exists q, ix deps j = Some q /\ d_ocean_parent q = true /\ d_parent q = k)).
          { intros k j. split; intros [q [E [O P]]].
            - destruct (CASES j q E) as [[-> ->]|[[-> ->]|[[-> ->]|[X [Y [W E']]]]]]; [discriminate O| | |eauto].
              + exfalso. destruct Fda as [_ [_ [_ [_ F]]]]. cbn in O. congruence.
              + exfalso. destruct Fdb as [_ [_ [_ [_ F]]]]. cbn in O. congruence.
            - exists q. split; auto. apply OLD; auto; intros ->.
              + destruct Fda as [_ [_ [_ [_ F]]]]. congruence.
              + destruct Fdb as [_ [_ [_ [_ F]]]]. congruence. }
          intros k r' E. destruct (Z.eq_dec k new) as [->|Hk].
          * rewrite En in E. inversion E; subst r'. split; [constructor|]. intros j. rewrite LB. split; [intros []|].
            intros [q [Eq [O P]]]. exfalso. destruct (t_oc _ _ _ H j q Eq O) as [_ [B _]]. lia.
          * destruct (BACK k r' E Hk) as [r [E2 [_ [_ [_ [_ [_ [_ [_ [_ [K _]]]]]]]]]]]. rewrite K. destruct (t_linked _ _ _ H k r E2) as [A B].
            split; auto. intros j. rewrite LB. auto.
        + assert (FO : forall k, flows_to_ocean deps k -> flows_to_ocean deps' k).
          { intros k F. induction F as [|k r E N F IH]; [constructor|]. apply fto_parent with r; auto. apply OLD; auto; intros ->; congruence. }
          intros k Hk E. rewrite Hlen in Hk. apply FO.
          destruct (Z.eq_dec k new) as [->|Hkn]; [rewrite Rnew in E; lia|].
          destruct (Z.eq_dec (rt k) a) as [A|A]; [rewrite Rab in E by auto; lia|].
          destruct (Z.eq_dec (rt k) b) as [B|B]; [rewrite Rab in E by auto; lia|].
          apply (t_flows _ _ _ H); [fold new; lia|]. rewrite <- (Rold k); auto.
        + intros o' Ho'. apply in_app_or in Ho'. destruct Ho' as [Ho'|[<-|[]]].
          * destruct (Hos o' (Idone _ Ho')) as [B1 B2]. apply Req; [lia|lia|]. apply (t_done _ _ _ H); auto.
          * rewrite !Rab; auto.
        + intros k r' E N. destruct (CASES k r' E) as [[-> ->]|[[-> ->]|[[-> ->]|[X [Y [W E']]]]]].
          * exfalso. apply N. reflexivity.
          * exists o. split; [apply in_or_app; right; left; auto|]. split; auto. split; auto. split; [apply HSP; [lia|cbn; assumption]|].
            intros o' Io' Q. apply (MX a); auto. apply HX; auto. lia.
          * exists o. split; [apply in_or_app; right; left; auto|]. split; auto. split; auto. split; [apply HSP; [lia|cbn; assumption]|].
            intros o' Io' Q. apply (MX b); auto. apply HX; auto. lia.
          * destruct (t_out _ _ _ H k r' E' N) as [o1 [A [B [C [D1 D2]]]]]. exists o1. split; [apply in_or_app; auto|]. split; auto. split; auto.
            split; [apply HSP; auto|]. intros o' Io' Q. apply D2; auto. apply HX; auto.
        + intros k p r' rp' L E1 E2 N. apply HL in L. destruct L as [L|[-> _]].
          2: { exfalso. rewrite En in E2. inversion E2; subst rp'. apply N. reflexivity. }
          destruct (ORPH k p L) as [O1 O2'].
          destruct (CASES k r' E1) as [[-> _]|[[-> _]|[[-> _]|[_ [_ [_ E1']]]]]]; try congruence.
          { apply HLold in L. lia. }
          assert (OUT : exists z, d_out_elev r' = Some z /\ z <= o_elev o).
          { destruct (t_out _ _ _ H k r' E1') as [o1 [A [B _]]].
            - destruct L as [rr [X1 [X2 [X3 X4]]]]. congruence.
            - exists (o_elev o1). auto. }
          destruct OUT as [z [Z1 Z2]].
          destruct (CASES p rp' E2) as [[-> ->]|[[-> ->]|[[-> ->]|[X [Y [W E']]]]]].
          * exfalso. apply N. reflexivity.
          * exists z, (o_elev o). auto.
          * exists z, (o_elev o). auto.
          * apply (t_mono _ _ _ H k p); auto.
        + intros k r' E. destruct (Z.eq_dec k new) as [->|Hk].
          * rewrite En in E. inversion E; subst r'. reflexivity.
          * destruct (BACK k r' E Hk) as [r [E2 [_ [_ [_ [_ [_ [_ [_ [K _]]]]]]]]]]. rewrite K. apply (t_label _ _ _ H k r E2).
        + intros k r0 E0. destruct (t_pit0 _ _ _ H k r0 E0) as [r [E D]]. destruct (KEEP k r E) as [r' [E' [K1 [K2 [K3 [K4 [K5 [K6 [K7 _]]]]]]]]].
          exists r'. split; auto. rewrite K3, K4, K5, K6, K7. exact D.
        + intros k r' E Hk0. destruct (Z.eq_dec k new) as [->|Hk].
          * rewrite En in E. inversion E; subst r'. split; auto. split; auto. split; auto. split; auto. eexists. split; [exact Ea|reflexivity].
          * destruct (BACK k r' E Hk) as [r [E2 [K1 [K2 [K3 [K4 [K5 [K6 [K7 _]]]]]]]]]. rewrite K1, K3, K4, K5, K6, K7.
            destruct (t_pit1 _ _ _ H k r E2 Hk0) as [A [B [C [D [q [Eq Pq]]]]]].
            destruct (KEEP _ q Eq) as [q' [Eq' [_ [_ [Kq _]]]]]. split; auto. split; auto. split; auto. split; auto. exists q'. split; auto. congruence.
      - split; [rewrite Hz2, Hz1, Hlen, Hz; fold new; lia|]. split.
        + intros k Hk. rewrite Hlen in Hk. destruct (Z.eq_dec k new) as [->|Hkn].
          * rewrite Rnew. exact HRb2.
          * specialize (HR k ltac:(fold new; lia)). specialize (HR1 _ _ HR). specialize (HR2 _ _ HR1).
            unfold rt'. destruct (Z.eqb_spec k new); [contradiction|]. destruct (Z.eqb_spec (rt k) a) as [A|A]; cbn [orb].
            -- destruct (Z.eqb_spec new b); [lia|exact HR2].
            -- exact HR2.
        + exists (M + 1 + 1). split; [lia|]. split; auto. unfold deps'. lia.
    Qed.
  End Join.

  (** ** One outlet *)
  Lemma build_step_ok done o rest deps rt u : os = done ++ o :: rest -> TI done deps rt -> UI deps u rt ->
    exists deps' u' rt', build_step (S (2 * length deps0)) o (deps, u) = Ok (deps', u') /\ TI (done ++ [o]) deps' rt' /\ UI deps' u' rt'.
  Proof.
    intros Hs H HU. assert (Io : In o os) by (rewrite Hs; apply in_or_app; right; left; auto).
    destruct (Hos o Io) as [Ho1 Ho2]. pose proof (t_n0 _ _ _ H) as Hn.
    destruct HU as [Hz [HR [M [HM0 [HI HM]]]]].
    assert (Hf : forall v n, u_rank v n <= M -> 0 <= u_rank v n -> (Z.to_nat (M - u_rank v n) < S (2 * length deps0))%nat).
    { intros v n A B. assert (0 <= Z.of_nat (orphans deps)) by lia. lia. }
    assert (Ra : 0 <= o_a o < Z.of_nat (length deps)) by lia. assert (Rb : 0 <= o_b o < Z.of_nat (length deps)) by lia.
    unfold build_step.
    destruct (find_ok M (S (2 * length deps0)) u (o_a o) HI) as [ra [u1 [F1 [R1 [I1 [S1 [Z1 K1]]]]]]].
    { unfold inr; lia. } { pose proof (I_M _ _ HI (o_a o)) as X. unfold inr in X. apply Hf; apply X; lia. }
    rewrite F1. cbn [uf_call bind snd fst].
    destruct (find_ok M (S (2 * length deps0)) u1 (o_b o) I1) as [rb [u2 [F2 [R2 [I2 [S2 [Z2 K2]]]]]]].
    { unfold inr; lia. } { pose proof (I_M _ _ I1 (o_b o)) as X. unfold inr in X. apply Hf; apply X; lia. }
    rewrite F2. cbn [uf_call bind snd fst].
    assert (Era : ra = rt (o_a o)) by (apply (root_fun u (o_a o)); auto).
    assert (Erb : rb = rt (o_b o)) by (apply (root_fun u (o_b o)); [apply S1; auto|auto]).
    assert (HU2 : UI deps u2 rt).
    { split; [congruence|]. split; [intros k Hk; apply S2, S1, HR; auto|]. exists M. auto. }
    rewrite Era, Erb. unfold OCEAN.
    destruct (Z.eqb_spec (rt (o_a o)) (rt (o_b o))) as [E|E].
    - exists deps, u2, rt. split; auto. split; auto. constructor; try apply H.
      + intros o' Ho'. apply in_app_or in Ho'. destruct Ho' as [Ho'|[<-|[]]]; auto. apply (t_done _ _ _ H); auto.
      + intros d r Er N. destruct (t_out _ _ _ H d r Er N) as [o1 [A B]]. exists o1. split; auto. apply in_or_app; auto.
    - destruct (Z.eqb_spec (rt (o_a o)) 0) as [E0|E0]; cbn [orb].
      + destruct (link_step done o rest deps rt u2 (rt (o_b o)) (o_a o) (o_b o)) as [deps' [u' [A B]]]; auto; [congruence|].
        eexists _, _, _. split; [exact A|exact B].
      + destruct (Z.eqb_spec (rt (o_b o)) 0) as [E1|E1].
        * destruct (link_step done o rest deps rt u2 (rt (o_a o)) (o_b o) (o_a o)) as [deps' [u' [A B]]]; auto.
          eexists _, _, _. split; [exact A|exact B].
        * destruct (join_step done o rest deps rt u2 (rt (o_a o)) (rt (o_b o))) as [deps' [u' [A B]]]; auto.
          eexists _, _, _. split; [exact A|exact B].
  Qed.

  Lemma TI_start : TI [] deps0 (fun k => k).
  Proof.
    assert (N0 : ix deps0 0 <> None) by (intros E; assert (exists r, ix deps0 0 = Some r) as [r X] by (apply ix_some_iff; lia); congruence).
    constructor.
    - lia.
    - unfold orphans. assert (L : (length (filter no_parent deps0) <= length deps0)%nat); [apply filter_le|lia].
    - destruct (ix deps0 0) as [r|] eqn:E; [|contradiction]. exists r. split; auto. apply (Hdeps0 0 r E).
    - intros k r E _. split; auto. apply (Hdeps0 k r E).
    - intros k r E O. exfalso. destruct (Hdeps0 k r E) as [_ [[_ [_ [_ [_ F]]]] _]]. congruence.
    - intros k r d r' E O. exfalso. destruct (Hdeps0 k r E) as [_ [[_ [_ [_ [_ F]]]] _]]. congruence.
    - intros k p [r [E [_ [N _]]]]. exfalso. apply N. apply (Hdeps0 k r E).
    - intros k r E _. split; apply (Hdeps0 k r E).
    - intros k r E Hk. apply ixr in E. lia.
    - intros k r E. destruct (Hdeps0 k r E) as [_ [_ [_ [_ [L _]]]]]. rewrite L. split; [constructor|]. intros j. split; [intros []|].
      intros [q [Eq [O _]]]. exfalso. destruct (Hdeps0 j q Eq) as [_ [[_ [_ [_ [_ F]]]] _]]. congruence.
    - intros k _ ->. constructor.
    - intros o [].
    - intros d r E N. exfalso. apply N. apply (Hdeps0 d r E).
    - intros k p r rp [r' [E [_ [N _]]]]. exfalso. apply N. apply (Hdeps0 k r' E).
    - intros k r E. apply (Hdeps0 k r E).
    - intros k r E. exists r. auto 10.
    - intros k r E Hk. apply ixr in E. lia.
  Qed.

  Lemma UI_start : UI deps0 (uf_new (Z.of_nat (length deps0))) (fun k => k).
  Proof.
    split; auto. split; [intros k Hk; apply root_here; auto|]. exists 0. split; [lia|]. split.
    - apply Inv_new. change (2 ^ 31) with 2147483648 in *. change (2 ^ 32) with 4294967296. lia.
    - assert (L : (length (filter no_parent deps0) <= length deps0)%nat) by apply filter_le.
      unfold orphans. lia.
  Qed.

  Lemma build_ok : exists deps rt u, build os deps0 = Ok deps /\ TI os deps rt /\ UI deps u rt.
  Proof.
    unfold build.
    destruct (forM_inv (fun done s => exists rt, TI done (fst s) rt /\ UI (fst s) (snd s) rt) (build_step (S (2 * length deps0))) os)
      with (s := (deps0, uf_new (Z.of_nat (length deps0)))) as [s' [E [rt [A B]]]].
    - intros done o rest [deps u] Es [rt [A B]]. cbn [fst snd] in A, B.
      destruct (build_step_ok done o rest deps rt u Es A B) as [deps' [u' [rt' [E [A' B']]]]]. exists (deps', u'). split; auto. exists rt'. auto.
    - exists (fun k => k). split; [apply TI_start|apply UI_start].
    - rewrite E. cbn [bind]. exists (fst s'), rt, (snd s'). auto.
  Qed.

  (** ** The finished hierarchy *)
  Hypothesis Hconn : forall k, 0 <= k < n0 -> joined (map (fun o => (o_a o, o_b o)) os) k 0.

  Lemma final_rt deps rt u : TI os deps rt -> UI deps u rt -> forall k, 0 <= k < Z.of_nat (length deps) -> rt k = 0.
  Proof.
    intros H HU.
    assert (R0 : rt 0 = 0).
    { destruct (t_ocean _ _ _ H) as [r [E N]]. apply (t_un _ _ _ H 0 r E N). }
    assert (LEAF : forall k, 0 <= k < n0 -> rt k = 0).
    { assert (J : forall x y, joined (map (fun o => (o_a o, o_b o)) os) x y -> rt x = rt y).
      { intros x y J. induction J as [x y X|x|x y J IH|x y z J1 IH1 J2 IH2]; auto; try congruence.
        apply in_map_iff in X. destruct X as [o [E Io]]. inversion E; subst. apply (t_done _ _ _ H); auto. }
      intros k Hk. rewrite (J k 0) by (apply Hconn; auto). exact R0. }
    intros k. remember (Z.to_nat k) as m eqn:Em. revert k Em. induction m as [m IH] using (well_founded_induction lt_wf).
    intros k Em Hk. destruct (Z_lt_ge_dec k n0); [apply LEAF; lia|].
    destruct (proj2 (ix_some_iff deps k) Hk) as [r E]. destruct (t_meta _ _ _ H k r E ltac:(lia)) as [_ B].
    destruct (B (d_lchild r) (or_introl eq_refl)) as [C L]. destruct (t_link _ _ _ H _ _ L) as [_ [_ [R _]]]. rewrite <- R.
    apply (IH (Z.to_nat (d_lchild r))); auto; lia.
  Qed.

  Lemma final_parent deps rt u : TI os deps rt -> UI deps u rt -> forall d r, ix deps d = Some r -> d <> 0 -> d_parent r <> NO_PARENT.
  Proof.
    intros H HU d r E Hd N. destruct (t_un _ _ _ H d r E N) as [R _]. apply Hd. rewrite <- R. eapply final_rt; eauto. eapply ixr; eauto.
  Qed.

  Lemma build_well_formed : exists deps, build os deps0 = Ok deps /\ well_formed n0 deps /\
    (forall d r, ix deps d = Some r -> d <> 0 -> exists o, In o os /\ d_out_elev r = Some (o_elev o) /\ d_out r = Some (o_cell o) /\
        spills deps d (d_geolink r) o /\ forall o', In o' os -> crosses deps d o' -> o_elev o <= o_elev o') /\
    (forall k r d r', ix deps k = Some r -> d_ocean_parent r = true -> part_of deps (d_parent r) d -> ix deps d = Some r' -> d <> 0 ->
      exists z z', d_out_elev r = Some z /\ d_out_elev r' = Some z' /\ z' <= z) /\
    (forall k r0, ix deps0 k = Some r0 -> exists r, ix deps k = Some r /\ d_pit r = d_pit r0 /\ d_pit_elev r = d_pit_elev r0 /\
       d_count r = d_count r0 /\ d_vol r = d_vol r0 /\ d_total r = d_total r0) /\
    (forall k r, ix deps k = Some r -> n0 <= k -> d_count r = 0 /\ d_vol r = Some 0 /\ d_total r = 0 /\ d_pit_elev r = None).
  Proof.
    destruct build_ok as [deps [rt [u [E [H HU]]]]]. exists deps. split; auto.
    pose proof (final_rt _ _ _ H HU) as FR. pose proof (final_parent _ _ _ H HU) as FP.
    destruct (t_ocean _ _ _ H) as [r0 [E0 N0]]. destruct (t_un _ _ _ H 0 r0 E0 N0) as [R0 F0].
    split; [|split; [|split; [|split]]].
    - constructor.
      + pose proof (t_n0 _ _ _ H). pose proof (t_count _ _ _ H). assert (1 <= orphans deps)%nat; [|lia].
        assert (I : In r0 (filter no_parent deps)).
        { apply filter_In. split; [|apply Z.eqb_eq; auto]. unfold ix in E0. cbn in E0. destruct deps as [|x l]; [discriminate|inversion E0; left; auto]. }
        unfold orphans. destruct (filter no_parent deps); [destruct I|cbn [length]; lia].
      + exists r0. unfold fresh in F0. intuition.
      + intros d r Er Hd. destruct (d_ocean_parent r) eqn:O.
        * left. destruct (t_oc _ _ _ H d r Er O) as [A [B [C [D _]]]]. auto.
        * right. split; auto. assert (L : links deps d (d_parent r)) by (exists r; split; auto; split; auto; split; auto; apply (FP d); auto).
          destruct (t_link _ _ _ H _ _ L) as [A [B [C [r1 [rp [X1 [X2 X3]]]]]]]. assert (r1 = r) by congruence. subst r1.
          split; auto. split; auto. exists rp. auto.
      + apply (t_leaf _ _ _ H).
      + intros d r Er Hd. destruct (t_meta _ _ _ H d r Er Hd) as [A B]. split; auto. intros c Hc. destruct (B c Hc) as [C [q [L1 [L2 [L3 L4]]]]].
        split; auto. exists q. auto.
      + apply (t_linked _ _ _ H).
      + intros d Hd. apply (t_flows _ _ _ H); auto.
      + intros d r Er Hd. destruct (t_out _ _ _ H d r Er (FP d r Er Hd)) as [o [A [B _]]]. exists (o_elev o). split; auto.
        intros p z' O Ep Zp. destruct (t_mono _ _ _ H d (d_parent r) r p) as [z1 [z2 [Y1 [Y2 Y3]]]]; auto.
        * exists r. split; auto. split; auto. split; auto. apply (FP d); auto.
        * assert (Hp : d_parent r <> 0) by (intros X; rewrite X in Ep; unfold fresh in F0; assert (p = r0) by congruence; subst p; destruct F0 as [_ [F0 _]]; congruence).
          apply (FP _ _ Ep Hp).
        * assert (z1 = o_elev o) by congruence. assert (z2 = z') by congruence. subst. exact Y3.
      + apply (t_label _ _ _ H).
      + intros d r Er Hd. destruct (t_pit1 _ _ _ H d r Er Hd) as [_ [_ [_ [_ X]]]]. exact X.
    - intros d r Er Hd. destruct (t_out _ _ _ H d r Er (FP d r Er Hd)) as [o [A [B [C [D F]]]]]. exists o. auto 10.
    - apply (t_sea _ _ _ H).
    - apply (t_pit0 _ _ _ H).
    - intros k r Ek Hk. destruct (t_pit1 _ _ _ H k r Ek Hk) as [A [B [C [D _]]]]. auto.
  Qed.
End Build.
