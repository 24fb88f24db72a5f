(** The flooding phase of the depression hierarchy. *)
From Coq Require Import ZArith List Lia Bool Permutation.
From Verif Require Import Base Res RasterSpec RasterFacts FlowModel FlowProofs FlatsModel FlatsSpec FlatsProofs.
From Verif Require Import UFModel DHModel DHSpec.
Open Scope Z_scope.

Lemma gset_at {A} (g : grid A) c v d : gset g (fst c) (snd c) v (fst d) (snd d) = if ceqb d c then v else g (fst d) (snd d).
Proof. apply gset_cell. Qed.

Lemma gset_elev (g : grid Z) c v d : elev_at (gset g (fst c) (snd c) v) d = if ceqb d c then v else elev_at g d.
Proof. apply gset_cell. Qed.

Lemma filter_one {A} (f f' : A -> bool) (l : list A) (c : A) : NoDup l -> In c l -> f c = true -> f' c = false ->
  (forall d, d <> c -> f' d = f d) -> S (length (filter f' l)) = length (filter f l).
Proof.
  induction l as [|a l IH]; intros ND Hc H1 H2 H3; [destruct Hc|].
  inversion ND as [|? ? Hn ND']; subst. cbn [filter].
  destruct Hc as [->|Hc].
  - rewrite H1, H2. cbn [length]. f_equal. apply filter_ext_length.
    intros d Hd. apply H3. intros ->. contradiction.
  - assert (a <> c) by (intros ->; contradiction). rewrite H3 by auto. destruct (f a); cbn [length]; rewrite <- (IH ND' Hc H1 H2 H3); reflexivity.
Qed.

Lemma neighbours_iff t p q : neighbours t p q <-> exists n, In n (dirs t) /\ q = nbr t p n.
Proof.
  unfold neighbours. rewrite adjacent_iff. destruct q as [x y]. unfold nbr. cbn [fst snd]. split.
  - intros [n [Hn [-> ->]]]. exists n. auto.
  - intros [n [Hn E]]. inversion E. exists n. auto.
Qed.
Lemma neighbours_sym t p q : neighbours t p q -> neighbours t q p.
Proof. apply adjacent_sym. Qed.
Lemma dinverse_nbr t p n : In n (dirs t) -> nbr t (nbr t p n) (dinverse t n) = p /\ In (dinverse t n) (dirs t).
Proof.
  intros H. apply dirs_In in H. destruct p as [x y]. rewrite dirs_In. unfold nbr. cbn [fst snd].
  assert (E : dx t n + dx t (dinverse t n) = 0 /\ dy t n + dy t (dinverse t n) = 0 /\ (1 <= dinverse t n <= nmax t)%nat).
  { destruct t; cbn [nmax] in H.
    - assert (C : (n = 1 \/ n = 2 \/ n = 3 \/ n = 4 \/ n = 5 \/ n = 6 \/ n = 7 \/ n = 8)%nat) by lia.
      destruct C as [->|[->|[->|[->|[->|[->|[->| ->]]]]]]]; cbn; lia.
    - assert (C : (n = 1 \/ n = 2 \/ n = 3 \/ n = 4)%nat) by lia.
      destruct C as [->|[->|[->| ->]]]; cbn; lia. }
  split; [f_equal; lia|tauto].
Qed.

(** ** The outlet database *)
Definition okey (o : outlet) : Z * Z := (o_a o, o_b o).
Lemma new_outlet_eq a b c e : new_outlet a b c e = mkOut (Z.min a b) (Z.max a b) c e.
Proof. unfold new_outlet. rewrite Z.gtb_ltb. destruct (Z.ltb_spec b a); f_equal; lia. Qed.
Lemma db_key_iff o a b : db_key o a b = true <-> okey o = (Z.min a b, Z.max a b).
Proof.
  unfold db_key, okey. rewrite andb_true_iff, !Z.eqb_eq. split; [intros [-> ->]; auto|intros E; inversion E; auto].
Qed.

(** every old outlet survives, possibly lowered; the outlet for the pair is at most [e] *)
Lemma db_update_old db a b c e o : In o db -> exists o', In o' (db_update db a b c e) /\ okey o' = okey o /\ o_elev o' <= o_elev o.
Proof.
  induction db as [|x db IH]; intros H; [destruct H|]. cbn [db_update]. destruct (db_key x a b) eqn:K.
  - destruct H as [->|H].
    + eexists. split; [left; reflexivity|]. rewrite Z.gtb_ltb. destruct (Z.ltb_spec e (o_elev o)); cbn; split; auto; lia.
    + exists o. split; [right; auto|]. split; auto; lia.
  - destruct H as [->|H].
    + exists o. split; [left; auto|]. split; auto; lia.
    + destruct (IH H) as [o' [H1 H2]]. exists o'. split; [right; auto|auto].
Qed.
Lemma db_update_new db a b c e : exists o, In o (db_update db a b c e) /\ okey o = (Z.min a b, Z.max a b) /\ o_elev o <= e.
Proof.
  induction db as [|x db IH]; cbn [db_update].
  - eexists. split; [left; reflexivity|]. rewrite new_outlet_eq. cbn. split; auto; lia.
  - destruct (db_key x a b) eqn:K.
    + eexists. split; [left; reflexivity|]. apply db_key_iff in K. rewrite Z.gtb_ltb.
      destruct (Z.ltb_spec e (o_elev x)); cbn; split; auto; lia.
    + destruct IH as [o [H1 H2]]. exists o. split; [right; auto|auto].
Qed.
Lemma db_update_In db a b c e o : In o (db_update db a b c e) -> In o db \/ o = mkOut (Z.min a b) (Z.max a b) c e.
Proof.
  induction db as [|x db IH]; cbn [db_update].
  - intros [<-|[]]. rewrite new_outlet_eq. auto.
  - destruct (db_key x a b) eqn:K.
    + apply db_key_iff in K. intros [<-|H]; [|left; right; auto].
      destruct (o_elev x >? e); [right; unfold okey in K; inversion K; congruence|left; left; auto].
    + intros [<-|H]; [left; left; auto|]. destruct (IH H); [left; right; auto|auto].
Qed.
Lemma db_update_keys db a b c e : NoDup (map okey db) -> NoDup (map okey (db_update db a b c e)).
Proof.
  induction db as [|x db IH]; cbn [db_update map]; intros H.
  - constructor; [intros []|constructor].
  - inversion H as [|? ? Hn ND]; subst. destruct (db_key x a b) eqn:K; cbn [map].
    + assert (E : okey (if o_elev x >? e then mkOut (o_a x) (o_b x) c e else x) = okey x) by (destruct (o_elev x >? e); auto).
      rewrite E. constructor; auto.
    + constructor; [|auto]. intros Hin. apply in_map_iff in Hin. destruct Hin as [o [Eo Ho]].
      apply db_update_In in Ho. destruct Ho as [Ho| ->].
      * apply Hn. rewrite <- Eo. apply in_map; auto.
      * assert (F : db_key x a b = true) by (apply db_key_iff; rewrite <- Eo; reflexivity). congruence.
Qed.

Section Flood.
  Variables (t : topology) (w h : Z) (dem lab0 fd0 : grid Z).
  Notation inside := (inside w h).
  Notation pit := (pit t w h dem lab0).
  Notation runs_to := (runs_to t w h dem).
  Notation neighbours := (neighbours t).
  Notation "g @ c" := (elev_at g c) (at level 20).
  Hypothesis Hval : valid_labels w h lab0.
  Hypothesis Hsize : w * h < 2 ^ 31.

  Definition ncells : nat := (Z.to_nat w * Z.to_nat h)%nat.
  Lemma ncells_small : Z.of_nat ncells < 2 ^ 31.
  Proof.
    unfold ncells. rewrite Nat2Z.inj_mul. destruct (Z_lt_ge_dec w 0); [replace (Z.to_nat w) with 0%nat by lia; lia|].
    destruct (Z_lt_ge_dec h 0); [replace (Z.to_nat h) with 0%nat by lia; lia|]. rewrite !Z2Nat.id by lia. exact Hsize.
  Qed.

  Definition unl (g : grid Z) : nat := length (filter (fun c => g @ c =? NO_DEP) (cells w h)).
  Lemma unl_set g c v : inside c -> g @ c = NO_DEP -> v <> NO_DEP -> S (unl (gset g (fst c) (snd c) v)) = unl g.
  Proof.
    intros Hc Hg Hv. apply filter_one with (c := c); [apply cells_NoDup|apply cells_inside; auto| | |].
    - rewrite Hg. apply Z.eqb_refl.
    - rewrite gset_elev. destruct (ceqb_spec c c); [|congruence]. apply Z.eqb_neq; auto.
    - intros d Hd. rewrite gset_elev. destruct (ceqb_spec d c); [congruence|auto].
  Qed.
  Lemma unl_le g : (unl g <= ncells)%nat.
  Proof.
    unfold unl, ncells. rewrite <- cells_length. generalize (cells w h). induction l as [|a l IH]; cbn [filter length]; [lia|].
    destruct (_ =? _); cbn [length]; lia.
  Qed.

  (** all neighbours of [c] labelled, and the passes to other labels recorded *)
  Definition seen (lab : grid Z) (db : list outlet) (c q : cellt) : Prop :=
    lab @ q <> NO_DEP /\
    (lab @ q <> lab @ c -> exists o, In o db /\ okey o = (Z.min (lab @ c) (lab @ q), Z.max (lab @ c) (lab @ q)) /\
       o_elev o <= Z.max (dem @ c) (dem @ q)).
  Definition finished (lab : grid Z) (db : list outlet) (c : cellt) : Prop :=
    forall q, inside q -> neighbours c q -> seen lab db c q.

  Definition real_outlet (lab : grid Z) (nd : Z) (o : outlet) : Prop :=
    0 <= o_a o < o_b o /\ o_b o < nd /\
    exists p q, inside p /\ inside q /\ neighbours p q /\ lab @ p = o_a o /\ lab @ q = o_b o /\
      o_elev o = Z.max (dem @ p) (dem @ q) /\ (o_cell o = p \/ o_cell o = q) /\ dem @ (o_cell o) = o_elev o.

  Definition leaf_at (deps : list dep) (k : Z) (p : cellt) : Prop := ix deps k = Some (leaf_dep p (dem @ p) k).

  Record FI (ex : cellt -> Prop) (s : fstate) : Prop := {
    i_lab : forall c, inside c -> f_lab s @ c = NO_DEP \/ 0 <= f_lab s @ c < Z.of_nat (length (f_deps s));
    i_ocean : forall c, ocean_cell w h lab0 c -> f_lab s @ c = 0 /\ f_fd s @ c = fd0 @ c;
    i_fd : forall c, inside c -> f_lab s @ c = NO_DEP -> f_fd s @ c = fd0 @ c;
    i_pq : forall k c, In (k, c) (f_pq s) -> inside c /\ k = dem @ c /\ (f_lab s @ c <> NO_DEP \/ pit c);
    i_pit : forall c, pit c -> f_lab s @ c = NO_DEP -> In (dem @ c, c) (f_pq s);
    i_front : forall c, inside c -> f_lab s @ c <> NO_DEP -> In (dem @ c, c) (f_pq s) \/ finished (f_lab s) (f_db s) c \/ ex c;
    i_last : forall l k c, f_last s = Some l -> In (k, c) (f_pq s) -> l <= k;
    i_leads : forall c, inside c -> f_lab s @ c <> NO_DEP -> exists r, runs_to (f_lab s) (f_fd s) c r /\
       ((f_lab s @ c = 0 /\ ocean_cell w h lab0 r) \/ (1 <= f_lab s @ c /\ leaf_at (f_deps s) (f_lab s @ c) r));
    i_zero : ix (f_deps s) 0 = Some ocean_dep;
    i_deps : forall k, 1 <= k < Z.of_nat (length (f_deps s)) -> exists p, leaf_at (f_deps s) k p /\ pit p /\
       f_lab s @ p = k /\ f_fd s @ p = fd0 @ p;
    i_db : forall o, In o (f_db s) -> real_outlet (f_lab s) (Z.of_nat (length (f_deps s))) o;
    i_keys : NoDup (map okey (f_db s));
    i_size : (length (f_deps s) + unl (f_lab s) <= S ncells)%nat }.

  Lemma FI_len ex s : FI ex s -> Z.of_nat (length (f_deps s)) < NO_DEP.
  Proof.
    intros H. pose proof (i_size _ _ H). pose proof ncells_small. unfold NO_DEP.
    change (2 ^ 32) with 4294967296. change (2 ^ 31) with 2147483648 in *. lia.
  Qed.

  (** A path of flow directions survives the labelling of an unlabelled cell. *)
  Lemma runs_to_set lab fd q v u c r : lab @ q = NO_DEP -> lab @ c <> NO_DEP -> runs_to lab fd c r ->
    runs_to (gset lab (fst q) (snd q) v) (gset fd (fst q) (snd q) u) c r.
  Proof.
    intros Hq Hc H. induction H as [p Hp|p n p' r Hp Hn Hf E El Ed H IH].
    - constructor; auto.
    - assert (p <> q) by (intros ->; congruence).
      assert (p' <> q) by (intros ->; congruence).
      econstructor; eauto.
      + rewrite gset_elev. destruct (ceqb_spec p q); [congruence|auto].
      + rewrite !gset_elev. destruct (ceqb_spec p q); [congruence|]. destruct (ceqb_spec p' q); [congruence|]. auto.
      + apply IH. congruence.
  Qed.
  Lemma runs_to_lab lab fd q v c r : lab @ q = NO_DEP -> lab @ c <> NO_DEP -> runs_to lab fd c r ->
    runs_to (gset lab (fst q) (snd q) v) fd c r.
  Proof.
    intros Hq Hc H. induction H as [p Hp|p n p' r Hp Hn Hf E El Ed H IH].
    - constructor; auto.
    - assert (p <> q) by (intros ->; congruence).
      assert (p' <> q) by (intros ->; congruence).
      econstructor; eauto.
      + rewrite !gset_elev. destruct (ceqb_spec p q); [congruence|]. destruct (ceqb_spec p' q); [congruence|]. auto.
      + apply IH. congruence.
  Qed.

  Lemma seen_set lab db q v c p : lab @ q = NO_DEP -> lab @ c <> NO_DEP -> v <> NO_DEP ->
    seen lab db c p -> seen (gset lab (fst q) (snd q) v) db c p.
  Proof.
    intros Hq Hc Hv [H1 H2]. unfold seen.
    assert (c <> q) by (intros ->; congruence). assert (p <> q) by (intros ->; congruence).
    rewrite !gset_elev. destruct (ceqb_spec c q); [congruence|]. destruct (ceqb_spec p q); [congruence|]. auto.
  Qed.
  Lemma real_set lab q v nd nd' o : lab @ q = NO_DEP -> nd < NO_DEP -> nd <= nd' ->
    real_outlet lab nd o -> real_outlet (gset lab (fst q) (snd q) v) nd' o.
  Proof.
    intros Hq Hn Hn' [A [B [p [r [Hp [Hr [N [Lp [Lr R]]]]]]]]]. split; auto. split; [lia|].
    exists p, r. assert (p <> q) by (intros ->; lia). assert (r <> q) by (intros ->; lia).
    rewrite !gset_elev. destruct (ceqb_spec p q); [congruence|]. destruct (ceqb_spec r q); [congruence|]. intuition.
  Qed.
  Lemma seen_db lab db a b oc oe c p : seen lab db c p -> seen lab (db_update db a b oc oe) c p.
  Proof.
    intros [H1 H2]. split; auto. intros N. destruct (H2 N) as [o [A [B D]]].
    destruct (db_update_old db a b oc oe o A) as [o' [A' [B' D']]]. exists o'. split; auto. split; [congruence|lia].
  Qed.
  Lemma seen_sym lab db c p : lab @ c <> NO_DEP -> seen lab db c p -> seen lab db p c.
  Proof.
    intros Hc [H1 H2]. split; auto. intros N. destruct H2 as [o H]; [congruence|]. exists o.
    rewrite Z.min_comm, Z.max_comm, (Z.max_comm (dem @ p)). exact H.
  Qed.

  (** No unlabelled cell lies below the lowest cell of the queue. *)
  Lemma min_unlabelled (g : grid Z) c : inside c -> g @ c = NO_DEP ->
    exists m, inside m /\ g @ m = NO_DEP /\ dem @ m <= dem @ c /\ forall d, inside d -> g @ d = NO_DEP -> dem @ m <= dem @ d.
  Proof.
    intros Hc Hg. destruct (min_by_key (fun c => dem @ c) (filter (fun c => g @ c =? NO_DEP) (cells w h))) as [m [Hm Hall]].
    - intros E. assert (In c (filter (fun c => g @ c =? NO_DEP) (cells w h))); [|rewrite E in H; destruct H].
      apply filter_In. split; [apply cells_inside; auto|]. apply Z.eqb_eq; auto.
    - apply filter_In in Hm. destruct Hm as [Hm Em]. apply cells_inside in Hm. apply Z.eqb_eq in Em.
      assert (F : forall d, inside d -> g @ d = NO_DEP -> dem @ m <= dem @ d).
      { intros d Hd Ed. specialize (Hall d). rewrite Z.gtb_ltb, Z.ltb_ge in Hall. apply Hall. apply filter_In.
        split; [apply cells_inside; auto|apply Z.eqb_eq; auto]. }
      exists m. split; auto.
  Qed.

  Lemma land_unlabelled s ex c : FI ex s -> inside c -> f_lab s @ c = NO_DEP -> land_cell w h lab0 c.
  Proof.
    intros H Hc E. split; auto. intros Z0. destruct (i_ocean _ _ H c (conj Hc Z0)) as [A _]. rewrite A in E. discriminate E.
  Qed.

  (** either a pit, or some neighbour is lower *)
  Lemma pit_or_lower c : land_cell w h lab0 c -> pit c \/ exists q, inside q /\ neighbours c q /\ dem @ q < dem @ c.
  Proof.
    intros Hc.
    destruct (existsb (fun n => inGrid w h (fst (nbr t c n)) (snd (nbr t c n)) && (dem @ (nbr t c n) <? dem @ c)) (dirs t)) eqn:E.
    - right. apply existsb_exists in E. destruct E as [n [Hn E]]. apply andb_true_iff in E. destruct E as [E1 E2].
      exists (nbr t c n). split; [apply inside_grid; auto|]. split; [apply neighbours_iff; exists n; auto|]. apply Z.ltb_lt; auto.
    - left. split; auto. intros q Hq N. apply neighbours_iff in N. destruct N as [n [Hn ->]].
      apply Z.le_ngt. intros L. assert (X : existsb (fun n => inGrid w h (fst (nbr t c n)) (snd (nbr t c n)) && (dem @ (nbr t c n) <? dem @ c)) (dirs t) = true); [|congruence].
      apply existsb_exists. exists n. split; auto. apply andb_true_iff. split; [apply inside_grid; auto|apply Z.ltb_lt; auto].
  Qed.

  Lemma queue_low s e : FI (fun _ => False) s -> (forall k c, In (k, c) (f_pq s) -> e <= k) ->
    forall c, inside c -> f_lab s @ c = NO_DEP -> e <= dem @ c.
  Proof.
    intros H He c Hc Hl. destruct (min_unlabelled _ _ Hc Hl) as [m [Hm [Lm [Dm Hmin]]]].
    assert (e <= dem @ m); [|lia].
    destruct (pit_or_lower m) as [Hp|[q [Hq [N Hlow]]]]; [eapply land_unlabelled; eauto| |].
    - apply (He _ m). apply (i_pit _ _ H); auto.
    - assert (Lq : f_lab s @ q <> NO_DEP) by (intros E; specialize (Hmin q Hq E); lia).
      destruct (i_front _ _ H q Hq Lq) as [A|[A|[]]].
      + apply He in A. lia.
      + destruct (A m Hm (neighbours_sym _ _ _ N)) as [B _]. contradiction.
  Qed.

  (** when the queue is empty every cell has a label *)
  Lemma queue_empty s : FI (fun _ => False) s -> f_pq s = [] -> forall c, inside c -> f_lab s @ c <> NO_DEP.
  Proof.
    intros H Hq c Hc Hl.
    assert (L : dem @ c + 1 <= dem @ c); [|lia].
    apply (queue_low s (dem @ c + 1) H); auto. rewrite Hq. intros k d [].
  Qed.

  Definition low (lab : grid Z) (e : Z) : Prop := forall c, inside c -> lab @ c = NO_DEP -> e <= dem @ c.

  Lemma ix_app_old {A} (l : list A) x k : 0 <= k < Z.of_nat (length l) -> ix (l ++ [x]) k = ix l k.
  Proof.
    intros H. unfold ix. destruct (Z.ltb_spec k 0); [lia|]. rewrite nth_error_app1 by lia. reflexivity.
  Qed.
  Lemma ix_app_new {A} (l : list A) x : ix (l ++ [x]) (Z.of_nat (length l)) = Some x.
  Proof.
    unfold ix. destruct (Z.ltb_spec (Z.of_nat (length l)) 0); [lia|]. rewrite Nat2Z.id, nth_error_app2, Nat.sub_diag by lia. reflexivity.
  Qed.
  Lemma ix_lt {A} (l : list A) k x : ix l k = Some x -> 0 <= k < Z.of_nat (length l).
  Proof. intros E. apply ix_some_iff. eauto. Qed.

  (** what the loop over the neighbours needs to know when it starts *)
  Definition at_cell (s : fstate) (c : cellt) (m : nat) : Prop :=
    FI (eq c) s /\ inside c /\ f_lab s @ c <> NO_DEP /\ f_last s = Some (dem @ c) /\ low (f_lab s) (dem @ c) /\
    (length (f_pq s) + unl (f_lab s) < m)%nat.

  Lemma pop_ok tb i s ce c s1 : FI (fun _ => False) s -> dh_pop tb i s = Some ((ce, c), s1) ->
    exists s2, dh_label w h (ce, c) s1 = Ok (f_lab s2 @ c, s2) /\ ce = dem @ c /\
      at_cell s2 c (length (f_pq s) + unl (f_lab s)).
  Proof.
    intros H. unfold dh_pop. destruct (pq_pop key_gt (tb i) (f_pq s)) as [[x q]|] eqn:P; [|discriminate].
    intros E. inversion E; subst x s1. clear E. apply pq_pop_some in P. destruct P as [P Pmin].
    assert (Hin : In (ce, c) (f_pq s)) by (eapply Permutation_in; [apply Permutation_sym; exact P|left; auto]).
    destruct (i_pq _ _ H _ _ Hin) as [Hc [Ek Hk]]. subst ce.
    assert (Hmin : forall k d, In (k, d) (f_pq s) -> dem @ c <= k).
    { intros k d Hd. specialize (Pmin _ Hd). unfold key_gt in Pmin. cbn [fst] in Pmin. rewrite Z.gtb_ltb in Pmin. apply Z.ltb_ge in Pmin. exact Pmin. }
    assert (Hq : forall x, In x q -> In x (f_pq s)) by (intros x Hx; eapply Permutation_in; [apply Permutation_sym; exact P|right; auto]).
    assert (Hq' : forall k d, In (k, d) (f_pq s) -> d <> c -> In (k, d) q).
    { intros k d Hd Hn. apply (Permutation_in _ P) in Hd. destruct Hd as [Hd|Hd]; [inversion Hd; congruence|auto]. }
    assert (Hlen : length (f_pq s) = S (length q)) by (apply Permutation_length in P; exact P).
    pose proof (queue_low s (dem @ c) H Hmin) as Hlow.
    unfold dh_label. cbn [f_lab]. rewrite gat_in by auto. cbn [bind].
    change (f_lab s (fst c) (snd c)) with (f_lab s @ c).
    pose proof (i_lab _ _ H c Hc) as Hl.
    assert (LAB : f_lab s @ c <> NO_DEP ->
       at_cell (mkF (f_lab s) (f_fd s) q (Some (dem @ c)) (f_deps s) (f_db s)) c (length (f_pq s) + unl (f_lab s))).
    { intros Lc. split; [|split; [auto|split; [auto|split; [auto|split; [exact Hlow|cbn [f_pq f_lab]; lia]]]]].
      constructor; cbn [f_lab f_fd f_pq f_last f_deps f_db]; try apply H.
      - intros k d Hd. apply (i_pq _ _ H); auto.
      - intros d Hd Ld. apply Hq'; [apply (i_pit _ _ H); auto|intros ->; contradiction].
      - intros d Hd Ld. destruct (ceqb_spec d c) as [->|Hn]; [right; right; auto|].
        destruct (i_front _ _ H d Hd Ld) as [A|[A|[]]]; auto.
      - intros l k d Hl' Hd. inversion Hl'; subst. apply (Hmin k d); auto. }
    destruct (Z.eqb_spec (f_lab s @ c) OCEAN) as [E0|E0].
    { exists (mkF (f_lab s) (f_fd s) q (Some (dem @ c)) (f_deps s) (f_db s)). split; [reflexivity|]. split; auto. apply LAB. rewrite E0. discriminate. }
    destruct (Z.eqb_spec (f_lab s @ c) NO_DEP) as [E1|E1].
    2: { exists (mkF (f_lab s) (f_fd s) q (Some (dem @ c)) (f_deps s) (f_db s)). split; [reflexivity|]. split; auto. }
    (* a new depression *)
    cbn [f_deps f_fd f_pq f_last f_db].
    pose proof (FI_len _ _ H) as HL. unfold NO_DEP in HL.
    assert (Ew : w32 (Z.of_nat (length (f_deps s))) = Z.of_nat (length (f_deps s))) by (apply w32_id; lia).
    rewrite Ew. set (cl := Z.of_nat (length (f_deps s))) in *.
    assert (Hcl : cl <> NO_DEP) by (unfold NO_DEP; lia).
    assert (Hcl0 : 1 <= cl).
    { pose proof (ix_lt _ _ _ (i_zero _ _ H)). unfold cl. lia. }
    set (s2 := mkF (gset (f_lab s) (fst c) (snd c) cl) (f_fd s) q (Some (dem @ c)) (f_deps s ++ [leaf_dep c (dem @ c) cl]) (f_db s)).
    assert (Ec : f_lab s2 @ c = cl) by (unfold s2; cbn [f_lab]; rewrite gset_elev; destruct (ceqb_spec c c); congruence).
    assert (En : forall d, d <> c -> f_lab s2 @ d = f_lab s @ d).
    { intros d Hd. unfold s2. cbn [f_lab]. rewrite gset_elev. destruct (ceqb_spec d c); congruence. }
    assert (Eu : S (unl (f_lab s2)) = unl (f_lab s)) by (apply unl_set; auto).
    exists s2. split; [rewrite Ec; reflexivity|]. split; auto.
    assert (Hpit : pit c) by (destruct Hk; [contradiction|auto]).
    assert (Hlen2 : Z.of_nat (length (f_deps s2)) = cl + 1) by (unfold s2; cbn [f_deps]; rewrite app_length; cbn [length]; unfold cl; lia).
    assert (Eleaf : leaf_at (f_deps s2) cl c) by apply ix_app_new.
    split; [|split; [auto|split; [rewrite Ec; auto|split; [reflexivity|split]]]].
    2: { intros d Hd Ld. apply Hlow; auto. destruct (ceqb_spec d c) as [->|Hn]; auto. rewrite <- (En d Hn). auto. }
    2: { unfold s2 at 1. cbn [f_pq]. lia. }
    assert (Hleaf : forall k p, leaf_at (f_deps s) k p -> leaf_at (f_deps s2) k p).
    { intros k p Hp. unfold leaf_at, s2. cbn [f_deps]. rewrite ix_app_old; auto. eapply ix_lt; eauto. }
    constructor.
    - intros d Hd. rewrite Hlen2. destruct (ceqb_spec d c) as [->|Hn]; [rewrite Ec; right; lia|].
      rewrite En by auto. destruct (i_lab _ _ H d Hd) as [A|A]; [auto|right; fold cl in A; lia].
    - intros d Hd. destruct (ceqb_spec d c) as [->|Hn].
      + destruct Hd as [_ Hd]. destruct Hpit as [[_ Hpit] _]. contradiction.
      + rewrite En by auto. apply (i_ocean _ _ H d Hd).
    - intros d Hd Ld. assert (d <> c) by (intros ->; rewrite Ec in Ld; contradiction). rewrite En in Ld by auto.
      apply (i_fd _ _ H); auto.
    - intros k d Hd. destruct (i_pq _ _ H k d (Hq _ Hd)) as [A [B D]]. split; auto. split; auto.
      destruct (ceqb_spec d c) as [->|Hn]; [rewrite Ec; auto|rewrite En by auto; auto].
    - intros d Hd Ld. assert (d <> c) by (intros ->; rewrite Ec in Ld; contradiction).
      apply Hq'; auto. apply (i_pit _ _ H); auto. rewrite <- (En d); auto.
    - intros d Hd Ld. destruct (ceqb_spec d c) as [->|Hn]; [right; right; auto|]. rewrite En in Ld by auto.
      destruct (i_front _ _ H d Hd Ld) as [A|[A|[]]]; [left; apply Hq'; auto|].
      right; left. intros p Hp N. apply seen_set; auto.
    - intros l k d Hl' Hd. cbn in Hl'. inversion Hl'; subst. apply (Hmin k d). apply Hq. exact Hd.
    - intros d Hd Ld. destruct (ceqb_spec d c) as [->|Hn].
      + exists c. split; [constructor; auto|]. right. rewrite Ec. split; auto.
      + rewrite En in * by auto. destruct (i_leads _ _ H d Hd Ld) as [r [R C]]. exists r. split.
        * apply runs_to_lab; auto.
        * destruct C as [C|[C1 C2]]; [left; auto|right; split; auto].
    - unfold s2. cbn [f_deps]. rewrite ix_app_old; [apply (i_zero _ _ H)|fold cl; lia].
    - intros k Hk2. rewrite Hlen2 in Hk2. destruct (Z.eq_dec k cl) as [->|Hne].
      + exists c. split; auto. split; auto. split; auto.
        apply (i_fd _ _ H); auto.
      + destruct (i_deps _ _ H k) as [p [A [B [D F]]]]; [unfold cl in *; lia|]. exists p. split; auto. split; auto.
        split; [|exact F]. rewrite En; auto. intros ->. unfold NO_DEP in *; fold cl in Hk2; lia.
    - intros o Ho. apply (i_db _ _ H) in Ho. rewrite Hlen2. eapply real_set; eauto; unfold cl, NO_DEP in *; lia.
    - apply (i_keys _ _ H).
    - pose proof (i_size _ _ H). unfold s2 at 1. cbn [f_deps]. rewrite app_length. cbn [length]. lia.
  Qed.

  Lemma visit_ok m c cl n done s : at_cell s c m -> cl = f_lab s @ c -> In n (dirs t) ->
    (forall k, In k done -> inside (nbr t c k) -> seen (f_lab s) (f_db s) c (nbr t c k)) ->
    exists s', dh_visit t w h dem c (dem @ c) cl n s = Ok s' /\ at_cell s' c m /\ cl = f_lab s' @ c /\ forall k, In k (done ++ [n]) -> inside (nbr t c k) -> seen (f_lab s') (f_db s') c (nbr t c k).
  Proof.
    intros [H [Hc [Lc [Hlast [Hlow Hm]]]]] Ecl Hn Hdone. unfold dh_visit.
    destruct (inGrid w h (fst (nbr t c n)) (snd (nbr t c n))) eqn:G; cbn [negb].
    2: { exists s. split; auto. split; [repeat (split; [assumption|]); assumption|]. split; auto.
         intros k Hk Ik. apply in_app_or in Hk. destruct Hk as [Hk|[<-|[]]]; [auto|]. apply inside_grid in Ik. congruence. }
    assert (Hq : inside (nbr t c n)) by (apply inside_grid; auto).
    assert (N : neighbours c (nbr t c n)) by (apply neighbours_iff; exists n; auto).
    set (q := nbr t c n) in *.
    rewrite gat_in by auto. cbn [bind]. change (f_lab s (fst q) (snd q)) with (f_lab s @ q).
    destruct (Z.eqb_spec (f_lab s @ q) NO_DEP) as [Eq|Eq].
    - (* label and push *)
      rewrite gat_in by auto. cbn [bind]. change (dem (fst q) (snd q)) with (dem @ q).
      unfold dh_push. cbn [f_last f_lab f_fd f_pq f_deps f_db]. rewrite Hlast.
      pose proof (Hlow q Hq Eq) as Hge. destruct (Z.ltb_spec (dem @ q) (dem @ c)); [lia|].
      set (s' := mkF _ _ _ _ _ _). exists s'. split; auto.
      assert (Hne : c <> q) by (intros E; rewrite E in Lc; contradiction).
      assert (Hcl : cl <> NO_DEP) by congruence.
      assert (Eq' : f_lab s' @ q = cl) by (unfold s'; cbn [f_lab]; rewrite gset_elev; destruct (ceqb_spec q q); congruence).
      assert (En : forall d, d <> q -> f_lab s' @ d = f_lab s @ d).
      { intros d Hd. unfold s'. cbn [f_lab]. rewrite gset_elev. destruct (ceqb_spec d q); congruence. }
      assert (Fn : forall d, d <> q -> f_fd s' @ d = f_fd s @ d).
      { intros d Hd. unfold s'. cbn [f_fd]. rewrite gset_elev. destruct (ceqb_spec d q); congruence. }
      assert (Fq : f_fd s' @ q = Z.of_nat (dinverse t n)) by (unfold s'; cbn [f_fd]; rewrite gset_elev; destruct (ceqb_spec q q); congruence).
      assert (Eu : S (unl (f_lab s')) = unl (f_lab s)) by (apply unl_set; auto).
      destruct (i_lab _ _ H c Hc) as [X|Rc]; [contradiction|].
      assert (Lland : land_cell w h lab0 q) by (eapply land_unlabelled; eauto).
      split; [|split].
      + split; [|split; [auto|split; [rewrite En; auto|split; [auto|split]]]].
        2: { intros d Hd Ld. destruct (ceqb_spec d q) as [->|Hd']; [rewrite Eq' in Ld; contradiction|]. apply Hlow; auto. rewrite <- (En d); auto. }
        2: { unfold s' at 1. cbn [f_pq length]. lia. }
        constructor.
        * intros d Hd. change (f_deps s') with (f_deps s). destruct (ceqb_spec d q) as [->|Hd'].
          -- rewrite Eq', Ecl. auto.
          -- rewrite En by auto. apply (i_lab _ _ H); auto.
        * intros d Hd. destruct (ceqb_spec d q) as [->|Hd']; [destruct Hd as [_ Hd], Lland as [_ X]; contradiction|].
          rewrite En, Fn by auto. apply (i_ocean _ _ H); auto.
        * intros d Hd Ld. destruct (ceqb_spec d q) as [->|Hd']; [rewrite Eq' in Ld; contradiction|].
          rewrite Fn by auto. rewrite En in Ld by auto. apply (i_fd _ _ H); auto.
        * intros k d Hd. destruct Hd as [Hd|Hd]; [inversion Hd; subst; split; auto; split; auto; left; rewrite Eq'; auto|].
          destruct (i_pq _ _ H k d Hd) as [A [B D]]. split; auto. split; auto.
          destruct (ceqb_spec d q) as [->|Hd']; [left; rewrite Eq'; auto|rewrite En by auto; auto].
        * intros d Hd Ld. destruct (ceqb_spec d q) as [->|Hd']; [rewrite Eq' in Ld; contradiction|].
          right. rewrite En in Ld by auto. apply (i_pit _ _ H); auto.
        * intros d Hd Ld. destruct (ceqb_spec d q) as [->|Hd']; [left; left; auto|]. rewrite En in Ld by auto.
          destruct (i_front _ _ H d Hd Ld) as [A|[A|A]]; [left; right; auto| |right; right; auto].
          right; left. intros p Hp Np. apply seen_set; auto.
        * intros l k d Hl Hd. cbn in Hl. inversion Hl; subst l. destruct Hd as [Hd|Hd]; [inversion Hd; lia|].
          eapply (i_last _ _ H); eauto.
        * intros d Hd Ld. destruct (ceqb_spec d q) as [->|Hd'].
          -- destruct (i_leads _ _ H c Hc Lc) as [r [R C]]. exists r. split.
             ++ destruct (dinverse_nbr t c n Hn) as [D1 D2]. apply runs_step with (dinverse t n) c; auto.
                ** rewrite Eq', En, Ecl by auto. auto.
                ** apply runs_to_set; auto.
             ++ rewrite Eq', Ecl. exact C.
          -- rewrite En in * by auto. destruct (i_leads _ _ H d Hd Ld) as [r [R C]]. exists r. split; auto. apply runs_to_set; auto.
        * apply (i_zero _ _ H).
        * intros k Hk. change (f_deps s') with (f_deps s) in Hk. destruct (i_deps _ _ H k Hk) as [p [A [B [D F]]]]. exists p. pose proof (FI_len _ _ H). 
          assert (p <> q) by (intros E; rewrite E in D; rewrite D in Eq; unfold NO_DEP in *; lia). rewrite En, Fn by auto. auto.
        * intros o Ho. apply (i_db _ _ H) in Ho. pose proof (FI_len _ _ H). change (f_deps s') with (f_deps s). eapply real_set; eauto; lia.
        * apply (i_keys _ _ H).
        * pose proof (i_size _ _ H). change (f_deps s') with (f_deps s). lia.
      + rewrite En; auto.
      + intros k Hk Ik. change (f_db s') with (f_db s). destruct (ceqb_spec (nbr t c k) q) as [E|E].
        * rewrite E. split; [rewrite Eq'; auto|]. intros X. exfalso. apply X. rewrite Eq', En; auto.
        * apply in_app_or in Hk. destruct Hk as [Hk|[<-|[]]]; [|exfalso; apply E; reflexivity]. apply seen_set; auto.
    - destruct (Z.eqb_spec (f_lab s @ q) cl) as [El|El].
      + exists s. split; auto. split; [repeat (split; [assumption|]); assumption|]. split; auto.
        intros k Hk Ik. apply in_app_or in Hk. destruct Hk as [Hk|[<-|[]]]; [auto|]. fold q. split; auto. intros X. congruence.
      + (* a pass between two watersheds *)
        rewrite gat_in by auto. cbn [bind]. change (dem (fst q) (snd q)) with (dem @ q).
        set (oc := if dem @ q >? dem @ c then q else c).
        set (oe := Z.max (dem @ c) (dem @ q)).
        assert (Eo : (if dem @ q >? dem @ c then (q, dem @ q) else (c, dem @ c)) = (oc, oe)).
        { unfold oc, oe. rewrite Z.gtb_ltb. destruct (Z.ltb_spec (dem @ c) (dem @ q)); f_equal; lia. }
        rewrite Eo. eexists. split; [reflexivity|]. cbn [f_lab f_db].
        assert (Hoc : (oc = c \/ oc = q) /\ dem @ oc = oe).
        { unfold oc, oe. rewrite Z.gtb_ltb. destruct (Z.ltb_spec (dem @ c) (dem @ q)); split; auto; lia. }
        destruct (i_lab _ _ H c Hc) as [X|Rc]; [contradiction|]. destruct (i_lab _ _ H q Hq) as [X|Rq]; [contradiction|].
        split; [|split; auto].
        * split; [|split; [auto|split; [auto|split; [auto|split; auto]]]].
          constructor; cbn [f_lab f_fd f_pq f_last f_deps f_db]; try apply H.
          -- intros d Hd Ld. destruct (i_front _ _ H d Hd Ld) as [A|[A|A]]; auto.
             right; left. intros p Hp Np. apply seen_db; auto.
          -- intros o Ho. apply db_update_In in Ho. destruct Ho as [Ho| ->]; [apply (i_db _ _ H); auto|].
             split; [cbn; lia|]. split; [cbn; lia|]. cbn [o_a o_b o_elev o_cell].
             destruct (Z_lt_ge_dec cl (f_lab s @ q)) as [Hlt|Hge].
             ++ exists c, q. rewrite Z.min_l, Z.max_r by lia. unfold oe in *. intuition.
             ++ exists q, c. rewrite Z.min_r, Z.max_l by lia. unfold oe in *. rewrite (Z.max_comm (dem @ q)).
                split; auto. split; auto. split; [apply neighbours_sym; auto|]. intuition.
          -- apply db_update_keys. apply (i_keys _ _ H).
        * intros k Hk Ik. apply in_app_or in Hk. destruct Hk as [Hk|[<-|[]]]; [apply seen_db; auto|]. fold q. split; auto.
          intros _. destruct (db_update_new (f_db s) cl (f_lab s @ q) oc oe) as [o [A [B D]]]. exists o. rewrite <- Ecl. auto.
  Qed.

  Lemma body_ok tb i s ce c s1 : FI (fun _ => False) s -> dh_pop tb i s = Some ((ce, c), s1) ->
    exists s', dh_body t w h dem (ce, c) s1 = Ok s' /\ FI (fun _ => False) s' /\ (length (f_pq s') + unl (f_lab s') < length (f_pq s) + unl (f_lab s))%nat.
  Proof.
    intros H P. destruct (pop_ok _ _ _ _ _ _ H P) as [s2 [E [-> A]]]. unfold dh_body. cbn [fst snd]. rewrite E. cbn [bind fst snd].
    set (cl := f_lab s2 @ c) in *.
    set (m := (length (f_pq s) + unl (f_lab s))%nat) in *.
    destruct (forM_inv (fun done s => at_cell s c m /\ cl = f_lab s @ c /\
        forall k, In k done -> inside (nbr t c k) -> seen (f_lab s) (f_db s) c (nbr t c k))
       (dh_visit t w h dem c (dem @ c) cl) (dirs t)) with (s := s2) as [s' [E' [A' [L' S']]]].
    - intros done n rest st Ed [A1 [A2 A3]]. destruct (visit_ok m c cl n done st A1 A2) as [st' [V1 V2]]; auto.
      + rewrite Ed. apply in_or_app. right; left; auto.
      + exists st'. auto.
    - split; [exact A|]. split; [reflexivity|]. intros k [].
    - exists s'. split; [exact E'|]. destruct A' as [I [Hc [Lc [Hlast [Hlow Hm]]]]]. split; [|exact Hm].
      constructor; try apply I.
      intros d Hd Ld. destruct (i_front _ _ I d Hd Ld) as [B|[B|<-]]; auto.
      right; left. intros q Hq N. apply neighbours_iff in N. destruct N as [n [Hn ->]]. apply S'; auto.
  Qed.

  Lemma while_ok tb : forall fuel i s, FI (fun _ => False) s -> (length (f_pq s) + unl (f_lab s) <= fuel)%nat ->
    exists s', whileR (dh_pop tb) (dh_body t w h dem) fuel i s = Some (Ok s') /\ FI (fun _ => False) s' /\ f_pq s' = [].
  Proof.
    induction fuel as [|f IH]; intros i s H Hf; cbn [whileR]; destruct (dh_pop tb i s) as [[[ce c] s1]|] eqn:P.
    - destruct (body_ok _ _ _ _ _ _ H P) as [s' [_ [_ L]]]. lia.
    - exists s. split; auto. split; auto. unfold dh_pop in P.
      destruct (pq_pop key_gt (tb i) (f_pq s)) as [[x q]|] eqn:Q; [discriminate|]. apply pq_pop_none in Q; auto.
      intros Hne. destruct (min_by_key (fst : Z * cellt -> Z) _ Hne) as [a [A B]]. exists a. split; auto.
    - destruct (body_ok _ _ _ _ _ _ H P) as [s' [E [H' L]]]. rewrite E. apply IH; auto. lia.
    - exists s. split; auto. split; auto. unfold dh_pop in P.
      destruct (pq_pop key_gt (tb i) (f_pq s)) as [[x q]|] eqn:Q; [discriminate|]. apply pq_pop_none in Q; auto.
      intros Hne. destruct (min_by_key (fst : Z * cellt -> Z) _ Hne) as [a [A B]]. exists a. split; auto.
  Qed.

  (** ** Starting the flood *)
  Lemma check_labels_ok : check_labels w h lab0 = Ok tt.
  Proof.
    unfold check_labels.
    destruct (forM_inv (fun _ _ => True) (fun (c : cellt) (_ : unit) =>
      do l <- gat w h lab0 (fst c) (snd c); if l =? OCEAN then Ok tt else if l =? NO_DEP then Ok tt else Thrown) (scan w h)) with (s := tt) as [[] [E _]]; auto.
    intros done c rest s E _. exists tt. split; auto.
    assert (Hc : inside c). { destruct c as [x y]. apply scan_In. rewrite E. apply in_or_app. right; left; auto. }
    rewrite gat_in by auto. cbn [bind]. change (lab0 (fst c) (snd c)) with (lab0 @ c).
    destruct (Hval c Hc) as [-> | ->]; reflexivity.
  Qed.

  Definition coastal (c : cellt) : bool :=
    existsb (fun n => inGrid w h (fst (nbr t c n)) (snd (nbr t c n)) && negb (lab0 @ (nbr t c n) =? OCEAN)) (dirs t).
  Definition lower (c : cellt) : bool :=
    existsb (fun n => inGrid w h (fst (nbr t c n)) (snd (nbr t c n)) && (dem @ (nbr t c n) <? dem @ c)) (dirs t).
  Definition fo (c : cellt) : option cellt := if negb (lab0 @ c =? OCEAN) then None else if coastal c then Some c else None.
  Definition fl (c : cellt) : option cellt := if lab0 @ c =? OCEAN then None else if lower c then None else Some c.

  Lemma scan_inside c : In c (scan w h) <-> inside c.
  Proof. destruct c as [x y]. apply scan_In. Qed.

  Lemma ocean_seeds_ok : ocean_seeds t w h lab0 = Ok (keep fo (scan w h)).
  Proof.
    apply collectM_ok. intros c Hc. apply scan_inside in Hc. rewrite gat_in by auto. cbn [bind].
    unfold fo. change (lab0 (fst c) (snd c)) with (lab0 @ c). destruct (negb (lab0 @ c =? OCEAN)); auto.
    rewrite (anyM_ok _ _ (fun n => inGrid w h (fst (nbr t c n)) (snd (nbr t c n)) && negb (lab0 @ (nbr t c n) =? OCEAN))); [reflexivity|].
    intros n _. destruct (inGrid w h (fst (nbr t c n)) (snd (nbr t c n))) eqn:G; cbn [negb andb]; auto.
    rewrite gat_in by (apply inside_grid; auto). reflexivity.
  Qed.
  Lemma land_seeds_ok : land_seeds t w h dem lab0 = Ok (keep fl (scan w h)).
  Proof.
    apply collectM_ok. intros c Hc. apply scan_inside in Hc. rewrite gat_in by auto. cbn [bind].
    unfold fl. change (lab0 (fst c) (snd c)) with (lab0 @ c). destruct (lab0 @ c =? OCEAN); auto.
    rewrite gat_in by auto. cbn [bind].
    rewrite (anyM_ok _ _ (fun n => inGrid w h (fst (nbr t c n)) (snd (nbr t c n)) && (dem @ (nbr t c n) <? dem @ c))); [reflexivity|].
    intros n _. destruct (inGrid w h (fst (nbr t c n)) (snd (nbr t c n))) eqn:G; cbn [negb andb]; auto.
    rewrite gat_in by (apply inside_grid; auto). reflexivity.
  Qed.

  Lemma coastal_iff c : coastal c = true <-> exists q, land_cell w h lab0 q /\ neighbours c q.
  Proof.
    unfold coastal. rewrite existsb_exists. split.
    - intros [n [Hn E]]. apply andb_true_iff in E. destruct E as [E1 E2]. apply negb_true_iff, Z.eqb_neq in E2.
      exists (nbr t c n). split; [split; [apply inside_grid; auto|auto]|apply neighbours_iff; eauto].
    - intros [q [[Hq Lq] N]]. apply neighbours_iff in N. destruct N as [n [Hn ->]]. exists n. split; auto.
      apply andb_true_iff. split; [apply inside_grid; auto|apply negb_true_iff, Z.eqb_neq; auto].
  Qed.
  Lemma lower_iff c : lower c = true <-> exists q, inside q /\ neighbours c q /\ dem @ q < dem @ c.
  Proof.
    unfold lower. rewrite existsb_exists. split.
    - intros [n [Hn E]]. apply andb_true_iff in E. destruct E as [E1 E2]. apply Z.ltb_lt in E2.
      exists (nbr t c n). split; [apply inside_grid; auto|]. split; [apply neighbours_iff; eauto|auto].
    - intros [q [Hq [N L]]]. apply neighbours_iff in N. destruct N as [n [Hn ->]]. exists n. split; auto.
      apply andb_true_iff. split; [apply inside_grid; auto|apply Z.ltb_lt; auto].
  Qed.
  Lemma fo_iff c d : fo c = Some d <-> d = c /\ lab0 @ c = 0 /\ coastal c = true.
  Proof.
    unfold fo, OCEAN. destruct (Z.eqb_spec (lab0 @ c) 0); cbn [negb].
    - destruct (coastal c).
      + split; [intros X; inversion X; subst; repeat split; auto|intros [-> _]; auto].
      + split; [discriminate|intros [_ [_ X]]; discriminate].
    - split; [discriminate|tauto].
  Qed.
  Lemma fl_iff c d : inside c -> (fl c = Some d <-> d = c /\ pit c).
  Proof.
    intros Hc. unfold fl, OCEAN. destruct (Z.eqb_spec (lab0 @ c) 0).
    - split; [discriminate|]. intros [_ [[_ X] _]]. contradiction.
    - destruct (lower c) eqn:E.
      + split; [discriminate|]. intros [_ [_ X]]. apply lower_iff in E. destruct E as [q [Hq [N L]]]. specialize (X q Hq N). lia.
      + split; [intros X; inversion X; subst; split; auto|intros [-> _]; auto].
        split; [split; auto|]. intros q Hq N. apply Z.le_ngt. intros L. assert (lower d = true); [|congruence]. apply lower_iff. eauto.
  Qed.

  Lemma push_ok l : forall s, f_last s = None -> (forall c, In c l -> inside c) ->
    push_seeds w h dem l s = Ok (mkF (f_lab s) (f_fd s) (rev (map (fun c => (dem @ c, c)) l) ++ f_pq s) (f_last s) (f_deps s) (f_db s)).
  Proof.
    unfold push_seeds. induction l as [|c l IH]; intros s Hs Hl; cbn [forM map rev app].
    - destruct s; reflexivity.
    - rewrite gat_in by (apply Hl; left; auto). cbn [bind]. unfold dh_push. rewrite Hs. cbn [bind].
      rewrite IH; [|reflexivity|intros d Hd; apply Hl; right; auto]. cbn [f_lab f_fd f_pq f_last f_deps f_db].
      rewrite <- app_assoc. reflexivity.
  Qed.

  Lemma keep_filter {A} (f : A -> option A) (g : A -> bool) l : (forall a, f a <> None -> g a = true) ->
    (length (keep f l) <= length (filter g l))%nat.
  Proof.
    intros H. induction l as [|a l IH]; cbn [keep filter length]; [lia|].
    specialize (H a). destruct (f a); [rewrite H by discriminate; cbn [length]; lia|]. destruct (g a); cbn [length]; lia.
  Qed.
  Lemma filter_split {A} (f : A -> bool) l : (length (filter f l) + length (filter (fun a => negb (f a)) l) = length l)%nat.
  Proof. induction l as [|a l IH]; cbn [filter length]; auto. destruct (f a); cbn [negb length]; lia. Qed.
  Lemma scan_cells : Permutation (scan w h) (cells w h).
  Proof.
    apply NoDup_Permutation; [apply scan_NoDup|apply cells_NoDup|]. intros c. rewrite scan_inside, cells_inside. reflexivity.
  Qed.

  Definition fseeds : list (Z * cellt) :=
    rev (map (fun c => (dem @ c, c)) (keep fl (scan w h))) ++ rev (map (fun c => (dem @ c, c)) (keep fo (scan w h))) ++ [].
  Definition fstart : fstate := mkF lab0 fd0 fseeds None [ocean_dep] [].

  Lemma fseeds_In k c : In (k, c) fseeds <-> inside c /\ k = dem @ c /\ (pit c \/ lab0 @ c = 0 /\ coastal c = true).
  Proof.
    unfold fseeds. rewrite app_nil_r, in_app_iff, <- !in_rev, !in_map_iff. split.
    - intros [[d [E H]]|[d [E H]]]; inversion E; subst; apply keep_In in H; destruct H as [i [Hi Ei]]; apply scan_inside in Hi.
      + apply fl_iff in Ei; auto. destruct Ei as [-> Hp]. auto.
      + apply fo_iff in Ei. destruct Ei as [-> [E1 E2]]. auto.
    - intros [Hc [-> [Hp|[E1 E2]]]].
      + left. exists c. split; auto. apply keep_In. exists c. split; [apply scan_inside; auto|apply fl_iff; auto].
      + right. exists c. split; auto. apply keep_In. exists c. split; [apply scan_inside; auto|apply fo_iff; auto].
  Qed.

  Lemma fstart_FI : FI (fun _ => False) fstart.
  Proof.
    assert (ND : forall c, inside c -> lab0 @ c <> 0 -> lab0 @ c = NO_DEP) by (intros c Hc X; destruct (Hval c Hc); [contradiction|auto]).
    assert (ND' : forall c, inside c -> lab0 @ c <> NO_DEP -> lab0 @ c = 0) by (intros c Hc X; destruct (Hval c Hc); [auto|contradiction]).
    constructor; cbn [fstart f_lab f_fd f_pq f_last f_deps f_db].
    - intros c Hc. cbn [length]. destruct (Hval c Hc) as [-> | ->]; [right; lia|left; auto].
    - intros c [Hc E]. auto.
    - intros c _ _. reflexivity.
    - intros k c H. apply fseeds_In in H. destruct H as [Hc [-> [Hp|[E _]]]]; split; auto; split; auto. left. change (f_lab fstart) with lab0. rewrite E. discriminate.
    - intros c Hp _. apply fseeds_In. destruct Hp as [[Hc L] X]. split; auto. split; auto. left. split; [split; auto|auto].
    - intros c Hc L. apply ND' in L; auto. destruct (coastal c) eqn:E; [left; apply fseeds_In; auto|].
      right; left. intros q Hq N. assert (lab0 @ q = 0).
      { destruct (Z.eq_dec (lab0 @ q) 0); auto. assert (coastal c = true); [|congruence]. apply coastal_iff. exists q. split; [split; auto|auto]. }
      split; [rewrite H; discriminate|]. intros X. congruence.
    - discriminate.
    - intros c Hc L. apply ND' in L; auto. exists c. split; [constructor; auto|]. left. split; auto. split; auto.
    - reflexivity.
    - cbn [length]. intros; lia.
    - intros o [].
    - constructor.
    - cbn [length]. pose proof (unl_le lab0). lia.
  Qed.

  Lemma fstart_size : (length fseeds + unl lab0 <= 2 * ncells)%nat.
  Proof.
    unfold fseeds. rewrite app_nil_r, app_length, !rev_length, !map_length.
    assert (A : (length (keep fl (scan w h)) <= length (filter (fun c => negb (lab0 @ c =? OCEAN)%Z) (scan w h)))%nat).
    { apply keep_filter. intros c. unfold fl. destruct (lab0 @ c =? OCEAN); cbn; [congruence|auto]. }
    assert (B : (length (keep fo (scan w h)) <= length (filter (fun c => (lab0 @ c =? OCEAN)%Z) (scan w h)))%nat).
    { apply keep_filter. intros c. unfold fo. destruct (lab0 @ c =? OCEAN); cbn; congruence. }
    pose proof (filter_split (fun c => lab0 @ c =? OCEAN) (scan w h)) as S.
    pose proof (Permutation_length scan_cells) as P. rewrite cells_length in P. fold ncells in P. pose proof (unl_le lab0). unfold cellt in *. lia.
  Qed.

  (** no coast: the seeds are missing *)
  Lemma no_coast : keep fo (scan w h) = [] <-> ~ has_coast t w h lab0.
  Proof.
    split.
    - intros E [p [q [[Hp Op] [Hq N]]]]. assert (In p (keep fo (scan w h))); [|rewrite E in H; destruct H].
      apply keep_In. exists p. split; [apply scan_inside; auto|]. apply fo_iff. split; auto. split; auto. apply coastal_iff. eauto.
    - intros H. destruct (keep fo (scan w h)) as [|c l] eqn:E; auto. exfalso. apply H.
      assert (In c (keep fo (scan w h))) by (rewrite E; left; auto). apply keep_In in H0. destruct H0 as [p [Hp Ep]].
      apply scan_inside in Hp. apply fo_iff in Ep. destruct Ep as [-> [E1 E2]]. apply coastal_iff in E2. destruct E2 as [q [Hq N]].
      exists p, q. split; [split; auto|auto].
  Qed.

  Lemma dh_flood_throws tb : ~ has_coast t w h lab0 -> dh_flood t w h dem tb lab0 fd0 = Some Thrown.
  Proof.
    intros H. apply no_coast in H. unfold dh_flood. rewrite check_labels_ok. cbn [bind]. rewrite ocean_seeds_ok. cbn [bind]. rewrite H. reflexivity.
  Qed.

  Lemma dh_flood_ok tb : has_coast t w h lab0 ->
    exists s, dh_flood t w h dem tb lab0 fd0 = Some (Ok s) /\ FI (fun _ => False) s /\ f_pq s = [] /\
      forall c, inside c -> f_lab s @ c <> NO_DEP.
  Proof.
    intros H. unfold dh_flood. rewrite check_labels_ok. cbn [bind]. rewrite ocean_seeds_ok. cbn [bind].
    destruct (Nat.eqb_spec (length (keep fo (scan w h))) 0) as [E|E].
    { exfalso. apply no_coast; auto. destruct (keep fo (scan w h)); [auto|discriminate]. }
    rewrite land_seeds_ok. cbn [bind].
    rewrite push_ok; [|reflexivity|].
    2: { intros c Hc. apply keep_In in Hc. destruct Hc as [d [Hd Ed]]. apply fo_iff in Ed. destruct Ed as [-> _]. apply scan_inside; auto. }
    cbn [bind f_lab f_fd f_pq f_last f_deps f_db].
    rewrite push_ok; [|reflexivity|].
    2: { intros c Hc. apply keep_In in Hc. destruct Hc as [d [Hd Ed]]. apply scan_inside in Hd. apply fl_iff in Ed; auto. destruct Ed as [-> _]; auto. }
    cbn [bind f_lab f_fd f_pq f_last f_deps f_db]. change (mkF _ _ _ _ _ _) with fstart.
    destruct (while_ok tb (2 * (Z.to_nat w * Z.to_nat h)) 0 fstart fstart_FI fstart_size) as [s [A [B D]]].
    exists s. split; auto. split; auto. split; auto. apply queue_empty; auto.
  Qed.

  Lemma NoDup_map_inj {A B} (f : A -> B) l a b : NoDup (map f l) -> In a l -> In b l -> f a = f b -> a = b.
  Proof.
    induction l as [|x l IH]; cbn [map]; intros ND Ha Hb E; [destruct Ha|]. inversion ND as [|? ? Hn ND']; subst.
    destruct Ha as [->|Ha], Hb as [->|Hb]; auto.
    - exfalso. apply Hn. rewrite E. apply in_map; auto.
    - exfalso. apply Hn. rewrite <- E. apply in_map; auto.
  Qed.

  Lemma zrange_nth a n k : (k < n)%nat -> nth_error (zrange a n) k = Some (a + Z.of_nat k).
  Proof.
    revert a k. induction n as [|n IH]; intros a k H; [lia|]. destruct k as [|k]; cbn [zrange nth_error]; [f_equal; lia|].
    rewrite IH by lia. f_equal. lia.
  Qed.
  Lemma combine_nth {A B} (l : list A) (l' : list B) k a b : nth_error l k = Some a -> nth_error l' k = Some b ->
    nth_error (combine l l') k = Some (a, b).
  Proof.
    revert l' k. induction l as [|x l IH]; intros [|y l'] [|k]; cbn [combine nth_error]; try discriminate; auto.
    congruence.
  Qed.
  Lemma leaves_length pits : length (leaves dem pits) = length pits.
  Proof. unfold leaves. rewrite map_length, combine_length, zrange_length. lia. Qed.
  Lemma leaves_nth pits k p : nth_error pits k = Some p -> nth_error (leaves dem pits) k = Some (leaf_dep p (dem @ p) (Z.of_nat k + 1)).
  Proof.
    intros E. unfold leaves. assert (k < length pits)%nat by (apply nth_error_Some; congruence).
    rewrite (map_nth_error _ _ _ (combine_nth _ _ _ _ _ (zrange_nth 1 _ _ H) E)). cbn [fst snd]. f_equal. f_equal. lia.
  Qed.

  Lemma flood_spec tb : has_coast t w h lab0 ->
    exists s pits, dh_flood t w h dem tb lab0 fd0 = Some (Ok s) /\ f_deps s = ocean_dep :: leaves dem pits /\
      watersheds t w h dem lab0 fd0 (f_lab s) (f_fd s) pits /\
      all_passes t w h dem (f_lab s) (Z.of_nat (length pits) + 1) (f_db s) /\ (length pits <= ncells)%nat.
  Proof.
    intros HC. destruct (dh_flood_ok tb HC) as [s [E [H [Q L]]]]. exists s.
    destruct (f_deps s) as [|d0 ds] eqn:ED.
    { exfalso. pose proof (i_zero _ _ H) as Z0. rewrite ED in Z0. discriminate. }
    assert (D0 : d0 = ocean_dep). { pose proof (i_zero _ _ H) as Z0. rewrite ED in Z0. cbn in Z0. congruence. }
    set (pc := fun d : dep => match d_pit d with Some p => p | None => (0, 0) end).
    assert (HP : forall k d, nth_error ds k = Some d -> let p := pc d in d = leaf_dep p (dem @ p) (Z.of_nat k + 1) /\
       pit p /\ f_lab s @ p = Z.of_nat k + 1 /\ f_fd s @ p = fd0 @ p).
    { intros k d Hd. assert (k < length ds)%nat by (apply nth_error_Some; congruence).
      destruct (i_deps _ _ H (Z.of_nat k + 1)) as [p [A B]]; [rewrite ED; cbn [length]; lia|].
      unfold leaf_at in A. rewrite ED in A. unfold ix in A. destruct (Z.ltb_spec (Z.of_nat k + 1) 0); [lia|].
      replace (Z.to_nat (Z.of_nat k + 1)) with (S k) in A by lia. cbn [nth_error] in A. rewrite Hd in A. inversion A; subst d.
      cbn [pc leaf_dep d_pit]. auto. }
    set (pits := map pc ds).
    assert (Hlen : length pits = length ds) by apply map_length.
    assert (EL : ds = leaves dem pits).
    { apply ix_ext; [rewrite leaves_length; auto|]. intros i Hi. unfold ix. destruct (Z.ltb_spec i 0); [lia|].
      destruct (nth_error ds (Z.to_nat i)) as [d|] eqn:Ed; [|apply nth_error_None in Ed; lia].
      rewrite (leaves_nth pits (Z.to_nat i) (pc d)) by (apply map_nth_error; auto). f_equal. apply HP; auto. }
    assert (HP' : forall k p, nth_error pits k = Some p -> pit p /\ f_lab s @ p = Z.of_nat k + 1 /\ f_fd s @ p = fd0 @ p).
    { intros k p Hp. unfold pits in Hp. rewrite nth_error_map in Hp. destruct (nth_error ds k) as [d|] eqn:Ed; [|discriminate].
      inversion Hp; subst p. apply HP; auto. }
    exists pits. split; auto. split; [congruence|].
    assert (LAB : forall p, inside p -> 0 <= f_lab s @ p <= Z.of_nat (length pits)).
    { intros p Hp. destruct (i_lab _ _ H p Hp) as [X|X]; [exfalso; apply (L p); auto|]. rewrite ED in X. cbn [length] in X. lia. }
    assert (FIN : forall c, inside c -> finished (f_lab s) (f_db s) c).
    { intros c Hc. destruct (i_front _ _ H c Hc (L c Hc)) as [X|[X|[]]]; auto. rewrite Q in X. destruct X. }
    split; [|split; [split; [|split]|]].
    - constructor; auto; try apply H.
      intros p Hp. destruct (i_leads _ _ H p Hp (L p Hp)) as [r [R C]]. exists r. split; auto.
      destruct C as [C|[C1 C2]]; [left; auto|right].
      exists (Z.to_nat (f_lab s @ p - 1)). split; [lia|]. unfold leaf_at in C2. rewrite ED in C2. unfold ix in C2.
      destruct (Z.ltb_spec (f_lab s @ p) 0); [lia|]. replace (Z.to_nat (f_lab s @ p)) with (S (Z.to_nat (f_lab s @ p - 1))) in C2 by lia.
      cbn [nth_error] in C2. unfold pits. rewrite nth_error_map, C2. reflexivity.
    - apply (i_keys _ _ H).
    - intros o Ho. destruct (i_db _ _ H o Ho) as [A [B [p [q [Hp [Hq [N [Lp [Lq [Eo [Co Do]]]]]]]]]]].
      split; auto. split; [rewrite ED in B; cbn [length] in B; unfold cellt in *; lia|]. split.
      + exists p, q. auto 10.
      + intros c' z' [p' [q' [Hp' [Hq' [Lp' [Lq' [N' [Ez _]]]]]]]].
        destruct (FIN p' Hp' q' Hq' N') as [_ F]. destruct F as [o' [Ho' [K' E']]]; [lia|].
        rewrite Lp', Lq', Z.min_l, Z.max_r in K' by lia. assert (o' = o); [|rewrite H0 in *; lia].
        apply (NoDup_map_inj okey (f_db s)); auto. apply (i_keys _ _ H).
    - intros p q Hp Hq N Lpq. destruct (FIN p Hp q Hq N) as [_ F]. destruct F as [o [Ho [K _]]]; [lia|].
      rewrite Z.min_l, Z.max_r in K by lia. exists o. unfold okey in K. inversion K. auto.
    - pose proof (i_size _ _ H) as S. rewrite ED in S. cbn [length] in S. unfold cellt in *. lia.
  Qed.
End Flood.
