From Coq Require Import ZArith List Lia Bool Permutation.
From Verif Require Import Base Res BFS RasterSpec RasterFacts FlowModel FlowProofs FlatsModel FlatsSpec.
Open Scope Z_scope.

(** ** Loops over the neighbours *)
Lemma firstM_ok {I A} (l : list I) (p : I -> res (option A)) (f : I -> option A) :
  (forall i, In i l -> p i = Ok (f i)) ->
  exists r, firstM l p = Ok r /\
    match r with Some a => exists i, In i l /\ f i = Some a | None => forall i, In i l -> f i = None end.
Proof.
  induction l as [|i l IH]; intros H; cbn [firstM].
  - exists None. split; [reflexivity|]. intros i [].
  - rewrite (H i) by (left; auto). cbn [bind]. destruct (f i) as [a|] eqn:E.
    + exists (Some a). split; [reflexivity|]. exists i. split; [left; auto|auto].
    + destruct IH as [r [Er Hr]]; [intros; apply H; right; auto|]. exists r. split; [exact Er|].
      destruct r as [a|]; [destruct Hr as [j [Hj Ej]]; exists j; split; [right; auto|auto]|].
      intros j [<-|Hj]; auto.
Qed.

Lemma anyM_ok {I} (l : list I) (p : I -> res bool) (f : I -> bool) :
  (forall i, In i l -> p i = Ok (f i)) -> anyM l p = Ok (existsb f l).
Proof.
  induction l as [|i l IH]; intros H; cbn [anyM existsb]; [reflexivity|].
  rewrite (H i) by (left; auto). cbn [bind]. destruct (f i); cbn [orb]; auto. apply IH. intros; apply H; right; auto.
Qed.

Fixpoint keep {I A} (f : I -> option A) (l : list I) : list A :=
  match l with [] => [] | i :: l' => match f i with Some a => a :: keep f l' | None => keep f l' end end.

Lemma collectM_ok {I A} (l : list I) (p : I -> res (option A)) (f : I -> option A) :
  (forall i, In i l -> p i = Ok (f i)) -> collectM l p = Ok (keep f l).
Proof.
  induction l as [|i l IH]; intros H; cbn [collectM keep]; [reflexivity|].
  rewrite (H i) by (left; auto). cbn [bind]. rewrite IH by (intros; apply H; right; auto). cbn [bind].
  destruct (f i); reflexivity.
Qed.

Lemma keep_In {I A} (f : I -> option A) l a : In a (keep f l) <-> exists i, In i l /\ f i = Some a.
Proof.
  induction l as [|i l IH]; cbn [keep]; [split; [intros []|intros [i [[] _]]]|].
  split.
  - destruct (f i) as [b|] eqn:E.
    + intros [<-|H]; [exists i; split; [left; auto|auto]|]. apply IH in H. destruct H as [j [Hj Ej]]. exists j. split; [right; auto|auto].
    + intros H. apply IH in H. destruct H as [j [Hj Ej]]. exists j. split; [right; auto|auto].
  - intros [j [[<-|Hj] Ej]].
    + rewrite Ej. left; auto.
    + assert (In a (keep f l)) by (apply IH; eauto). destruct (f i); [right|]; auto.
Qed.

Lemma keep_length {I A} (f : I -> option A) l : (length (keep f l) <= length l)%nat.
Proof. induction l as [|i l IH]; cbn [keep length]; [lia|]. destruct (f i); cbn [length]; lia. Qed.

Lemma touching_iff c d : touching c d <-> exists n, In n (dirs D8) /\ d = step8 c n.
Proof.
  unfold touching. rewrite adjacent_iff. destruct c as [x y], d as [x' y']. unfold step8. cbn [fst snd]. split.
  - intros [n [Hn [H1 H2]]]. exists n. split; auto. congruence.
  - intros [n [Hn E]]. inversion E. exists n. auto.
Qed.

Lemma touching_sym p q : touching p q -> touching q p.
Proof. apply adjacent_sym. Qed.

Lemma cells_inside w h c : In c (cells w h) <-> inside w h c.
Proof. destruct c as [x y]. unfold inside, in_raster. cbn [fst snd]. apply cells_In. Qed.

Lemma gat_in {A} w h (g : grid A) c : inside w h c -> gat w h g (fst c) (snd c) = Ok (g (fst c) (snd c)).
Proof. intros H. apply gat_ok. exact H. Qed.

Lemma inside_grid w h c : inside w h c <-> inGrid w h (fst c) (snd c) = true.
Proof. apply in_raster_iff. Qed.

Lemma inside_dec w h c : inside w h c \/ ~ inside w h c.
Proof. rewrite inside_grid. destruct (inGrid w h (fst c) (snd c)); auto. Qed.

Lemma gset_cell {A} (g : grid A) c v d : gset g (fst c) (snd c) v (fst d) (snd d) = if ceqb d c then v else g (fst d) (snd d).
Proof.
  destruct (ceqb_spec d c) as [->|Hn]; [apply gset_same|]. apply gset_other.
  intros E. apply Hn. destruct c, d. cbn [fst snd] in E. exact E.
Qed.

(** ** Flats as connected components *)
Section Comp.
  Variables (e : grid Z) (nd w h : Z) (flat : cell -> Prop).
  Notation data := (has_data e nd w h).
  Notation lstep := (level_step e nd w h).
  Notation sflat := (same_flat e nd w h).

  Lemma lstep_sym p q : lstep p q -> lstep q p.
  Proof. intros [A [B [D E]]]. split; auto. split; auto. split; [apply touching_sym; auto|auto]. Qed.
  Lemma sflat_left p q r : lstep p q -> sflat q r -> sflat p r.
  Proof.
    intros H S. induction S as [q Hq|q r s S IH Hs].
    - apply same_flat_step with p; auto. apply same_flat_here. apply H.
    - apply same_flat_step with r; auto.
  Qed.
  Lemma sflat_trans p q r : sflat p q -> sflat q r -> sflat p r.
  Proof. intros S. induction S as [|p q s S IH Hs]; auto. intros H. apply IH. apply sflat_left with s; auto. Qed.
  Lemma sflat_sym p q : sflat p q -> sflat q p.
  Proof. induction 1 as [p Hp|p q r S IH Hs]; [apply same_flat_here; auto|]. apply sflat_left with q; auto. apply lstep_sym; auto. Qed.
  Lemma sflat_data p q : sflat p q -> data p /\ data q.
  Proof. induction 1 as [p Hp|p q r S [A B] Hs]; auto. split; auto. apply Hs. Qed.
  Lemma sflat_elev p q : sflat p q -> elev_at e p = elev_at e q.
  Proof. induction 1 as [|p q r S IH Hs]; auto. destruct Hs as [_ [_ [_ E]]]. congruence. Qed.
  Lemma sflat_step p q : lstep p q -> sflat p q.
  Proof. intros H. apply same_flat_step with p; auto. apply same_flat_here. apply H. Qed.

  Notation outlet := (outlet e nd w h flat).
  Notation drainable := (drainable e nd w h flat).
  Notation from_outlet := (from_outlet e nd w h flat).
  Notation from_high := (from_high e nd w h flat).

  Lemma drainable_flat p q : drainable p -> sflat p q -> drainable q.
  Proof. intros [o [Ho S]] S'. exists o. split; auto. apply sflat_trans with p; auto. Qed.
  Lemma outlet_drainable p : outlet p -> drainable p.
  Proof. intros H. exists p. split; auto. apply same_flat_here. apply H. Qed.

  Hypothesis flat_dec : forall p, flat p \/ ~ flat p.
  Hypothesis flat_data : forall p, flat p -> data p.

  (** every flat cell of a drainable flat is reached from an outlet over flat cells *)
  Lemma drainable_reached p : flat p -> drainable p -> exists n, from_outlet n p.
  Proof.
    intros Hf [o [Ho S]].
    assert (G : forall q, sflat o q -> flat q -> exists n, from_outlet n q).
    { intros q Sq. induction Sq as [q Hq|q r s Sq IH Hs]; intros Hfq.
      - destruct Ho as [_ [Hn _]]. contradiction.
      - destruct (flat_dec r) as [Hr|Hr].
        + destruct (IH Ho S Hr) as [n Hn]. exists (Datatypes.S n). eapply fo_S; eauto.
        + exists 1%nat. apply fo_S with r; auto. apply fo_0. split; [apply Hs|]. split; auto. exists s. auto. }
    eauto.
  Qed.

  Lemma from_outlet_drainable n p : from_outlet n p -> drainable p.
  Proof.
    induction 1 as [p Ho|n p q Hn IH Hs Hf]; [apply outlet_drainable; auto|].
    apply drainable_flat with p; auto. apply sflat_step; auto.
  Qed.
  Lemma from_outlet_pos n p : from_outlet n p -> flat p -> (0 < n)%nat.
  Proof. destruct 1 as [p Ho|]; [intros Hf; destruct Ho as [_ [Hn _]]; contradiction|lia]. Qed.
  Lemma from_outlet_S n p : from_outlet (S n) p -> flat p /\ exists q, from_outlet n q /\ lstep q p.
  Proof. intros H. inversion H as [|k q r A B D]; subst. split; auto. exists q. auto. Qed.
  Lemma from_outlet_cases n p : from_outlet n p -> outlet p /\ n = 0%nat \/ flat p /\ (0 < n)%nat.
  Proof. destruct 1; [left; auto|right; split; auto; lia]. Qed.
  Lemma from_high_flat n p : from_high n p -> flat p.
  Proof. destruct 1 as [p H|]; auto. apply H. Qed.
  Lemma from_high_step n p q : from_high n p -> lstep p q -> flat q -> from_high (S n) q.
  Proof. intros; eapply fh_S; eauto. Qed.

  Lemma least_unique (P : nat -> Prop) a b : least P a -> least P b -> a = b.
  Proof. intros [A A'] [B B']. apply A' in B. apply B' in A. lia. Qed.
  Lemma least_exists (P : nat -> Prop) (dec : forall n, P n \/ ~ P n) n : P n -> exists m, least P m.
  Proof.
    induction n as [n IH] using (well_founded_induction lt_wf). intros H.
    assert (D : (exists m, (m < n)%nat /\ P m) \/ forall m, (m < n)%nat -> ~ P m).
    { clear H IH. induction n as [|n [[m [Hm Pm]]|Hn]]; [right; intros; lia|left; exists m; split; auto; lia|].
      destruct (dec n) as [Pn|Pn]; [left; exists n; split; auto; lia|].
      right. intros m Hm. destruct (Nat.eq_dec m n) as [->|]; auto. apply Hn. lia. }
    destruct D as [[m [Hm Pm]]|Hn]; [eapply IH; eauto|]. exists n. split; auto.
    intros m Pm. destruct (Nat.le_gt_cases n m); auto. exfalso. eapply Hn; eauto.
  Qed.

  Notation mask_value := (mask_value e nd w h flat).
  Notation outlet_dist := (outlet_dist e nd w h flat).
  Notation high_dist := (high_dist e nd w h flat).
  Notation high_extent := (high_extent e nd w h flat).

  Lemma high_extent_unique p b b' : high_extent p b -> high_extent p b' -> b = b'.
  Proof.
    intros [[q [S D]] M] [[q' [S' D']] M']. apply M' in D; auto. apply M in D'; auto. lia.
  Qed.

  Lemma mask_value_unique p m m' : mask_value p m -> mask_value p m' -> m = m'.
  Proof.
    intros [[t [T H]]|[T ->]] [[t' [T' H']]|[T' ->]]; auto.
    - rewrite (least_unique _ _ _ T T') in *.
      destruct H as [[a [b [A [B ->]]]]|[A ->]]; destruct H' as [[a' [b' [A' [B' ->]]]]|[A' ->]]; auto.
      + rewrite (least_unique _ _ _ A A'), (high_extent_unique _ _ _ B B'). lia.
      + exfalso. apply (A' a). apply A.
      + exfalso. apply (A a'). apply A'.
    - exfalso. apply (T' t). apply T.
    - exfalso. apply (T t'). apply T'.
  Qed.

  Lemma mask_value_nonneg p m : mask_value p m -> 0 <= m.
  Proof.
    intros [[t [T [[a [b [A [[_ B] ->]]]]|[_ ->]]]]|[_ ->]]; try lia.
    assert (a <= b)%nat; [|lia]. apply (B p a); auto. apply same_flat_here.
    destruct A as [A _]. apply flat_data. eapply from_high_flat; eauto.
  Qed.

  (** A mask with the specified values leads from every flat cell of a drainable flat to a strictly
      smaller value in the same flat. *)
  Lemma mask_descends (mask : cell -> Z) : (forall p, inside w h p -> mask_value p (mask p)) ->
    forall p, flat p -> drainable p -> exists q, lstep p q /\ mask q < mask p.
  Proof.
    intros HM p Hf Hd. destruct (drainable_reached p Hf Hd) as [n0 Hn0].
    pose proof (HM p (proj1 (flat_data p Hf))) as Mp.
    destruct Mp as [[t [T Hp]]|[T _]]; [|exfalso; apply (T n0); auto].
    pose proof (from_outlet_pos _ _ (proj1 T) Hf) as Ht. destruct t as [|t]; [lia|].
    destruct (from_outlet_S _ _ (proj1 T)) as [_ [q [Hq Hs]]]. exists q. split; [apply lstep_sym; auto|].
    assert (Tq : outlet_dist q t).
    { split; auto. intros m Hm. assert (S t <= S m)%nat by (apply (proj2 T); eapply fo_S; eauto). lia. }
    assert (Hqd : data q) by apply Hs.
    pose proof (HM q (proj1 Hqd)) as Mq.
    destruct Mq as [[t' [T' Hmq]]|[T' _]]; [|exfalso; apply (T' t); auto].
    rewrite (least_unique _ _ _ T' Tq) in *. clear T'.
    destruct Hp as [[a [b [A [B Ep]]]]|[A Ep]].
    - assert (Hab : (a <= b)%nat) by (apply (proj2 B p); auto; apply same_flat_here; auto).
      destruct Hmq as [[a' [b' [A' [B' Eq]]]]|[A' Eq]]; [|lia].
      assert (b' = b).
      { apply (high_extent_unique q); auto. destruct B as [[r [Sr Dr]] Br]. split.
        - exists r. split; auto. apply sflat_left with p; auto.
        - intros r' m Sr' Dr'. apply (Br r'); auto. apply sflat_left with q; auto. apply lstep_sym; auto. }
      subst b'. assert (a <= S a')%nat; [|lia]. apply (proj2 A). apply from_high_step with q; auto. apply A'.
    - destruct Hmq as [[a' [b' [A' [B' Eq]]]]|[A' Eq]]; [|lia].
      exfalso. apply (A (S a')). apply from_high_step with q; auto. apply A'.
  Qed.

  Lemma mask_positive (mask : cell -> Z) : (forall p, inside w h p -> mask_value p (mask p)) ->
    forall p, data p -> (0 < mask p <-> outlet p \/ (flat p /\ drainable p)).
  Proof.
    intros HM p Hp. pose proof (HM p (proj1 Hp)) as M. split.
    - intros Hm. destruct M as [[t [T _]]|[_ M]]; [|lia].
      destruct (from_outlet_cases _ _ (proj1 T)) as [[? _]|[Hf _]]; auto.
      right. split; auto. eapply from_outlet_drainable. apply T.
    - intros H. assert (E : exists n, from_outlet n p).
      { destruct H as [H|[Hf Hd]]; [exists 0%nat; apply fo_0; auto|apply drainable_reached; auto]. }
      destruct E as [n Hn]. destruct M as [[t [T M]]|[T _]]; [|exfalso; eapply T; eauto].
      destruct M as [[a [b [A [[_ B] ->]]]]|[_ ->]]; [|lia].
      assert (a <= b)%nat; [|lia]. apply (B p a); auto. apply same_flat_here; auto.
  Qed.
End Comp.
