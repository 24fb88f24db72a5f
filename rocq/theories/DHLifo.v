(** The flood with a queue that returns the most recently pushed of the lowest cells (as the radix heap does):
    a plateau without lower neighbours becomes one depression. *)
From Coq Require Import ZArith List Lia Bool Permutation.
From Verif Require Import Base Res RasterSpec RasterFacts FlowModel FlowProofs FlatsModel FlatsSpec FlatsProofs.
From Verif Require Import UFModel DHModel DHSpec DHFlood.
Open Scope Z_scope.

Lemma positions_hd {A} (P : A -> bool) : forall q k c cs, positions P k q = c :: cs ->
  exists l1 x l2, q = l1 ++ x :: l2 /\ P x = true /\ (forall y, In y l1 -> P y = false) /\ c = (k + length l1)%nat.
Proof.
  induction q as [|a q IH]; intros k c cs H; [discriminate H|]. cbn in H. destruct (P a) eqn:E.
  - injection H as <- _. exists [], a, q. cbn. split; auto. split; auto. split; [intros y []|lia].
  - destruct (IH _ _ _ H) as [l1 [x [l2 [-> [B [C D]]]]]]. exists (a :: l1), x, l2. cbn [app length]. split; auto. split; auto.
    split; [intros y [<-|Hy]; auto|lia].
Qed.
Lemma remove_nth_mid {A} (l1 : list A) x l2 : remove_nth (length l1) (l1 ++ x :: l2) = l1 ++ l2.
Proof. induction l1 as [|a l1 IH]; cbn; [reflexivity|]. f_equal. exact IH. Qed.

(** choice 0 takes the first of the minimal elements *)
Lemma pq_pop_first {A} (gt : A -> A -> bool) q a q' : pq_pop gt 0 q = Some (a, q') ->
  exists l1 l2, q = l1 ++ a :: l2 /\ q' = l1 ++ l2 /\ (forall b, In b q -> gt a b = false) /\
    (forall y, In y l1 -> exists b, In b q /\ gt y b = true).
Proof.
  unfold pq_pop. destruct (positions _ 0 q) as [|c cs] eqn:E; [discriminate|].
  destruct (positions_hd _ _ _ _ _ E) as [l1 [x [l2 [Q [P1 [P2 P3]]]]]]. cbn [Nat.add] in P3. subst c.
  replace (nth (0 mod length (length l1 :: cs)) (length l1 :: cs) 0%nat) with (length l1).
  2: { rewrite Nat.mod_0_l by discriminate. reflexivity. }
  assert (NE : nth_error q (length l1) = Some x) by (rewrite Q, nth_error_app2, Nat.sub_diag by lia; reflexivity).
  rewrite NE. intros K. injection K as <- <-. exists l1, l2. split; auto. split; [rewrite Q; apply remove_nth_mid|].
  split.
  - intros b Hb. rewrite forallb_forall in P1. apply negb_true_iff, P1, Hb.
  - intros y Hy. specialize (P2 y Hy). clear - P2. induction q as [|b q IH]; [discriminate P2|]. cbn in P2. destruct (gt y b) eqn:G; cbn in P2.
    + exists b. split; [left; auto|auto].
    + destruct (IH P2) as [b' [B1 B2]]. exists b'. split; [right; auto|auto].
Qed.

Section Lifo.
  Variables (t : topology) (w h : Z) (dem lab0 fd0 : grid Z).
  Notation inside := (inside w h).
  Notation pit := (pit t w h dem lab0).
  Notation neighbours := (neighbours t).
  Notation "g @ c" := (elev_at g c) (at level 20).
  Hypothesis Hval : valid_labels w h lab0.
  Hypothesis Hsize : w * h < 2 ^ 31.
  Notation FI := (FI t w h dem lab0 fd0).
  Notation finished := (finished t w h dem).
  Notation leaf_at := (leaf_at dem).
  Notation land c := (land_cell w h lab0 c).

  (** the depression [d] was founded at the level [z] *)
  Definition founded (deps : list dep) (d z : Z) : Prop := 1 <= d /\ exists r, leaf_at deps d r /\ dem @ r = z.
  Lemma founded_fun deps d z z' : founded deps d z -> founded deps d z' -> z = z'.
  Proof. unfold founded, DHFlood.leaf_at. intros [_ [r [A B]]] [_ [r' [A' B']]]. rewrite A in A'. inversion A'. congruence. Qed.

  (** cells at the level at which their depression was founded have no other neighbours *)
  Definition plain (s : fstate) : Prop := forall p q, inside p -> inside q -> neighbours p q -> dem @ q <= dem @ p ->
    founded (f_deps s) (f_lab s @ p) (dem @ p) -> f_lab s @ q <> NO_DEP -> f_lab s @ q = f_lab s @ p \/ f_lab s @ q = 0.

  Record LI (ex : cellt -> Prop) (dyn seeds : list (Z * cellt)) (s : fstate) : Prop := {
    l_pq : f_pq s = dyn ++ seeds;
    l_dyn : forall k c, In (k, c) dyn -> inside c /\ k = dem @ c /\ f_lab s @ c <> NO_DEP;
    l_front : forall c, land c -> f_lab s @ c <> NO_DEP -> In (dem @ c, c) dyn \/ finished (f_lab s) (f_db s) c \/ ex c;
    l_late : forall d z, founded (f_deps s) d z -> exists l, f_last s = Some l /\ z <= l;
    l_plain : plain s }.

  (** at the level [z], all waiting cells belong to the one depression founded there, or none does *)
  Definition one_kind (dyn : list (Z * cellt)) (s : fstate) (z : Z) : Prop :=
    (exists d, founded (f_deps s) d z /\ forall c, In (z, c) dyn -> f_lab s @ c = d) \/
    (forall c, In (z, c) dyn -> ~ founded (f_deps s) (f_lab s @ c) z).
  Definition kind_of (dyn : list (Z * cellt)) (s : fstate) (cl z : Z) : Prop :=
    (founded (f_deps s) cl z /\ forall c, In (z, c) dyn -> f_lab s @ c = cl) \/
    (~ founded (f_deps s) cl z /\ forall c, In (z, c) dyn -> ~ founded (f_deps s) (f_lab s @ c) z).

  Definition LW (s : fstate) : Prop := exists dyn seeds, LI (fun _ => False) dyn seeds s /\
    (forall z, f_last s = Some z -> one_kind dyn s z) /\ (f_last s = None -> dyn = []).

  Lemma founded_dec ex s d z : FI ex s -> founded (f_deps s) d z \/ ~ founded (f_deps s) d z.
  Proof.
    intros H. destruct (Z_lt_ge_dec d 1) as [|G]; [right; intros [X _]; lia|].
    destruct (Z_lt_ge_dec d (Z.of_nat (length (f_deps s)))) as [L|L].
    - destruct (i_deps _ _ _ _ _ _ _ _ H d) as [p [A _]]; [lia|]. destruct (Z.eq_dec (dem @ p) z) as [E|E]; [left; split; [lia|eauto]|].
      right. intros F. apply E. apply (founded_fun (f_deps s) d); [|exact F]. split; [lia|eauto].
    - right. intros [_ [r [X _]]]. unfold DHFlood.leaf_at in X. apply ix_lt in X. lia.
  Qed.

  Lemma ocean_zero ex s c : FI ex s -> inside c -> ~ land c -> f_lab s @ c = 0.
  Proof.
    intros H Hc N. apply (i_ocean _ _ _ _ _ _ _ _ H c). split; auto. destruct (Z.eq_dec (lab0 @ c) 0); auto. exfalso. apply N. split; auto.
  Qed.
  Lemma land_dec c : inside c -> land c \/ ~ land c.
  Proof. intros Hc. destruct (Z.eq_dec (lab0 @ c) 0); [right; intros [_ X]; auto|left; split; auto]. Qed.
  Lemma founded_land ex s c z : FI ex s -> inside c -> founded (f_deps s) (f_lab s @ c) z -> land c.
  Proof.
    intros H Hc [F _]. destruct (land_dec c Hc) as [|N]; auto. rewrite (ocean_zero _ _ _ H Hc N) in F. lia.
  Qed.

  Lemma founded_lab ex s d z : FI ex s -> founded (f_deps s) d z -> d <> NO_DEP.
  Proof.
    intros H [_ [r [F _]]]. pose proof (FI_len _ _ _ _ _ _ Hsize _ _ H). unfold DHFlood.leaf_at in F. apply ix_lt in F. lia.
  Qed.

  (** visiting one neighbour *)
  Definition LV (c : cellt) (s : fstate) : Prop := exists dyn seeds, LI (eq c) dyn seeds s /\ kind_of dyn s (f_lab s @ c) (dem @ c).

  Lemma visit_lifo m c n s s' : at_cell t w h dem lab0 fd0 s c m -> In n (dirs t) -> LV c s ->
    dh_visit t w h dem c (dem @ c) (f_lab s @ c) n s = Ok s' -> LV c s'.
  Proof.
    intros [H [Hc [Lc [Hlast [Hlow Hm]]]]] Hn [dyn [seeds [L K]]]. unfold dh_visit.
    destruct (inGrid w h (fst (nbr t c n)) (snd (nbr t c n))) eqn:G; cbn [negb].
    2: { intros E. injection E as <-. exists dyn, seeds. auto. }
    assert (Hq : inside (nbr t c n)) by (apply inside_grid; auto).
    assert (N : neighbours c (nbr t c n)) by (apply neighbours_iff; exists n; auto).
    set (q := nbr t c n) in *.
    rewrite gat_in by auto. cbn [bind]. change (f_lab s (fst q) (snd q)) with (f_lab s @ q).
    destruct (Z.eqb_spec (f_lab s @ q) NO_DEP) as [Eq|Eq].
    - rewrite gat_in by auto. cbn [bind]. change (dem (fst q) (snd q)) with (dem @ q).
      unfold dh_push. cbn [f_last f_lab f_fd f_pq f_deps f_db]. rewrite Hlast.
      pose proof (Hlow q Hq Eq) as Hge. destruct (Z.ltb_spec (dem @ q) (dem @ c)); [lia|].
      set (s1 := mkF _ _ _ _ _ _). intros E. injection E as <-.
      assert (Hne : c <> q) by (intros E; rewrite E in Lc; contradiction).
      assert (Eq' : f_lab s1 @ q = f_lab s @ c) by (unfold s1; cbn [f_lab]; rewrite gset_elev; destruct (ceqb_spec q q); congruence).
      assert (En : forall d, d <> q -> f_lab s1 @ d = f_lab s @ d).
      { intros d Hd. unfold s1. cbn [f_lab]. rewrite gset_elev. destruct (ceqb_spec d q); congruence. }
      (* cells founded at the current level whose neighbour [q] has no label are waiting *)
      assert (WAIT : forall p, inside p -> neighbours p q -> f_lab s @ p <> NO_DEP -> dem @ p = dem @ c -> land p ->
                 f_lab s @ p = f_lab s @ c \/ In (dem @ c, p) dyn).
      { intros p Hp Np Lp Ep Land. destruct (l_front _ _ _ _ L p Land Lp) as [X|[X|<-]]; auto; [right; rewrite <- Ep; exact X|].
        destruct (X q Hq Np) as [Y _]. contradiction. }
      exists ((dem @ q, q) :: dyn), seeds. rewrite (En c Hne). split.
      + constructor.
        * unfold s1. cbn [f_pq app]. f_equal. apply (l_pq _ _ _ _ L).
        * intros k d [X|X]; [injection X as <- <-; rewrite Eq'; auto|]. destruct (l_dyn _ _ _ _ L k d X) as [A [B C]]. split; auto. split; auto.
          rewrite En; auto. intros ->. contradiction.
        * intros d Ld Xd. destruct (ceqb_spec d q) as [->|Nd]; [left; left; auto|]. rewrite En in Xd by auto.
          destruct (l_front _ _ _ _ L d Ld Xd) as [A|[A|A]]; [left; right; auto| |auto].
          right; left. intros p Hp Np. apply seen_set; auto.
        * intros d z F. destruct (l_late _ _ _ _ L d z F) as [l [A B]]. exists l. split; [rewrite <- A, Hlast; reflexivity|exact B].
        * intros p r Hp Hr Npr Le F Lr. unfold s1 in F at 1. cbn [f_deps] in F.
          assert (NOW : forall d z, founded (f_deps s) d z -> z <= dem @ c).
          { intros d z Fz. destruct (l_late _ _ _ _ L d z Fz) as [l [A B]]. rewrite Hlast in A. injection A as <-. exact B. }
          destruct (ceqb_spec p q) as [->|Np].
          -- rewrite Eq' in *. assert (EZ : dem @ q = dem @ c) by (apply NOW in F; lia). rewrite EZ in *.
             destruct (ceqb_spec r q) as [->|Nr]; [left; auto|]. rewrite En in * by auto.
             destruct (land_dec r Hr) as [Lr'|Lr']; [|right; eapply ocean_zero; eauto].
             destruct (l_front _ _ _ _ L r Lr' Lr) as [X|[X|<-]]; [|destruct (X q Hq (neighbours_sym _ _ _ Npr)); contradiction|auto].
             assert (Er : dem @ c <= dem @ r).
             { eapply (i_last _ _ _ _ _ _ _ _ H); [exact Hlast|]. rewrite (l_pq _ _ _ _ L). apply in_or_app. left. exact X. }
             assert (ER : dem @ r = dem @ c) by lia. rewrite ER in X. left.
             destruct K as [[_ K]|[K _]]; [apply K; auto|contradiction].
          -- rewrite (En p Np) in *. destruct (ceqb_spec r q) as [->|Nr]; [|rewrite En in * by auto; apply (l_plain _ _ _ _ L p r); auto].
             rewrite Eq'. assert (EZ : dem @ p = dem @ c) by (apply NOW in F; lia).
             destruct (WAIT p Hp Npr) as [X|X]; auto; [eapply founded_lab; eauto|eapply founded_land; eauto|].
             rewrite EZ in F. destruct K as [[_ K]|[_ K]]; [left; symmetry; apply K; auto|exfalso; apply (K p); auto].
      + unfold kind_of. change (f_deps s1) with (f_deps s).
        destruct K as [[K1 K2]|[K1 K2]]; [left|right]; (split; [exact K1|]); intros d [X|X].
        * injection X as X <-. exact Eq'.
        * destruct (l_dyn _ _ _ _ L _ _ X) as [_ [_ Y]]. rewrite En; auto. intros ->. contradiction.
        * injection X as X <-. rewrite Eq'. exact K1.
        * destruct (l_dyn _ _ _ _ L _ _ X) as [_ [_ Y]]. rewrite En; auto. intros ->. contradiction.
    - destruct (Z.eqb_spec (f_lab s @ q) (f_lab s @ c)) as [El|El].
      + intros E. injection E as <-. exists dyn, seeds. auto.
      + rewrite gat_in by auto. cbn [bind]. destruct (if dem (fst q) (snd q) >? dem @ c then _ else _) as [oc oe].
        intros E. injection E as <-. exists dyn, seeds. split; [|exact K]. destruct L as [L1 L2 L3 L4 L5]. constructor; cbn [f_lab f_fd f_pq f_last f_deps f_db]; auto.
        intros d Ld Xd. destruct (L3 d Ld Xd) as [A|[A|A]]; auto. right; left. intros p Hp Np. apply seen_db; auto.
  Qed.

  Lemma app_split {A} (x : A) : forall l1 l2 a b, l1 ++ x :: l2 = a ++ b ->
    (exists a2, a = l1 ++ x :: a2 /\ l2 = a2 ++ b) \/ (exists b1, b = b1 ++ x :: l2 /\ l1 = a ++ b1).
  Proof.
    induction l1 as [|y l1 IH]; intros l2 a b E; cbn [app] in E.
    - destruct a as [|z a]; cbn [app] in E; [right; exists []; cbn; auto|]. injection E as <- ->. left. exists a. auto.
    - destruct a as [|z a]; cbn [app] in E.
      + right. exists (y :: l1). cbn. split; auto.
      + injection E as <- E. destruct (IH _ _ _ E) as [[a2 [-> ->]]|[b1 [-> ->]]]; [left; exists a2; auto|right; exists b1; auto].
  Qed.

  Lemma pop_lifo i s ce c s1 cl s2 : FI (fun _ => False) s -> LW s -> dh_pop most_recent_first i s = Some ((ce, c), s1) ->
    dh_label w h (ce, c) s1 = Ok (cl, s2) -> LV c s2.
  Proof.
    intros H [dyn [seeds [L [KI LN]]]]. unfold dh_pop, most_recent_first. destruct (pq_pop key_gt 0 (f_pq s)) as [[x qq]|] eqn:P; [|discriminate].
    intros E. injection E as -> <-. apply pq_pop_first in P. destruct P as [l1 [l2 [Q [-> [Pmin Pfst]]]]].
    assert (Hin : In (ce, c) (f_pq s)) by (rewrite Q; apply in_or_app; right; left; auto).
    destruct (i_pq _ _ _ _ _ _ _ _ H _ _ Hin) as [Hc [Ek _]]. subst ce.
    assert (Hmin : forall k d, In (k, d) (f_pq s) -> dem @ c <= k).
    { intros k d Hd. specialize (Pmin _ Hd). unfold key_gt in Pmin. cbn [fst] in Pmin. rewrite Z.gtb_ltb in Pmin. apply Z.ltb_ge in Pmin. exact Pmin. }
    assert (Hfst : forall k d, In (k, d) l1 -> k <> dem @ c).
    { intros k d Hd ->. destruct (Pfst _ Hd) as [[k' d'] [B1 B2]]. apply Hmin in B1. unfold key_gt in B2. cbn [fst] in B2. rewrite Z.gtb_ltb in B2. apply Z.ltb_lt in B2. lia. }
    (* the queue after the removal *)
    assert (SPLIT : exists dyn' seeds', l1 ++ l2 = dyn' ++ seeds' /\ (forall x, In x dyn' -> In x dyn) /\ (forall x, In x dyn -> x = (dem @ c, c) \/ In x dyn') /\
        ((forall d, ~ In (dem @ c, d) dyn') \/ In (dem @ c, c) dyn)).
    { rewrite (l_pq _ _ _ _ L) in Q. symmetry in Q. destruct (app_split _ _ _ _ _ Q) as [[a2 [-> ->]]|[b1 [-> ->]]].
      - exists (l1 ++ a2), seeds. split; [apply app_assoc|]. split; [intros x Hx; apply in_app_or in Hx; apply in_or_app; cbn; tauto|].
        split; [intros x Hx; apply in_app_or in Hx; cbn in Hx; rewrite in_app_iff; intuition|]. right. apply in_or_app. right; left; auto.
      - exists dyn, (b1 ++ l2). split; [symmetry; apply app_assoc|]. split; auto. split; auto. left. intros d Hd. apply (Hfst (dem @ c) d); auto. apply in_or_app; auto. }
    destruct SPLIT as [dyn' [seeds' [Q' [S1 [S2 S3]]]]].
    unfold dh_label. cbn [f_lab]. rewrite gat_in by auto. cbn [bind].
    change (f_lab s (fst c) (snd c)) with (f_lab s @ c).
    assert (LATE : forall l, f_last s = Some l -> l <= dem @ c).
    { intros l El. eapply (i_last _ _ _ _ _ _ _ _ H); eauto. }
    assert (LAB : f_lab s @ c <> NO_DEP -> LV c (mkF (f_lab s) (f_fd s) (l1 ++ l2) (Some (dem @ c)) (f_deps s) (f_db s))).
    { intros Lc. exists dyn', seeds'. cbn [f_lab]. split.
      - constructor; cbn [f_lab f_fd f_pq f_last f_deps f_db]; auto.
        + intros k d Hd. apply (l_dyn _ _ _ _ L). auto.
        + intros d Ld Xd. destruct (l_front _ _ _ _ L d Ld Xd) as [A|[A|[]]]; auto. apply S2 in A. destruct A as [A|A]; [injection A as _ ->; auto|auto].
        + intros d z F. exists (dem @ c). split; auto. destruct (l_late _ _ _ _ L d z F) as [l [A B]]. apply LATE in A. lia.
        + exact (l_plain _ _ _ _ L).
      - unfold kind_of. cbn [f_lab f_deps]. destruct S3 as [S3|S3].
        + destruct (founded_dec _ _ (f_lab s @ c) (dem @ c) H) as [F|F]; [left|right]; (split; [exact F|]); intros d Hd; exfalso; eapply S3; eauto.
        + destruct (f_last s) as [l|] eqn:El; [|rewrite (LN eq_refl) in S3; destruct S3].
          destruct (Z.eq_dec l (dem @ c)) as [->|Nl].
          * destruct (KI _ eq_refl) as [[d [F A]]|A].
            -- left. rewrite (A _ S3). split; auto.
            -- right. split; auto.
          * specialize (LATE l eq_refl). assert (NF : forall d, ~ founded (f_deps s) d (dem @ c)).
            { intros d F. destruct (l_late _ _ _ _ L _ _ F) as [l' [A B]]. rewrite El in A. injection A as <-. lia. }
            right. split; auto. }
    destruct (Z.eqb_spec (f_lab s @ c) OCEAN) as [E0|E0].
    { intros E. injection E as <- <-. apply LAB. rewrite E0. discriminate. }
    destruct (Z.eqb_spec (f_lab s @ c) NO_DEP) as [E1|E1].
    2: { intros E. injection E as <- <-. apply LAB, E1. }
    (* a new depression *)
    cbn [f_deps f_fd f_pq f_last f_db].
    pose proof (FI_len _ _ _ _ _ _ Hsize _ _ H) as HL. unfold NO_DEP in HL.
    assert (Ew : w32 (Z.of_nat (length (f_deps s))) = Z.of_nat (length (f_deps s))) by (apply w32_id; lia).
    rewrite Ew. set (nl := Z.of_nat (length (f_deps s))) in *. set (s3 := mkF _ _ _ _ _ _). intros E. injection E as <- <-.
    assert (Hcl : nl <> NO_DEP) by (unfold NO_DEP; lia).
    assert (Hcl0 : 1 <= nl) by (pose proof (ix_lt _ _ _ (i_zero _ _ _ _ _ _ _ _ H)); unfold nl; lia).
    assert (Ec : f_lab s3 @ c = nl) by (unfold s3; cbn [f_lab]; rewrite gset_elev; destruct (ceqb_spec c c); congruence).
    assert (En : forall d, d <> c -> f_lab s3 @ d = f_lab s @ d).
    { intros d Hd. unfold s3. cbn [f_lab]. rewrite gset_elev. destruct (ceqb_spec d c); congruence. }
    destruct S3 as [S3|S3]; [|exfalso; destruct (l_dyn _ _ _ _ L _ _ S3) as [_ [_ X]]; contradiction].
    assert (NC : forall k d, In (k, d) dyn -> d <> c) by (intros k d Hd ->; destruct (l_dyn _ _ _ _ L _ _ Hd) as [_ [_ X]]; contradiction).
    assert (S2' : forall k d, In (k, d) dyn -> In (k, d) dyn').
    { intros k d Hd. destruct (S2 _ Hd) as [X|X]; auto. injection X as _ ->. exfalso. eapply NC; eauto. }
    assert (Fnew : founded (f_deps s3) nl (dem @ c)).
    { split; auto. exists c. split; auto. unfold DHFlood.leaf_at, s3. cbn [f_deps]. apply ix_app_new. }
    assert (Fold : forall d z, founded (f_deps s3) d z -> d <> nl -> founded (f_deps s) d z).
    { intros d z [A [r [B C]]] Nd. split; auto. exists r. split; auto. unfold DHFlood.leaf_at, s3 in *. cbn [f_deps] in B.
      pose proof (ix_lt _ _ _ B) as X. rewrite app_length in X. cbn [length] in X. rewrite ix_app_old in B; auto. unfold nl in Nd. lia. }
    exists dyn', seeds'. rewrite Ec. split.
    - constructor; auto.
      + intros k d Hd. apply S1 in Hd. destruct (l_dyn _ _ _ _ L k d Hd) as [A [B C]]. split; auto. split; auto. rewrite En; eauto.
      + intros d Ld Xd. destruct (ceqb_spec d c) as [->|Nd]; auto. rewrite En in Xd by auto.
        destruct (l_front _ _ _ _ L d Ld Xd) as [A|[A|[]]]; auto. right; left. intros p Hp Np. apply seen_set; auto.
      + intros d z F. exists (dem @ c). split; auto. destruct (Z.eq_dec d nl) as [->|Nd]; [rewrite (founded_fun _ _ _ _ F Fnew); lia|].
        destruct (l_late _ _ _ _ L d z (Fold _ _ F Nd)) as [l [A B]]. apply LATE in A. lia.
      + intros p q Hp Hq N Le F Lq.
        (* a land neighbour of [c] with a label is waiting, so it is higher *)
        assert (UP : forall r, inside r -> neighbours r c -> f_lab s @ r <> NO_DEP -> land r -> dem @ r <= dem @ c -> False).
        { intros r Hr Nr Lr Land Ler. destruct (l_front _ _ _ _ L r Land Lr) as [X|[X|[]]].
          - assert (dem @ r = dem @ c).
            { assert (dem @ c <= dem @ r); [|lia]. apply (Hmin _ r). rewrite (l_pq _ _ _ _ L). apply in_or_app; auto. }
            rewrite H0 in X. apply S2' in X. eapply S3; eauto.
          - destruct (X c Hc Nr); contradiction. }
        destruct (ceqb_spec p c) as [->|Np].
        * destruct (ceqb_spec q c) as [->|Nq]; [auto|]. rewrite En in * by auto.
          destruct (land_dec q Hq) as [Ld|Ld]; [|right; eapply ocean_zero; eauto]. exfalso. apply (UP q); auto. apply neighbours_sym; auto.
        * rewrite (En p Np) in *. assert (F' : founded (f_deps s) (f_lab s @ p) (dem @ p)).
          { apply Fold; auto. intros X. destruct (i_lab _ _ _ _ _ _ _ _ H p Hp) as [Y|Y]; [unfold NO_DEP in *; lia|]. fold nl in Y. lia. }
          destruct (ceqb_spec q c) as [->|Nq]; [|rewrite En in * by auto; apply (l_plain _ _ _ _ L p q); auto].
          exfalso. apply (UP p); auto; [eapply founded_lab; eauto|eapply founded_land; eauto|].
          destruct (l_late _ _ _ _ L _ _ F') as [l [A B]]. apply LATE in A. lia.
    - left. split; [exact Fnew|]. intros d Hd. exfalso. eapply S3; eauto.
  Qed.

  Lemma body_lifo i s ce c s1 : FI (fun _ => False) s -> LW s -> dh_pop most_recent_first i s = Some ((ce, c), s1) ->
    forall s', dh_body t w h dem (ce, c) s1 = Ok s' -> LW s'.
  Proof.
    intros H L P s' E. destruct (pop_ok t w h dem lab0 fd0 Hsize most_recent_first i s ce c s1 H P) as [s2 [EL [-> A]]].
    pose proof (pop_lifo i s _ c s1 _ s2 H L P EL) as L2.
    unfold dh_body in E. cbn [fst snd] in E. rewrite EL in E. cbn [bind fst snd] in E.
    set (cl := f_lab s2 @ c) in *. set (m := (length (f_pq s) + unl w h (f_lab s))%nat) in *.
    destruct (forM_inv (fun done s => at_cell t w h dem lab0 fd0 s c m /\ cl = f_lab s @ c /\
        (forall k, In k done -> inside (nbr t c k) -> seen dem (f_lab s) (f_db s) c (nbr t c k)) /\ LV c s)
       (dh_visit t w h dem c (dem @ c) cl) (dirs t)) with (s := s2) as [s3 [E' [A' [L' [S' V']]]]].
    - intros done n rest st Ed [A1 [A2 [A3 A4]]]. assert (Hn : In n (dirs t)) by (rewrite Ed; apply in_or_app; right; left; auto).
      destruct (visit_ok t w h dem lab0 fd0 Hsize m c cl n done st A1 A2 Hn A3) as [st' [V1 [V2 [V3 V4]]]]. exists st'. split; auto. split; auto. split; auto. split; auto.
      rewrite A2 in V1. exact (visit_lifo m c n st st' A1 Hn A4 V1).
    - split; [exact A|]. split; [reflexivity|]. split; [intros k []|exact L2].
    - rewrite E' in E. injection E as <-. destruct V' as [dyn [seeds [LI' K]]]. destruct A' as [I [Hc [Lc [Hlast [Hlow Hm]]]]].
      exists dyn, seeds. split; [|split].
      + destruct LI' as [X1 X2 X3 X4 X5]. constructor; auto. intros d Ld Xd. destruct (X3 d Ld Xd) as [B|[B|<-]]; auto.
        right; left. intros q Hq N. apply neighbours_iff in N. destruct N as [n [Hn ->]]. apply S'; auto.
      + intros z Ez. rewrite Hlast in Ez. injection Ez as <-. destruct K as [[K1 K2]|[K1 K2]]; [left; eauto|right; auto].
      + rewrite Hlast. discriminate.
  Qed.

  Lemma while_lifo : forall fuel i s s', FI (fun _ => False) s -> LW s ->
    whileR (dh_pop most_recent_first) (dh_body t w h dem) fuel i s = Some (Ok s') -> LW s'.
  Proof.
    induction fuel as [|f IH]; intros i s s' H L; cbn [whileR]; destruct (dh_pop most_recent_first i s) as [[[ce c] s1]|] eqn:P; try discriminate.
    - intros E. injection E as <-. exact L.
    - destruct (body_ok t w h dem lab0 fd0 Hsize _ _ _ _ _ _ H P) as [s2 [E [H' _]]]. rewrite E. intros W. exact (IH _ _ _ H' (body_lifo i s ce c s1 H L P s2 E) W).
    - intros E. injection E as <-. exact L.
  Qed.

  Lemma flood_plain s : has_coast t w h lab0 -> dh_flood t w h dem most_recent_first lab0 fd0 = Some (Ok s) -> plain s.
  Proof.
    intros HC. unfold dh_flood. rewrite (check_labels_ok w h lab0 Hval). cbn [bind]. rewrite ocean_seeds_ok. cbn [bind].
    destruct (Nat.eqb_spec (length (keep (fo t w h lab0) (scan w h))) 0) as [E|E]; [discriminate|].
    rewrite land_seeds_ok. cbn [bind].
    rewrite push_ok; [|reflexivity|].
    2: { intros c Hc. apply keep_In in Hc. destruct Hc as [d [Hd Ed]]. apply fo_iff in Ed. destruct Ed as [-> _]. apply scan_inside; auto. }
    cbn [bind f_lab f_fd f_pq f_last f_deps f_db].
    rewrite push_ok; [|reflexivity|].
    2: { intros c Hc. apply keep_In in Hc. destruct Hc as [d [Hd Ed]]. apply scan_inside in Hd. apply fl_iff in Ed; auto. destruct Ed as [-> _]; auto. }
    cbn [bind f_lab f_fd f_pq f_last f_deps f_db]. change (mkF _ _ _ _ _ _) with (fstart t w h dem lab0 fd0).
    intros W. apply while_lifo in W; [destruct W as [dyn [seeds [L _]]]; apply L|apply fstart_FI; auto|].
    assert (NF : forall d z, ~ founded [ocean_dep] d z).
    { intros d z [A [r [B _]]]. unfold DHFlood.leaf_at in B. apply ix_lt in B. cbn in B. lia. }
    exists [], (fseeds t w h dem lab0). split; [|split].
    - constructor; cbn [fstart f_lab f_fd f_pq f_last f_deps f_db app]; auto.
      + intros k c [].
      + intros c [Hc Lc] X. destruct (Hval c Hc); contradiction.
      + intros d z F. exfalso. eapply NF; eauto.
      + intros p q _ _ _ _ F. exfalso. eapply NF; eauto.
    - discriminate.
    - reflexivity.
  Qed.
End Lifo.
