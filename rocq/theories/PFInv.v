(** The abstract flood invariant shared by the Priority-Flood variants. *)
From Coq Require Import ZArith List Lia Bool Permutation.
From Verif Require Import Base RasterSpec RasterFacts PFModel.
Open Scope Z_scope.

(** [lv] is the level assigned to closed cells, [F] the bag of pending items. *)
Record FInv (t : topology) (w h : Z) (e0 : grid Z) (cl : grid bool) (lv : grid Z) (F : list item) : Prop := {
  fi_edge : forall x y, on_edge w h x y -> cl x y = true;
  fi_raster : forall x y, cl x y = true -> in_raster w h x y;
  fi_level : forall x y, cl x y = true -> drainage_level t w h e0 x y (lv x y);
  fi_item : forall it, In it F -> cl (ix it) (iy it) = true /\ lv (ix it) (iy it) = iz it;
  fi_front : forall x y x' y', cl x y = true -> adjacent t x y x' y' -> in_raster w h x' y' ->
      cl x' y' = false -> exists it, In it F /\ ix it = x /\ iy it = y
}.

Lemma FInv_equiv t w h e0 cl lv F F' :
  (forall it, In it F <-> In it F') -> FInv t w h e0 cl lv F -> FInv t w h e0 cl lv F'.
Proof.
  intros E [H1 H2 H3 H4 H5]. constructor; auto.
  - intros it Hit. apply H4, E, Hit.
  - intros x y x' y' A B C D. destruct (H5 x y x' y' A B C D) as [it [Hi Hr]]. exists it. rewrite <- E. auto.
Qed.

Lemma FInv_perm t w h e0 cl lv F F' :
  Permutation F F' -> FInv t w h e0 cl lv F -> FInv t w h e0 cl lv F'.
Proof.
  intros P. apply FInv_equiv. intros it; split; [apply Permutation_in, P|apply Permutation_in, Permutation_sym, P].
Qed.

(** An unclosed cell cannot drain below the lowest pending item. *)
Lemma FInv_front_low t w h e0 cl lv F m :
  FInv t w h e0 cl lv F -> (forall it, In it F -> m <= iz it) ->
  forall L x y, drains t w h e0 L x y -> cl x y = false -> m <= L.
Proof.
  intros HI Hm L x y Hd. induction Hd as [x y He Hle|x y x' y' Hr Hle Ha Hd IH]; intros Hc.
  - rewrite (fi_edge _ _ _ _ _ _ _ HI _ _ He) in Hc. discriminate.
  - destruct (cl x' y') eqn:Hc'; [|auto].
    destruct (fi_front _ _ _ _ _ _ _ HI x' y' x y Hc' (adjacent_sym _ _ _ _ _ Ha) Hr Hc) as [it [Hin [Ex Ey]]].
    destruct (fi_item _ _ _ _ _ _ _ HI _ Hin) as [_ Hlv]. rewrite Ex, Ey in Hlv.
    specialize (Hm _ Hin). destruct (fi_level _ _ _ _ _ _ _ HI _ _ Hc') as [_ Hmin].
    specialize (Hmin _ Hd). lia.
Qed.

Lemma FInv_visit t w h e0 cl lv F c nx ny z :
  FInv t w h e0 cl lv F -> In c F -> (forall it, In it F -> iz c <= iz it) ->
  adjacent t (ix c) (iy c) nx ny -> in_raster w h nx ny -> cl nx ny = false ->
  z = Z.max (e0 nx ny) (iz c) ->
  FInv t w h e0 (gset cl nx ny true) (gset lv nx ny z) (mkItem nx ny z :: F).
Proof.
  intros HI Hc Hmin Ha Hr Hn Hz.
  assert (Hlevel : drainage_level t w h e0 nx ny z).
  { split.
    - apply drains_step with (x' := ix c) (y' := iy c); auto; [lia|apply adjacent_sym; auto|].
      destruct (fi_item _ _ _ _ _ _ _ HI _ Hc) as [Hcc Hlv].
      destruct (fi_level _ _ _ _ _ _ _ HI _ _ Hcc) as [Hd _]. rewrite Hlv in Hd.
      eapply drains_le; eauto. lia.
    - intros L' Hd. pose proof (drains_here _ _ _ _ _ _ _ Hd).
      pose proof (FInv_front_low _ _ _ _ _ _ _ _ HI Hmin _ _ _ Hd Hn). lia. }
  constructor.
  - intros x y He. destruct (gset_cases cl nx ny true x y) as [[_ ->]|[_ ->]]; auto. eapply fi_edge; eauto.
  - intros x y Hx. destruct (gset_cases cl nx ny true x y) as [[E _]|[_ E]].
    + inversion E; subst; auto.
    + rewrite E in Hx. eapply fi_raster; eauto.
  - intros x y Hx. destruct (gset_cases cl nx ny true x y) as [[E _]|[Hne E]].
    + inversion E; subst. rewrite gset_same. auto.
    + rewrite E in Hx. rewrite gset_other by auto. eapply fi_level; eauto.
  - intros it [<-|Hin]; cbn [ix iy iz].
    + rewrite !gset_same. auto.
    + destruct (fi_item _ _ _ _ _ _ _ HI _ Hin) as [Hcl Hlv].
      assert (Hne : (ix it, iy it) <> (nx, ny)) by (intros E; inversion E; subst; congruence).
      rewrite !gset_other by auto. auto.
  - intros x y x' y' Hx Hadj Hr' Hx'.
    assert (Hold : cl x' y' = false).
    { destruct (gset_cases cl nx ny true x' y') as [[_ E]|[_ E]]; rewrite E in Hx'; [discriminate|auto]. }
    destruct (gset_cases cl nx ny true x y) as [[E _]|[_ E]].
    + inversion E; subst. exists (mkItem nx ny (Z.max (e0 nx ny) (iz c))). simpl; auto.
    + rewrite E in Hx. destruct (fi_front _ _ _ _ _ _ _ HI _ _ _ _ Hx Hadj Hr' Hold) as [it [Hi Hp]].
      exists it. simpl; auto.
Qed.

Lemma FInv_finish t w h e0 cl lv F c :
  FInv t w h e0 cl lv (c :: F) ->
  (forall x y, adjacent t (ix c) (iy c) x y -> in_raster w h x y -> cl x y = true) ->
  FInv t w h e0 cl lv F.
Proof.
  intros [H1 H2 H3 H4 H5] Hall. constructor; auto.
  - intros it Hin. apply H4. simpl; auto.
  - intros x y x' y' A B C D. destruct (H5 _ _ _ _ A B C D) as [it [[<-|Hin] [Ex Ey]]]; [|eauto].
    subst x y. rewrite (Hall _ _ B C) in D. discriminate.
Qed.

(** When nothing is pending every cell is closed. *)
Lemma FInv_done t w h e0 cl lv :
  FInv t w h e0 cl lv [] -> forall x y, in_raster w h x y -> cl x y = true.
Proof.
  intros HI x y Hr. destruct (cl x y) eqn:Hc; auto. exfalso.
  assert (H : forall n x, x = Z.of_nat n -> in_raster w h x y -> cl x y = false -> False).
  { induction n as [|n IH]; intros x0 Hx Hr0 Hc0.
    - rewrite (fi_edge _ _ _ _ _ _ _ HI) in Hc0; [discriminate|]. split; [auto|left; lia].
    - destruct (cl (x0 - 1) y) eqn:Hc'.
      + destruct (fi_front _ _ _ _ _ _ _ HI (x0-1) y x0 y Hc') as [it [[] _]]; auto.
        replace x0 with ((x0 - 1) + 1) at 2 by lia. apply adjacent_right.
      + apply (IH (x0 - 1)); auto; [lia|]. destruct Hr0; split; lia. }
  apply (H (Z.to_nat x) x); auto. destruct Hr; lia.
Qed.

(** ** Seeds *)
Lemma seed_xy_In w h x y : 0 < w -> 0 < h -> (In (x, y) (seed_xy w h) <-> on_edge w h x y).
Proof.
  intros Hw Hh. unfold seed_xy, on_edge, in_raster. rewrite in_app_iff, !in_flat_map. split.
  - intros [[a [Ha Hin]]|[b [Hb Hin]]].
    + apply zrange_In in Ha. destruct Hin as [E|[E|[]]]; inversion E; subst; lia.
    + apply zrange_In in Hb. destruct Hin as [E|[E|[]]]; inversion E; subst; lia.
  - intros [[Hx Hy] He].
    destruct (Z.eq_dec y 0) as [->|Hy0]; [left; exists x; rewrite zrange_In; simpl; split; [lia|auto]|].
    destruct (Z.eq_dec y (h - 1)) as [->|Hy1]; [left; exists x; rewrite zrange_In; simpl; split; [lia|auto]|].
    right. exists y. rewrite zrange_In. split; [lia|].
    destruct He as [->|[?|[->|?]]]; simpl; auto; lia.
Qed.

Lemma fold_close l : forall cl x y,
  fold_left (fun cl (p : Z * Z) => gset cl (fst p) (snd p) true) l cl x y = true <-> cl x y = true \/ In (x, y) l.
Proof.
  induction l as [|[a b] l IH]; intros cl x y; cbn [fold_left].
  - simpl. tauto.
  - rewrite IH. cbn [fst snd]. destruct (gset_cases cl a b true x y) as [[E ->]|[Hne ->]].
    + inversion E; subst. simpl. tauto.
    + simpl. split; intros [?|?]; auto. destruct H as [E|]; [congruence|auto].
Qed.

Lemma init_closed_iff w h x y : 0 < w -> 0 < h -> (init_closed w h x y = true <-> on_edge w h x y).
Proof.
  intros Hw Hh. unfold init_closed. rewrite fold_close, seed_xy_In by auto.
  split; [intros [?|?]; [discriminate|auto]|auto].
Qed.

Lemma seeds_In w h e it : 0 < w -> 0 < h ->
  (In it (seeds w h e) <-> on_edge w h (ix it) (iy it) /\ iz it = e (ix it) (iy it)).
Proof.
  intros Hw Hh. unfold seeds. rewrite in_map_iff. split.
  - intros [[x y] [<- Hin]]. cbn. rewrite seed_xy_In in Hin by auto. auto.
  - intros [He Hz]. exists (ix it, iy it). cbn. rewrite <- Hz. split; [destruct it; auto|].
    apply seed_xy_In; auto.
Qed.

Lemma FInv_init t w h e0 : 0 < w -> 0 < h -> FInv t w h e0 (init_closed w h) e0 (seeds w h e0).
Proof.
  intros Hw Hh. constructor.
  - intros x y He. apply init_closed_iff; auto.
  - intros x y Hc. apply init_closed_iff in Hc; auto. destruct Hc; auto.
  - intros x y Hc. apply init_closed_iff in Hc; auto. apply drainage_level_edge; auto.
  - intros it Hin. apply seeds_In in Hin; auto. destruct Hin as [He Hz]. rewrite Hz.
    split; auto. apply init_closed_iff; auto.
  - intros x y x' y' Hc _ _ _. apply init_closed_iff in Hc; auto.
    exists (mkItem x y (e0 x y)). cbn. split; auto. apply seeds_In; auto.
Qed.

(** ** The neighbour loop *)
Lemma visit_all {S : Type} t w h (cl : S -> grid bool) (f : S -> nat -> Z -> Z -> S) cx cy
    (stop : S -> bool) (I : S -> Prop) :
  (forall s n nx ny, I s -> In n (dirs t) -> nx = cx + dx t n -> ny = cy + dy t n ->
     in_raster w h nx ny -> cl s nx ny = false ->
     I (f s n nx ny) /\ (stop s = true -> stop (f s n nx ny) = true) /\
     (stop (f s n nx ny) = false -> cl (f s n nx ny) = gset (cl s) nx ny true)) ->
  forall ds s, incl ds (dirs t) -> I s ->
  let s' := fold_left (visit t w h cl f cx cy) ds s in
  I s' /\ (stop s = true -> stop s' = true) /\
  (stop s' = false -> (forall x y, cl s x y = true -> cl s' x y = true) /\
     forall n, In n ds -> in_raster w h (cx + dx t n) (cy + dy t n) -> cl s' (cx + dx t n) (cy + dy t n) = true).
Proof.
  intros Hf. induction ds as [|d ds IH]; intros s Hincl HI s'; subst s'; cbn [fold_left].
  - split; [auto|]. split; [auto|]. intros _. split; [auto|]. intros n [].
  - set (s1 := visit t w h cl f cx cy s d).
    assert (Hd : In d (dirs t)) by (apply Hincl; simpl; auto).
    assert (H1 : I s1 /\ (stop s = true -> stop s1 = true) /\
       (stop s1 = false -> (forall x y, cl s x y = true -> cl s1 x y = true) /\
         (in_raster w h (cx + dx t d) (cy + dy t d) -> cl s1 (cx + dx t d) (cy + dy t d) = true))).
    { unfold s1, visit. destruct (inGrid w h (cx + dx t d) (cy + dy t d)) eqn:Hg.
      - destruct (cl s (cx + dx t d) (cy + dy t d)) eqn:Hc.
        + auto.
        + apply in_raster_iff in Hg. destruct (Hf s d _ _ HI Hd eq_refl eq_refl Hg Hc) as [A [B C]].
          split; [auto|]. split; [auto|]. intros Hs. rewrite (C Hs). split.
          * intros x y Hxy. destruct (gset_cases (cl s) (cx + dx t d) (cy + dy t d) true x y) as [[_ ->]|[_ ->]]; auto.
          * intros _. apply gset_same.
      - split; [auto|]. split; [auto|]. intros _. split; [auto|].
        intros Hr. apply in_raster_iff in Hr. congruence. }
    destruct H1 as [I1 [St1 C1]].
    destruct (IH s1) as [I2 [St2 C2]]; [intros a Ha; apply Hincl; simpl; auto|auto|].
    split; [auto|]. split; [auto|]. intros Hs.
    destruct (C2 Hs) as [Mono Cls].
    assert (Hs1 : stop s1 = false) by (destruct (stop s1); auto; rewrite St2 in Hs by auto; discriminate).
    destruct (C1 Hs1) as [Mono1 Cls1].
    split; [auto|]. intros n [<-|Hn] Hr; auto.
Qed.

(** Version for loops without an early exit. *)
Lemma visit_all_nostop {S : Type} t w h (cl : S -> grid bool) (f : S -> nat -> Z -> Z -> S) cx cy (I : S -> Prop) ds s :
  (forall s n nx ny, I s -> In n (dirs t) -> nx = cx + dx t n -> ny = cy + dy t n ->
     in_raster w h nx ny -> cl s nx ny = false ->
     I (f s n nx ny) /\ cl (f s n nx ny) = gset (cl s) nx ny true) ->
  (forall n, In n ds <-> In n (dirs t)) -> I s ->
  let s' := fold_left (visit t w h cl f cx cy) ds s in
  I s' /\ (forall x y, cl s x y = true -> cl s' x y = true) /\
  forall x y, adjacent t cx cy x y -> in_raster w h x y -> cl s' x y = true.
Proof.
  intros Hf Hds HI s'.
  destruct (visit_all t w h cl f cx cy (fun _ => false) I) with (ds := ds) (s := s) as [A [_ B]]; auto.
  - intros s0 n nx ny A B C D E F. destruct (Hf s0 n nx ny A B C D E F). auto.
  - intros n Hn; apply Hds; auto.
  - destruct (B eq_refl) as [B1 B2]. split; [auto|]. split; [auto|]. intros x y Ha Hr.
    apply adjacent_iff in Ha. destruct Ha as [n [Hn [-> ->]]]. apply B2; [apply Hds|]; auto.
Qed.
