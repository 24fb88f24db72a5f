(** Corollaries of the level characterisation: monotonicity, idempotence. *)
From Coq Require Import ZArith List Lia.
From Verif Require Import Base RasterSpec RasterFacts PFModel PFSpec PFInv PFProofs PFProofs4.
Open Scope Z_scope.

Definition is_level_surface t w h (e r : grid Z) : Prop :=
  forall x y, in_raster w h x y -> drainage_level t w h e x y (r x y).

Lemma surface_drains t w h e r L x y :
  is_level_surface t w h e r -> drains t w h e L x y -> drains t w h r L x y.
Proof.
  intros HS H. induction H as [x y He Hle|x y x' y' Hr Hle Ha Hd IH].
  - apply drains_edge; auto. assert (Hr : in_raster w h x y) by (destruct He; auto).
    destruct (HS _ _ Hr) as [_ Hm]. apply Hm. apply drains_edge; auto.
  - eapply drains_step; eauto. destruct (HS _ _ Hr) as [_ Hm]. apply Hm. eapply drains_step; eauto.
Qed.

Lemma surface_idem t w h e r r' :
  is_level_surface t w h e r -> is_level_surface t w h r r' -> forall x y, in_raster w h x y -> r' x y = r x y.
Proof.
  intros H H' x y Hr. destruct (H' _ _ Hr) as [Hd Hm].
  pose proof (drains_here _ _ _ _ _ _ _ Hd). pose proof (H _ _ Hr) as [Hd0 _].
  specialize (Hm _ (surface_drains _ _ _ _ _ _ _ _ H Hd0)). lia.
Qed.

Lemma surface_mono t w h e e' r r' :
  (forall x y, in_raster w h x y -> e x y <= e' x y) ->
  is_level_surface t w h e r -> is_level_surface t w h e' r' ->
  forall x y, in_raster w h x y -> r x y <= r' x y.
Proof.
  intros HE H H' x y Hr. destruct (H _ _ Hr) as [_ Hm]. destruct (H' _ _ Hr) as [Hd _].
  apply Hm. eapply drains_mono; eauto.
Qed.

Lemma surface_edge t w h e r x y : is_level_surface t w h e r -> on_edge w h x y -> r x y = e x y.
Proof.
  intros H He. eapply drainage_level_unique; [apply H; apply He|]. apply drainage_level_edge; auto.
Qed.

Lemma surface_unique t w h e r r' : is_level_surface t w h e r -> is_level_surface t w h e r' ->
  forall x y, in_raster w h x y -> r x y = r' x y.
Proof. intros H H' x y Hr. eapply drainage_level_unique; [apply H|apply H']; auto. Qed.

(** The filled surface has no depression left: no cell is sunk. *)
Lemma surface_no_sunk t w h e r : is_level_surface t w h e r -> forall x y, ~ sunk t w h r x y.
Proof.
  intros H x y [L [[Hd Hm] Hlt]]. assert (Hr : in_raster w h x y) by (eapply drains_raster; eauto).
  destruct (H _ _ Hr) as [Hd0 _]. specialize (Hm _ (surface_drains _ _ _ _ _ _ _ _ H Hd0)). lia.
Qed.

Lemma orig_surface tb t w h e r : 0 < w -> 0 < h -> PriorityFlood_Original tb t w h e = Some r -> is_level_surface t w h e r.
Proof. intros Hw Hh E. destruct (orig_correct tb t w h e Hw Hh) as [r' [E' H]]. rewrite E in E'. inversion E'; subst. exact H. Qed.

Lemma imp_surface tb t w h e r : 0 < w -> 0 < h -> PriorityFlood_Barnes2014 tb t w h e = Some r -> is_level_surface t w h e r.
Proof. intros Hw Hh E. destruct (imp_correct tb t w h e Hw Hh) as [r' [E' H]]. rewrite E in E'. inversion E'; subst. exact H. Qed.

Lemma imp_agrees tb tb' t w h e : 0 < w -> 0 < h ->
  exists r r', PriorityFlood_Original tb t w h e = Some r /\ PriorityFlood_Barnes2014 tb' t w h e = Some r' /\
    forall x y, in_raster w h x y -> r' x y = r x y.
Proof.
  intros Hw Hh. destruct (orig_correct tb t w h e Hw Hh) as [r [E H]].
  destruct (imp_correct tb' t w h e Hw Hh) as [r' [E' H']].
  exists r, r'. split; [auto|]. split; [auto|]. apply surface_unique with (t := t) (e := e); auto.
Qed.

Lemma fill_laws (F : (nat -> nat) -> topology -> Z -> Z -> grid Z -> option (grid Z)) :
  (forall tb t w h e r, 0 < w -> 0 < h -> F tb t w h e = Some r -> is_level_surface t w h e r) ->
  forall t w h e r, 0 < w -> 0 < h -> forall tb, F tb t w h e = Some r ->
  (forall x y, in_raster w h x y -> e x y <= r x y) /\
  (forall x y, on_edge w h x y -> r x y = e x y) /\
  (forall tb' r', F tb' t w h r = Some r' -> forall x y, in_raster w h x y -> r' x y = r x y) /\
  (forall tb' e' r', (forall x y, in_raster w h x y -> e x y <= e' x y) -> F tb' t w h e' = Some r' ->
     forall x y, in_raster w h x y -> r x y <= r' x y).
Proof.
  intros HF t w h e r Hw Hh tb E. pose proof (HF _ _ _ _ _ _ Hw Hh E) as HS. split; [|split; [|split]].
  - intros x y Hr. eapply drainage_level_ge; eauto.
  - intros x y He. eapply surface_edge; eauto.
  - intros tb' r' E'. eapply surface_idem; eauto.
  - intros tb' e' r' Hle E'. eapply surface_mono; eauto.
Qed.

Lemma has_vs_fill tb tb' t w h e : 0 < w -> 0 < h ->
  exists b r, HasDepressions tb t w h e = Some b /\ PriorityFlood_Barnes2014 tb' t w h e = Some r /\
    (b = true <-> exists x y, in_raster w h x y /\ r x y <> e x y) /\
    HasDepressions tb t w h r = Some false.
Proof.
  intros Hw Hh. destruct (has_correct tb t w h e Hw Hh) as [b [Eb Hb]].
  destruct (imp_correct tb' t w h e Hw Hh) as [r [Er Hr]].
  exists b, r. split; [auto|]. split; [auto|]. split.
  - rewrite Hb. split.
    + intros [x [y [L [A [HL Hlt]]]]]. exists x, y. split; auto.
      rewrite (drainage_level_unique _ _ _ _ _ _ _ _ (Hr _ _ A) HL). lia.
    + intros [x [y [A Hne]]]. exists x, y, (r x y). split; [auto|]. split; [auto|].
      pose proof (drainage_level_ge _ _ _ _ _ _ _ (Hr _ _ A)). lia.
  - destruct (has_correct tb t w h r Hw Hh) as [b' [Eb' Hb']]. rewrite Eb'. f_equal.
    destruct b'; auto. exfalso. destruct (proj1 Hb' eq_refl) as [x [y [L [A [HL Hlt]]]]].
    apply (surface_no_sunk t w h e r Hr x y). exists L. auto.
Qed.

(** a pool larger than the limit is never touched; pools are filled entirely or not at all *)
Lemma NoDup_incl_app {A} (l l' : list A) : NoDup l -> incl l l' -> (length l <= length l')%nat.
Proof. apply NoDup_incl_length. Qed.

Lemma md_consequences tb N t w h e r : 0 < w -> 0 < h -> PriorityFlood_max_dep tb N t w h e = Some r ->
  (forall x y L, in_raster w h x y -> drainage_level t w h e x y L -> r x y = e x y \/ r x y = L) /\
  (forall x y x' y', same_pool t w h e x y x' y' -> (r x y = e x y <-> r x' y' = e x' y')) /\
  (forall x y pool, sunk t w h e x y -> NoDup pool ->
     (forall x' y', In (x', y') pool -> same_pool t w h e x y x' y') -> N < Z.of_nat (length pool) -> r x y = e x y).
Proof.
  intros Hw Hh E. destruct (md_correct tb N t w h e Hw Hh) as [r' [bs [E' [B1 [B2 [B3 [B4 [B5 B6]]]]]]]].
  rewrite E in E'. inversion E'; subst r'. clear E'.
  assert (Hlev : forall x y, sunk t w h e x y -> exists L b, drainage_level t w h e x y L /\ e x y < L /\ In b bs /\ In (x, y) b /\
      r x y = if Z.of_nat (length b) <=? N then L else e x y).
  { intros x y Hs. pose proof (proj2 (B2 x y) Hs) as Hin. apply in_concat in Hin. destruct Hin as [b [Hb Hxb]].
    destruct Hs as [L [HL Hlt]]. exists L, b. repeat split; auto; apply HL || eauto. }
  assert (Hdec : forall x y L, drainage_level t w h e x y L -> sunk t w h e x y \/ ~ sunk t w h e x y).
  { intros x y L HL. destruct (Z_lt_dec (e x y) L) as [Hlt|Hge]; [left; exists L; auto|right].
    intros [L' [HL' Hlt]]. rewrite (drainage_level_unique _ _ _ _ _ _ _ _ HL' HL) in Hlt. lia. }
  split; [|split].
  - intros x y L Hr HL. destruct (Hdec _ _ _ HL) as [Hs|Hs].
    + destruct (Hlev _ _ Hs) as [L' [b [HL' [_ [_ [_ Er]]]]]].
      rewrite (drainage_level_unique _ _ _ _ _ _ _ _ HL' HL) in Er. destruct (_ <=? N); auto.
    + left. auto.
  - intros x y x' y' Hp.
    assert (Hs : sunk t w h e x y) by (induction Hp; auto).
    assert (Hs' : sunk t w h e x' y') by (destruct Hp; auto).
    destruct (Hlev _ _ Hs) as [L [b [HL [Hlt [Hb [Hin Er]]]]]].
    pose proof (B3 b x y x' y' Hb Hin Hp) as Hin'.
    destruct Hs' as [L' [HL' Hlt']]. pose proof (B5 b x' y' L' Hb Hin' HL') as Er'.
    destruct (_ <=? N); lia.
  - intros x y pool Hs Hnd Hall Hlen.
    destruct (Hlev _ _ Hs) as [L [b [HL [Hlt [Hb [Hin Er]]]]]].
    assert (Hle : (length pool <= length b)%nat).
    { apply NoDup_incl_length; auto. intros [x' y'] Hp. eapply B3; eauto. }
    destruct (Z.leb_spec (Z.of_nat (length b)) N); [lia|auto].
Qed.
