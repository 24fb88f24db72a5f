(** What a consumer hands over after the flood of its tile. *)
From Coq Require Import ZArith List Lia Bool Permutation.
From Verif Require Import Base Res RasterSpec RasterFacts Kahn FlowModel FlowProofs PFModel PFProofs TraceFlood ZhouModel ZhouProofs PPFModel PPFTile.
Open Scope Z_scope.

Record tile_spec (w h : Z) (out : list cellt) (dem : grid Z) (r : tile) : Prop := {
  ts_lev : forall c, zdom w h c -> drainage_level D8 w h dem (fst c) (snd c) (t_dem r c);
  ts_lab : forall c, zdom w h c -> 2 <= t_lab r c < t_n r;
  ts_conn : forall a b, zdom w h a -> zdom w h b -> t_lab r a = t_lab r b -> conn w h (t_lab r) (t_dem r) (Z.max (t_dem r a) (t_dem r b)) a b;
  ts_sound : forall l1 l2 v, t_g r l1 l2 = Some v ->
    (2 <= l1 < l2 /\ l2 < t_n r /\ exists a b, zdom w h a /\ zdom w h b /\ nb8 a b /\ t_lab r a = l1 /\ t_lab r b = l2 /\ v = Z.max (t_dem r a) (t_dem r b)) \/
    (l1 = 1 /\ exists a, zdom w h a /\ In a out /\ t_lab r a = l2 /\ v = t_dem r a);
  ts_comp : forall a b, zdom w h a -> zdom w h b -> nb8 a b -> t_lab r a <> t_lab r b ->
    exists v, t_g r (Z.min (t_lab r a) (t_lab r b)) (Z.max (t_lab r a) (t_lab r b)) = Some v /\ v <= Z.max (t_dem r a) (t_dem r b);
  ts_out : forall a, In a out -> exists v, t_g r 1 (t_lab r a) = Some v /\ v <= t_dem r a }.

Lemma l_seeds_In w h c : 0 < w -> 0 < h -> (In c (l_seeds w h) <-> zout w h c).
Proof.
  intros Hw Hh. rewrite <- z_seeds_In by auto. unfold l_seeds, z_seeds. rewrite !in_app_iff, !in_flat_map, !in_map_iff. cbn [In]. split.
  - intros [[a [Ha [E|[E|[]]]]]|[a [Ha [E|[E|[]]]]]]; eauto 6.
  - intros [[a [E Ha]]|[[a [E Ha]]|[[a [E Ha]]|[a [E Ha]]]]]; eauto 6.
Qed.
Lemma flat_map_2 {A B} (f g : A -> B) l : length (flat_map (fun x => [f x; g x]) l) = (2 * length l)%nat.
Proof. induction l; cbn [flat_map length app]; lia. Qed.
Lemma l_seeds_length w h : 0 < w -> 0 < h -> Z.of_nat (length (l_seeds w h)) < 2 * w + 2 * h.
Proof. intros Hw Hh. unfold l_seeds. rewrite app_length, !flat_map_2, !zrange_length. lia. Qed.

Lemma outside_In w h e fH fV c : 0 < w -> 0 < h -> In c (outside w h e fH fV) <-> zdom w h c /\
  ((e_top e && negb fV || e_bot e && fV = true /\ snd c = 0) \/ (e_bot e && negb fV || e_top e && fV = true /\ snd c = h - 1) \/
   (e_left e && negb fH || e_right e && fH = true /\ fst c = 0) \/ (e_right e && negb fH || e_left e && fH = true /\ fst c = w - 1)).
Proof.
  intros Hw Hh. unfold outside. rewrite !in_app_iff. destruct c as [x y]. cbn [fst snd]. unfold zdom, in_raster. cbn [fst snd].
  assert (S1 : forall b (k : Z), (In (x, y) (if b : bool then map (fun x => (x, k)) (zrange 0 (Z.to_nat w)) else [])) <-> b = true /\ 0 <= x < w /\ y = k).
  { intros b k. destruct b; [|cbn; split; [tauto|intros [E _]; discriminate E]]. rewrite in_map_iff. split.
    - intros [a [E Ha]]. apply zrange_In in Ha. injection E as <- <-. split; [auto|lia].
    - intros [_ [A ->]]. exists x. rewrite zrange_In. split; [auto|lia]. }
  assert (S2 : forall b (k : Z), (In (x, y) (if b : bool then map (fun y => (k, y)) (zrange 0 (Z.to_nat h)) else [])) <-> b = true /\ 0 <= y < h /\ x = k).
  { intros b k. destruct b; [|cbn; split; [tauto|intros [E _]; discriminate E]]. rewrite in_map_iff. split.
    - intros [a [E Ha]]. apply zrange_In in Ha. injection E as <- <-. split; [auto|lia].
    - intros [_ [A ->]]. exists y. rewrite zrange_In. split; [auto|lia]. }
  rewrite !S1, !S2. generalize (e_top e && negb fV || e_bot e && fV) (e_bot e && negb fV || e_top e && fV) (e_left e && negb fH || e_right e && fH) (e_right e && negb fH || e_left e && fH).
  intros b1 b2 b3 b4. split.
  - intros [[A [B C]]|[[A [B C]]|[[A [B C]]|[A [B C]]]]]; split; auto; lia.
  - intros [[A B] [[C D]|[[C D]|[[C D]|[C D]]]]]; auto 8.
Qed.

Section Outside.
  Variables (w h size : Z) (lab dem : cellt -> Z).
  Hypothesis Hs : 1 < size.
  Lemma outside_fold out : forall cs g, incl cs out -> (forall c, In c cs -> 2 <= lab c) ->
    exists g', fold_left (l_outside size lab dem) cs (g, false) = (g', false) /\ gle g g' /\
      (forall c, In c cs -> exists v, g' 1 (lab c) = Some v /\ v <= dem c) /\
      forall l1 l2 v, g' l1 l2 = Some v -> g l1 l2 = Some v \/ l1 = 1 /\ exists a, In a out /\ lab a = l2 /\ v = dem a.
  Proof.
    induction cs as [|c cs IH]; intros g Inc HL; cbn [fold_left].
    - exists g. split; [reflexivity|]. split; [apply gle_refl|]. split; [intros c []|auto].
    - unfold l_outside at 2. assert (L2 : 2 <= lab c) by (apply HL; left; auto).
      destruct (WM_meet size (lab c) 1 (dem c) (dem c) g false) as [g1 [E [GL [[v [R1 R2]] S]]]]; [lia|lia|lia|]. rewrite E.
      destruct (IH g1) as [g2 [E2 [GL2 [R S2]]]]; [intros a Ha; apply Inc; right; auto|intros a Ha; apply HL; right; auto|].
      exists g2. split; [exact E2|]. split; [eapply gle_trans; eauto|]. split.
      + intros a [<-|Ha]; [|auto]. replace (Z.min (lab c) 1) with 1 in R1 by lia. replace (Z.max (lab c) 1) with (lab c) in R1 by lia.
        destruct (GL2 _ _ _ R1) as [v' [R1' Le]]. exists v'. split; [auto|lia].
      + intros l1 l2 v0 E0. destruct (S2 _ _ _ E0) as [E1|X]; [|auto]. destruct (S _ _ _ E1) as [?|[A [B C]]]; [auto|right].
        split; [lia|]. exists c. split; [apply Inc; left; auto|]. split; lia.
  Qed.
End Outside.

Lemma tile_ok tb w h e fH fV dem : 0 < w -> 0 < h ->
  exists r, Zhou2015Labels tb w h (2 * w + 2 * h) e fH fV dem = Ok r /\ tile_spec w h (outside w h e fH fV) dem r.
Proof.
  intros Hw Hh. unfold Zhou2015Labels. cbv zeta. set (d := fun c : cellt => dem (fst c) (snd c)). set (size := 2 * w + 2 * h).
  set (s0 := mkL d (fun _ => 0) (rev (map (fun c => (d c, c)) (l_seeds w h))) [] [] (fun _ _ => None) 2 false).
  set (z0 := mkZ d (fun _ => 0) (rev (map (fun c => (d c, c)) (l_seeds w h))) [] []).
  assert (HS : Z.of_nat (length (seeds w h)) < size) by (apply l_seeds_length; auto).
  assert (PQ : forall v, In v (map snd (z_pq z0)) <-> zout w h v).
  { intros v. unfold z0. cbn [z_pq]. rewrite map_rev, <- in_rev, map_map, in_map_iff, <- l_seeds_In by auto. cbn [snd]. split; [intros [a [<- H]]; auto|intros H; exists v; auto]. }
  assert (Z0 : exists c0, ZI w h d c0 [] z0).
  { assert (M : exists c0, forall v, zout w h v -> c0 <= d v).
    { assert (X : forall q : list cellt, exists c0, forall v, In v q -> c0 <= d v).
      { induction q as [|a q [c0 IH]]; [exists 0; intros v []|]. exists (Z.min (d a) c0). intros v [<-|Hv]; [lia|]. specialize (IH v Hv). lia. }
      destruct (X (z_seeds w h)) as [c0 Hc]. exists c0. intros v Hv. apply Hc, z_seeds_In; auto. }
    destruct M as [c0 Hc]. exists c0.
    assert (FF : forall v, Fz w h (fun _ => 0) v = true <-> zout w h v) by (intros v; unfold Fz; change (negb (0 =? 0)) with false; rewrite orb_false_l; exact (edgeb_iff w h d v)).
    constructor; unfold z0; cbn [z_lab z_dem z_pq z_tr z_dep].
    + constructor.
      * intros v _ O. apply FF. auto.
      * intros v Hv. apply FF in Hv. destruct Hv. auto.
      * reflexivity.
      * intros v Hv. apply FF in Hv. split; [apply esc_out; auto; [destruct Hv; auto|lia]|]. intros L' EL. exact (esc_here _ _ _ _ _ _ EL).
      * intros v [[]|[Pv|[[]|[]]]]. apply PQ in Pv. split; [apply FF; auto|auto].
      * intros v u Hv _ _ _. left. right. left. apply PQ, FF, Hv.
    + auto.
    + intros v [[]|[[]|[]]].
    + intros k v Hv. apply in_rev, in_map_iff in Hv. destruct Hv as [a [Ea _]]. injection Ea as <- <-. reflexivity.
    + intros v Ov _. apply PQ. auto.
    + cbn [length]. pose proof (unl_bound (fun _ => 0) w h). lia. }
  destruct (main_sim w h size HS d tb (length (l_seeds w h) + Z.to_nat w * Z.to_nat h) 0 s0 z0) as [s [z [E [Sm [I [T1 [D1 [Q1 [c0 ZZ]]]]]]]]].
  - constructor; reflexivity.
  - constructor; unfold s0; cbn [l_lab l_dem l_pq l_tr l_dep l_g l_cur l_bad]; auto; try (intros; exfalso; congruence); try discriminate.
    + intros z v [[]|[]].
    + split; [lia|]. assert (cnt w h (fun _ => 0%Z) <= length (seeds w h))%nat; [|lia]. unfold cnt.
      generalize (seeds w h). induction l as [|a l IHl]; [cbn; lia|]. change (S (length (filter (fun c : cellt => (0 =? 0)%Z) l)) <= S (length l))%nat. lia.
    + intros l Hl. lia.
  - reflexivity.
  - reflexivity.
  - exact Z0.
  - intros v Hv. apply l_seeds_In; auto.
  - unfold total, z0. cbn [z_pq z_tr z_dep z_lab length]. rewrite rev_length, map_length. pose proof (unl_bound (fun _ => 0) w h). lia.
  - change (rev (map (fun c : cellt => (dem (fst c) (snd c), c)) (l_seeds w h))) with (rev (map (fun c : cellt => (d c, c)) (l_seeds w h))).
    fold s0. rewrite E. assert (NP : forall v, ~ pend [] z v).
    { intros v [[]|[Pv|[Pv|Pv]]].
      - rewrite <- (s_pq _ _ Sm), Q1 in Pv. destruct Pv.
      - rewrite <- (s_tr _ _ Sm), T1 in Pv. destruct Pv.
      - rewrite <- (s_dep _ _ Sm), D1 in Pv. destruct Pv. }
    assert (FX : forall c, zdom w h c -> Fz w h (z_lab z) c = true).
    { intros c R. apply (K_end nb8 (zdom w h) (zout w h) d nb8_sym c0 _ _ _ (zi_k _ _ _ _ _ _ ZZ)); [exact NP|exact R|].
      destruct (orig_correct (fun n => n) D8 w h dem Hw Hh) as [r [_ Hr]]. destruct (Hr (fst c) (snd c) R) as [D _]. exists (r (fst c) (snd c)). apply esc_drains. exact D. }
    assert (LAB : forall c, zdom w h c -> l_lab s c <> 0).
    { intros c R L0. assert (ZL : z_lab z c = 0) by (pose proof (s_lab _ _ Sm c) as SL; rewrite L0 in SL; symmetry in SL; apply Z.eqb_eq in SL; exact SL).
      destruct (zout_dec w h d c) as [O|NO].
      - apply (NP c). right. left. apply (zi_edge _ _ _ _ _ _ ZZ c O ZL).
      - specialize (FX c R). rewrite (Fz_no w h d) in FX by auto. discriminate FX. }
    pose proof I as [A1 A2 A3 A4 A5 A6 A7 A8 A9].
    assert (LR : forall c, zdom w h c -> 2 <= l_lab s c < l_cur s) by (intros c R; destruct (A1 c) as [Z1|[B _]]; [destruct (LAB c R Z1)|exact B]).
    assert (DOM : forall c, l_lab s c <> 0 -> zdom w h c) by (intros c L; destruct (A1 c) as [Z1|[_ B]]; [contradiction|exact B]).
    rewrite A7. destruct (outside_fold size (l_lab s) (l_dem s)) with (out := outside w h e fH fV) (cs := outside w h e fH fV) (g := l_g s) as [g' [EG [GL [OUT SND]]]].
    { unfold size. lia. } { apply incl_refl. } { intros c Hc. apply outside_In in Hc; auto. destruct Hc as [R _]. apply LR. exact R. }
    rewrite EG. cbn [fst snd]. eexists. split; [reflexivity|]. constructor; cbn [t_dem t_lab t_g t_n]; auto.
    + intros c R. destruct (k_lev _ _ _ _ _ _ _ _ (zi_k _ _ _ _ _ _ ZZ) _ (FX c R)) as [A B]. rewrite (s_dem _ _ Sm). split; [apply esc_drains in A; exact A|].
      intros L' D. apply B. apply esc_drains. exact D.
    + intros l1 l2 v Ev. destruct (SND _ _ _ Ev) as [E0|[-> [a [Ia [La ->]]]]].
      * left. destruct (A5 _ _ _ E0) as [Lt [a [b [B1 [B2 [B3 [B4 [B5 B6]]]]]]]]. destruct (LR a (DOM a B2)), (LR b (DOM b B3)). split; [lia|]. split; [lia|].
        exists a, b. auto 10.
      * right. split; auto. exists a. apply outside_In in Ia as X; auto. destruct X as [R _]. auto.
    + intros a b Ra Rb N Ne. destruct (A6 a b N (LAB a Ra) (LAB b Rb) Ne) as [[v [R1 R2]]|[Q|Q]].
      * destruct (GL _ _ _ R1) as [v' [R1' Le]]. exists v'. split; [auto|lia].
      * exfalso. unfold que in Q. rewrite T1, D1 in Q. cbn in Q. tauto.
      * exfalso. unfold que in Q. rewrite T1, D1 in Q. cbn in Q. tauto.
Qed.
