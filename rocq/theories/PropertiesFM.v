(** C17 (metrics), C20-C22: flow metrics and generic flow accumulation. *)
From Coq Require Import ZArith List Lia Bool Permutation QArith Qcanon Relations.
From Verif Require Import Base Res Kahn RasterSpec RasterFacts FlowModel FlowSpec FlowProofs FAModel FASpec FAProofs FMModel FMSpec FMProofs FMProofs2 FMProofs3 FMProofs4.
Open Scope Z_scope.

Definition qof (rows : list (list Z)) : grid Qc := fun x y => Q2Qc (inject_Z (nth (Z.to_nat x) (nth (Z.to_nat y) rows []) 0)).
Definition qrows (w h : Z) (g : Z -> Qc) : list (list Q) :=
  map (fun y => map (fun x => this (g (y * w + x))) (zrange 0 (Z.to_nat w))) (zrange 0 (Z.to_nat h)).

(** C20. On every proportion field whose border sends nothing (as all flow metrics produce), for every
    initial accumulation, the call terminates without out-of-range access; every data cell not
    downstream of a loop holds what it generates plus the shares its donors send it; NoData cells hold
    ACCUM_NO_DATA. Without loops that is every data cell. *)
Theorem C20_mass_balance : forall w h p nd gen, 0 <= w -> 0 <= h -> quiet_border w h p nd ->
  exists A, FlowAccumulation w h p nd w h gen = Some (Ok A) /\
    (forall c, has_data w h p nd c -> ~ downstream_of_loop w h p nd c -> balanced w h p nd gen A c) /\
    (forall c, in_raster w h (fst c) (snd c) -> p (at_ w c) 0%nat = nd -> A (at_ w c) = ACCUM_NO_DATA).
Proof. intros. apply FA_balanced; auto. Qed.

(** If nothing loops and every cell passes on all or nothing, the total in the sinks is the total generated. *)
Theorem C20_conservation : forall w h p nd gen A cs ss, 0 <= w -> 0 <= h -> quiet_border w h p nd ->
  FlowAccumulation w h p nd w h gen = Some (Ok A) ->
  (forall c, ~ on_loop w h p nd c) -> lossless w h p nd ->
  NoDup cs -> (forall c, In c cs <-> has_data w h p nd c) ->
  NoDup ss -> (forall c, In c ss <-> has_data w h p nd c /\ is_sink w p c) ->
  qsum (map (fun c => gen (at_ w c)) cs) = qsum (map (fun c => A (at_ w c)) ss).
Proof. intros. eapply FA_conserves; eauto. Qed.

(** Mismatched dimensions are rejected with an exception. *)
Theorem C20_dimensions : forall pw ph p nd aw ah gen, (aw, ah) <> (pw, ph) -> FlowAccumulation pw ph p nd aw ah gen = Some Thrown.
Proof.
  intros pw ph p nd aw ah gen H. unfold FlowAccumulation.
  destruct (Z.eqb_spec aw pw); destruct (Z.eqb_spec ah ph); cbn [andb negb]; auto. congruence.
Qed.

(** C21. O'Callaghan: for every DEM and processing order; and the receiver is a lowest neighbour, the
    first such in direction order. *)
Theorem C21_OCallaghan : forall elev nd w h maxe order,
  Permutation order (cells w h) -> (forall x y, in_raster w h x y -> (elev x y <= maxe)%Qc) ->
  exists P, FM_OCallaghan elev nd w h D8 maxe order = Ok P /\ good_metric elev nd w h (has_lower elev nd w h) P.
Proof. intros. apply oc8_good; auto. Qed.

Theorem C21_OCallaghan_lowest : forall elev nd w h maxe order P,
  Permutation order (cells w h) -> (forall x y, in_raster w h x y -> (elev x y <= maxe)%Qc) ->
  FM_OCallaghan elev nd w h D8 maxe order = Ok P ->
  forall x y n a b, in_raster w h x y -> elev x y <> nd -> ~ on_edge w h x y ->
    (1 <= n <= 8)%nat -> (0 < P (y * w + x)%Z n)%Qc -> toward (Z.of_nat n) x y a b ->
    P (y * w + x) n = 1%Qc /\
    forall m a' b', (1 <= m <= 8)%nat -> toward (Z.of_nat m) x y a' b' -> elev a' b' <> nd ->
      (elev a b <= elev a' b')%Qc /\ (elev a' b' = elev a b -> (n <= m)%nat).
Proof.
  intros elev nd w h maxe order P Ho Hm E x y n a b Hin Hd Hi Hn Hp Tw.
  pose (R := fun x y r => ((r = row0 /\ forall n, In n (dirs D8) -> ~ low elev nd w h D8 x y n) \/
       exists n, In n (dirs D8) /\ low elev nd w h D8 x y n /\ r = one_row n /\
         forall m, In m (dirs D8) -> low elev nd w h D8 x y m ->
           (elev (x + dx D8 n)%Z (y + dy D8 n)%Z <= elev (x + dx D8 m)%Z (y + dy D8 m)%Z)%Qc /\
           (elev (x + dx D8 m)%Z (y + dy D8 m)%Z = elev (x + dx D8 n)%Z (y + dy D8 n)%Z -> (n <= m)%nat))).
  destruct (FM_ok elev nd w h (oc_cell elev nd w h D8 maxe) R order Ho) as [P' [E' H]].
  { intros x' y' A B C. exact (oc_cell_ok elev nd w h D8 maxe x' y' A B C (Hm x' y' A)). }
  assert (P' = P) by (unfold FM_OCallaghan in E; congruence). subst P'.
  destruct (H x y Hin) as [_ [_ H3]]. specialize (H3 Hd Hi). destruct H3 as [[H3 _]|[k [Hk [Hl [Hr Hmin]]]]].
  - rewrite H3 in Hp. exfalso. exact (Qclt_not_le _ _ Hp qc_neg1).
  - rewrite Hr in *. apply one_row_pos in Hp; [|lia]. subst k. split; [apply one_row_self|].
    intros m a' b' Hm' Tw' Hd'. apply toward_iff in Tw. apply toward_iff in Tw'. rewrite Nat2Z.id in Tw, Tw'.
    destruct Tw as [_ [-> ->]], Tw' as [_ [-> ->]].
    destruct (Qclt_le_dec (elev (x + dx D8 m)%Z (y + dy D8 m)%Z) (elev x y)) as [L|L].
    + apply Hmin; [apply dirs_In; exact Hm'|]. split; [apply interior_nbr; auto|auto].
    + destruct Hl as [_ [_ L']]. assert (L2 : (elev (x + dx D8 n)%Z (y + dy D8 n)%Z < elev (x + dx D8 m)%Z (y + dy D8 m)%Z)%Qc) by (eapply Qclt_le_trans; eauto).
      split; [apply Qclt_le_weak; auto|]. intros C. rewrite C in L2. exfalso. exact (qc_lt_irr _ L2).
Qed.

(** Fairfield & Leymarie (Rho8): whatever the random numbers in [0,1). *)
Theorem C21_Rho8 : forall elev nd w h rnd order,
  Permutation order (cells w h) -> (forall x y n, (0 <= rnd x y n)%Qc /\ (rnd x y n < 1)%Qc) ->
  exists P, FM_FairfieldLeymarie elev nd w h D8 rnd order = Ok P /\ good_metric elev nd w h (has_lower elev nd w h) P.
Proof. intros. apply rho8_good; auto. Qed.

(** Holmgren, Freeman, Quinn: for every power function positive on positive arguments; shares are in the
    ratio of the weights. *)
Theorem C21_Holmgren : forall elev nd w h pw order,
  Permutation order (cells w h) -> (forall q, (0 < q)%Qc -> (0 < pw q)%Qc) ->
  exists P, FM_Holmgren elev nd w h pw order = Ok P /\ good_metric elev nd w h (has_lower elev nd w h) P.
Proof. intros. apply mfd_good; auto. apply holmgren_pos; auto. Qed.
Theorem C21_Freeman : forall elev nd w h pw order,
  Permutation order (cells w h) -> (forall q, (0 < q)%Qc -> (0 < pw q)%Qc) ->
  exists P, FM_Freeman elev nd w h pw order = Ok P /\ good_metric elev nd w h (has_lower elev nd w h) P.
Proof. intros. apply mfd_good; auto. apply freeman_pos; auto. Qed.
Theorem C21_Quinn : forall elev nd w h order, Permutation order (cells w h) ->
  exists P, FM_Quinn elev nd w h order = Ok P /\ good_metric elev nd w h (has_lower elev nd w h) P.
Proof. intros. apply C21_Holmgren; auto. Qed.

Lemma mfd_shares elev nd w h wt order P : Permutation order (cells w h) ->
  (forall rise n, (1 <= n <= 8)%nat -> (0 < rise)%Qc -> (0 < wt rise n)%Qc) ->
  FM_MFD elev nd w h wt order = Ok P ->
  forall x y n m a b a' b', in_raster w h x y -> elev x y <> nd -> ~ on_edge w h x y ->
    lower_data elev nd w h x y n -> lower_data elev nd w h x y m ->
    toward (Z.of_nat n) x y a b -> toward (Z.of_nat m) x y a' b' ->
    (0 < P (y * w + x)%Z n)%Qc /\ (P (y * w + x)%Z n * wt (elev x y - elev a' b') m = P (y * w + x)%Z m * wt (elev x y - elev a b) n)%Qc.
Proof.
  intros Ho Hw E x y n m a b a' b' Hin Hd Hi Ln Lm Tw Tw'.
  pose (R := fun x y (r : row) => forall n m, In n (dirs D8) -> In m (dirs D8) -> low elev nd w h D8 x y n -> low elev nd w h D8 x y m ->
           (r n * wt (elev x y - elev (x + dx D8 m)%Z (y + dy D8 m)%Z) m = r m * wt (elev x y - elev (x + dx D8 n)%Z (y + dy D8 n)%Z) n)%Qc /\ (0 < r n)%Qc).
  destruct (FM_ok elev nd w h (mfd_cell elev nd w h wt) R order Ho) as [P' [E' H]].
  { intros x' y' A B C. destruct (mfd_cell_ok elev nd w h wt Hw x' y' A C) as [r [Er [_ Hr]]]. exists r. split; [exact Er|exact Hr]. }
  assert (P' = P) by (unfold FM_MFD in E; congruence). subst P'.
  destruct (H x y Hin) as [_ [_ H3]]. specialize (H3 Hd Hi).
  pose proof (proj1 Ln) as Hn. pose proof (proj1 Lm) as Hm. apply low_lower in Ln; [|auto]. apply low_lower in Lm; [|auto].
  apply toward_iff in Tw. apply toward_iff in Tw'. rewrite Nat2Z.id in Tw, Tw'. destruct Tw as [_ [-> ->]], Tw' as [_ [-> ->]].
  destruct (H3 n m) as [A B]; auto; try (apply dirs_In; assumption).
Qed.
(** the receivers of the multiple-flow metrics are exactly the lower data neighbours, in the stated ratio *)
Theorem C21_Holmgren_shares : forall elev nd w h pw order P, Permutation order (cells w h) ->
  (forall q, (0 < q)%Qc -> (0 < pw q)%Qc) -> FM_Holmgren elev nd w h pw order = Ok P ->
  forall x y n m a b a' b', in_raster w h x y -> elev x y <> nd -> ~ on_edge w h x y ->
    lower_data elev nd w h x y n -> lower_data elev nd w h x y m ->
    toward (Z.of_nat n) x y a b -> toward (Z.of_nat m) x y a' b' ->
    (0 < P (y * w + x)%Z n)%Qc /\
    (P (y * w + x)%Z n * pw ((elev x y - elev a' b') / dr m * LH m) = P (y * w + x)%Z m * pw ((elev x y - elev a b) / dr n * LH n))%Qc.
Proof. intros. eapply (mfd_shares elev nd w h (holmgren_wt pw)); eauto. apply holmgren_pos; auto. Qed.
Theorem C21_Freeman_shares : forall elev nd w h pw order P, Permutation order (cells w h) ->
  (forall q, (0 < q)%Qc -> (0 < pw q)%Qc) -> FM_Freeman elev nd w h pw order = Ok P ->
  forall x y n m a b a' b', in_raster w h x y -> elev x y <> nd -> ~ on_edge w h x y ->
    lower_data elev nd w h x y n -> lower_data elev nd w h x y m ->
    toward (Z.of_nat n) x y a b -> toward (Z.of_nat m) x y a' b' ->
    (0 < P (y * w + x)%Z n)%Qc /\
    (P (y * w + x)%Z n * pw ((elev x y - elev a' b') / dr m) = P (y * w + x)%Z m * pw ((elev x y - elev a b) / dr n))%Qc.
Proof. intros. eapply (mfd_shares elev nd w h (freeman_wt pw)); eauto. apply freeman_pos; auto. Qed.

(** Tarboton: a way down is a facet with both corners data and one of them lower. *)
Theorem C21_Tarboton : forall elev nd w h T order,
  Permutation order (cells w h) -> trig_ok T ->
  exists P, FM_Tarboton elev nd w h T order = Ok P /\ good_metric elev nd w h (has_lower_facet elev nd w h) P.
Proof. intros. apply tb_good; auto. Qed.

(** The flow goes down a steepest facet. A direction at angle [a] from the straight neighbour [n] towards
    the diagonal neighbour [m] strictly inside the facet gives [n] the share a/(pi/4) and [m] the rest:
    the shares are exchanged with respect to Tarboton (1997), where the neighbour closer to the flow
    direction gets the larger share. *)
Theorem C21_Tarboton_shares : forall elev nd w h T order P,
  Permutation order (cells w h) -> trig_ok T -> FM_Tarboton elev nd w h T order = Ok P ->
  forall x y, in_raster w h x y -> elev x y <> nd -> ~ on_edge w h x y -> has_lower_facet elev nd w h x y ->
  exists n m a s, facet n m /\ data_at elev nd w h x y n /\ data_at elev nd w h x y m /\
    facet_flow elev T x y n m a s /\ (0 < s)%Qc /\
    (forall n' m' a' s', facet n' m' -> data_at elev nd w h x y n' -> data_at elev nd w h x y m' ->
       facet_flow elev T x y n' m' a' s' -> (s' <= s)%Qc) /\
    (a = 0%Qc -> P (y * w + x) n = 1%Qc) /\ (a = dang T -> P (y * w + x) m = 1%Qc) /\
    (a <> 0%Qc -> a <> dang T -> P (y * w + x) n = (a / pi4 T)%Qc /\ P (y * w + x) m = (1 - a / pi4 T)%Qc).
Proof.
  intros elev nd w h T order P Ho HT E x y Hin Hd Hi HL.
  destruct (FM_ok elev nd w h (tb_cell elev nd w h T) (fun x y r => tb_cell elev nd w h T x y row0 = Ok r) order Ho) as [P' [E' H]].
  { intros x' y' A B C. destruct (tb_cell_ok elev nd w h T HT x' y' A C) as [r [Er _]]. eauto. }
  assert (P' = P) by (unfold FM_Tarboton in E; congruence). subst P'.
  destruct (H x y Hin) as [_ [_ H3]]. specialize (H3 Hd Hi).
  destruct (tb_cell_ok elev nd w h T HT x y Hin Hi) as [r [Er [_ Hr]]]. rewrite H3 in Er. inversion Er; subst r. exact (Hr HL).
Qed.

(** All results computed by the D8 flow metrics *)
Inductive computed (elev : grid Qc) (nd : Qc) (w h : Z) (order : list (Z * Z)) (P : Z -> nat -> Qc) : Prop :=
| by_OCallaghan maxe : (forall x y, in_raster w h x y -> (elev x y <= maxe)%Qc) -> FM_OCallaghan elev nd w h D8 maxe order = Ok P -> computed elev nd w h order P
| by_Rho8 rnd : (forall x y n, (0 <= rnd x y n)%Qc /\ (rnd x y n < 1)%Qc) -> FM_FairfieldLeymarie elev nd w h D8 rnd order = Ok P -> computed elev nd w h order P
| by_Holmgren pw : (forall q, (0 < q)%Qc -> (0 < pw q)%Qc) -> FM_Holmgren elev nd w h pw order = Ok P -> computed elev nd w h order P
| by_Freeman pw : (forall q, (0 < q)%Qc -> (0 < pw q)%Qc) -> FM_Freeman elev nd w h pw order = Ok P -> computed elev nd w h order P
| by_Quinn : FM_Quinn elev nd w h order = Ok P -> computed elev nd w h order P
| by_Tarboton T : trig_ok T -> FM_Tarboton elev nd w h T order = Ok P -> computed elev nd w h order P.

Lemma computed_good elev nd w h order P : Permutation order (cells w h) -> computed elev nd w h order P ->
  exists gradient, good_metric elev nd w h gradient P /\
    forall x y, in_raster w h x y -> ~ on_edge w h x y -> gradient x y \/ ~ gradient x y.
Proof.
  intros Ho C. pose proof (has_lower_dec elev nd w h) as D.
  destruct C as [maxe Hm E|rnd Hr E|pw Hp E|pw Hp E|E|T HT E].
  - destruct (C21_OCallaghan elev nd w h maxe order Ho Hm) as [Q [EQ G]]. assert (Q = P) by congruence. subst. eauto.
  - destruct (C21_Rho8 elev nd w h rnd order Ho Hr) as [Q [EQ G]]. assert (Q = P) by congruence. subst. eauto.
  - destruct (C21_Holmgren elev nd w h pw order Ho Hp) as [Q [EQ G]]. assert (Q = P) by congruence. subst. eauto.
  - destruct (C21_Freeman elev nd w h pw order Ho Hp) as [Q [EQ G]]. assert (Q = P) by congruence. subst. eauto.
  - destruct (C21_Quinn elev nd w h order Ho) as [Q [EQ G]]. assert (Q = P) by congruence. subst. eauto.
  - destruct (C21_Tarboton elev nd w h T order Ho HT) as [Q [EQ G]]. assert (Q = P) by congruence. subst.
    exists (has_lower_facet elev nd w h). split; [exact G|]. intros x y A B. apply (facet_dec elev nd w h T); auto.
Qed.

(** C17 (metrics). Following the receivers strictly descends, so nothing is ever revisited. *)
Theorem C17_metrics_acyclic : forall elev nd w h order P, Permutation order (cells w h) -> computed elev nd w h order P ->
  (forall c d, feeds w h P NO_DATA_GEN c d -> (elev (fst d) (snd d) < elev (fst c) (snd c))%Qc) /\
  (forall c, ~ on_loop w h P NO_DATA_GEN c).
Proof.
  intros elev nd w h order P Ho C. destruct (computed_good elev nd w h order P Ho C) as [g [G _]]. split.
  - intros c d. apply (gm_down elev nd w h g P G).
  - intros c. apply (gm_acyclic elev nd w h g P G).
Qed.

(** C20 composed: accumulating the proportions of any D8 metric balances at every data cell and
    conserves what is generated. *)
Theorem C20_metric_then_accumulation : forall elev nd w h order P gen, 0 <= w -> 0 <= h ->
  Permutation order (cells w h) -> computed elev nd w h order P ->
  exists A, FlowAccumulation w h P NO_DATA_GEN w h gen = Some (Ok A) /\
    (forall x y, in_raster w h x y -> elev x y <> nd -> balanced w h P NO_DATA_GEN gen A (x, y)) /\
    (forall x y, in_raster w h x y -> elev x y = nd -> A (y * w + x) = ACCUM_NO_DATA) /\
    (forall cs ss, NoDup cs -> (forall x y, In (x, y) cs <-> in_raster w h x y /\ elev x y <> nd) ->
       NoDup ss -> (forall c, In c ss <-> In c cs /\ is_sink w P c) ->
       qsum (map (fun c => gen (at_ w c)) cs) = qsum (map (fun c => A (at_ w c)) ss)).
Proof.
  intros elev nd w h order P gen Hw Hh Ho C. destruct (computed_good elev nd w h order P Ho C) as [g [G D]].
  pose proof (gm_quiet elev nd w h g P G) as Q.
  destruct (FA_balanced w h P NO_DATA_GEN Hw Hh Q gen) as [A [E [B N]]].
  exists A. split; [exact E|]. split; [|split].
  - intros x y Hin Hd. apply B.
    + apply (gm_data elev nd w h g P G). auto.
    + intros [l [L _]]. exact (gm_acyclic elev nd w h g P G l L).
  - intros x y Hin Hd. apply (N (x, y) Hin). destruct (G x y Hin) as [[M _] _]; auto.
  - intros cs ss N1 I1 N2 I2.
    assert (I1' : forall c, In c cs <-> has_data w h P NO_DATA_GEN c).
    { intros [x y]. rewrite I1. symmetry. apply (gm_data elev nd w h g P G (x, y)). }
    apply (FA_conserves w h P NO_DATA_GEN Hw Hh Q gen A cs ss E); auto.
    + exact (gm_acyclic elev nd w h g P G).
    + exact (gm_lossless elev nd w h g P G D).
    + intros c. rewrite I2, I1'. reflexivity.
Qed.

(** The schedule of the parallel loop does not matter. *)
Theorem C21_order_independent : forall elev nd w h order order' x y, Permutation order (cells w h) -> Permutation order' (cells w h) ->
  in_raster w h x y ->
  (forall t maxe P P', (forall x y, in_raster w h x y -> (elev x y <= maxe)%Qc) ->
     FM_OCallaghan elev nd w h t maxe order = Ok P -> FM_OCallaghan elev nd w h t maxe order' = Ok P' -> P (y * w + x) = P' (y * w + x)) /\
  (forall t rnd P P', FM_FairfieldLeymarie elev nd w h t rnd order = Ok P -> FM_FairfieldLeymarie elev nd w h t rnd order' = Ok P' -> P (y * w + x) = P' (y * w + x)) /\
  (forall pw P P', (forall q, (0 < q)%Qc -> (0 < pw q)%Qc) -> FM_Holmgren elev nd w h pw order = Ok P -> FM_Holmgren elev nd w h pw order' = Ok P' -> P (y * w + x) = P' (y * w + x)) /\
  (forall pw P P', (forall q, (0 < q)%Qc -> (0 < pw q)%Qc) -> FM_Freeman elev nd w h pw order = Ok P -> FM_Freeman elev nd w h pw order' = Ok P' -> P (y * w + x) = P' (y * w + x)) /\
  (forall T P P', trig_ok T -> FM_Tarboton elev nd w h T order = Ok P -> FM_Tarboton elev nd w h T order' = Ok P' -> P (y * w + x) = P' (y * w + x)).
Proof.
  intros elev nd w h order order' x y Ho Ho' Hin. repeat apply conj.
  - intros t maxe P P' Hm E E'. refine (FM_order_indep elev nd w h _ order order' P P' Ho Ho' _ E E' x y Hin).
    intros a b A B C. destruct (oc_cell_ok elev nd w h t maxe a b A B C (Hm a b A)) as [r [R _]]. eauto.
  - intros t rnd P P' E E'. refine (FM_order_indep elev nd w h _ order order' P P' Ho Ho' _ E E' x y Hin).
    intros a b A B C. destruct (ff_cell_ok elev nd w h t rnd a b A C) as [r [R _]]. eauto.
  - intros pw P P' Hp E E'. refine (FM_order_indep elev nd w h _ order order' P P' Ho Ho' _ E E' x y Hin).
    intros a b A B C. destruct (mfd_cell_ok elev nd w h _ (holmgren_pos pw Hp) a b A C) as [r [R _]]. eauto.
  - intros pw P P' Hp E E'. refine (FM_order_indep elev nd w h _ order order' P P' Ho Ho' _ E E' x y Hin).
    intros a b A B C. destruct (mfd_cell_ok elev nd w h _ (freeman_pos pw Hp) a b A C) as [r [R _]]. eauto.
  - intros T P P' HT E E'. refine (FM_order_indep elev nd w h _ order order' P P' Ho Ho' _ E E' x y Hin).
    intros a b A B C. destruct (tb_cell_ok elev nd w h T HT a b A C) as [r [R _]]. eauto.
Qed.

(** *** examples *)
Definition dem21 : grid Qc := qof [[9;9;9;9;9];[9;7;6;8;9];[9;5;4;-1;9];[9;6;3;2;1];[9;9;9;9;9]].
Definition ones : Z -> Qc := fun _ => 1%Qc.
Definition big : Qc := Q2Qc 1000.
(** elevations are bounded, so O'Callaghan's and every other metric's hypotheses hold *)
Example C21_bounded : forall x y, in_raster 5 5 x y -> (dem21 x y <= big)%Qc.
Proof.
  intros x y [Hx Hy]. assert (x = 0 \/ x = 1 \/ x = 2 \/ x = 3 \/ x = 4) by lia. assert (y = 0 \/ y = 1 \/ y = 2 \/ y = 3 \/ y = 4) by lia.
  destruct H as [->|[->|[->|[->| ->]]]], H0 as [->|[->|[->|[->| ->]]]]; vm_compute; discriminate.
Qed.
Definition run_acc (r : res (Z -> nat -> Qc)) (w h : Z) : list (list Q) :=
  match r with Ok P => match FlowAccumulation w h P NO_DATA_GEN w h ones with Some (Ok A) => qrows w h A | _ => [] end | _ => [] end.
Example C20_run_D8 : run_acc (FM_OCallaghan dem21 (Q2Qc (-1)) 5 5 D8 big (rev (cells 5 5))) 5 5 =
  [[1;1;1;1;1];[1;1;1;1;1];[1;1;4;-1;1];[1;1;3;8;9];[1;1;1;1;1]]%Q.
Proof. vm_compute. reflexivity. Qed.
Example C20_run_Quinn : run_acc (FM_Quinn (qof [[9;9;9;9];[9;8;7;9];[9;8;6;1];[9;9;9;9]]) (Q2Qc (-1)) 4 4 (rev (cells 4 4))) 4 4 <> [].
Proof. vm_compute. discriminate. Qed.

(** a rational atan2 and square root satisfying [trig_ok]; its facet interior is where 0 < s2 < s1 *)
Definition T0 : trig := {| dang := Q2Qc (785 # 1000); pi4 := Q2Qc (785 # 1000); eps := Q2Qc (1 # 10000000); rt2 := Q2Qc (3 # 2);
  at2 := fun s2 s1 => if posq s2 then if posq s1 then if ltq s2 s1 then ((Q2Qc (1 # 1000) + Q2Qc (78 # 100) * (s2 / s1))%Qc) else Q2Qc (785 # 1000) else Q2Qc 2 else 0%Qc;
  hyp := fun s1 s2 => (s1 + s2)%Qc |}.
Example C21_trig : trig_ok T0.
Proof.
  split; [repeat split; reflexivity|]. cbn [at2 hyp eps dang pi4 T0]. split; [|split; [|split]].
  - intros s1 s2 H1 H2. destruct (posq s2) eqn:E2; [|exfalso; revert H1; vm_compute; congruence].
    destruct (posq s1) eqn:E1; [|exfalso; revert H2; vm_compute; congruence]. apply posq_iff in E1. apply posq_iff in E2. auto.
  - intros s1 s2 H1 H2. rewrite (proj2 (posq_iff s2) H2), (proj2 (posq_false s1) H1). reflexivity.
  - intros s1 s2 H1 H2. destruct (posq s2) eqn:E2; [apply posq_iff; auto|]. exfalso. revert H2. vm_compute. congruence.
  - intros s1 s2 H1 H2. eapply Qclt_trans; [exact H1|]. apply Qclt_minus_iff. replace (s1 + s2 + - s1)%Qc with s2 by ring. exact H2.
Qed.
Example C21_run_Tarboton : run_acc (FM_Tarboton (qof [[9;9;9;9];[9;8;7;9];[9;6;5;1];[9;9;9;0]]) (Q2Qc (-1)) 4 4 T0 (rev (cells 4 4))) 4 4 <> [].
Proof. vm_compute. discriminate. Qed.

(** The exchanged shares: in a facet where the flow direction leans towards the straight neighbour
    (angle 0.157 of 0.785), the straight neighbour gets one fifth of the water. *)
Theorem C21_Tarboton_larger_share_to_closer_refuted :
  exists elev nd w h T order P x y n m a s,
    Permutation order (cells w h) /\ trig_ok T /\ FM_Tarboton elev nd w h T order = Ok P /\
    facet n m /\ facet_flow elev T x y n m a s /\ (0 < a)%Qc /\ (a + a < pi4 T)%Qc /\ (0 < P (y * w + x)%Z n < P (y * w + x)%Z m)%Qc.
Proof.
  set (e := qof [[9;9;9];[0;8;9];[-1;9;9]]).
  assert (HT := C21_trig).
  destruct (C21_Tarboton e (Q2Qc (-7)) 3 3 T0 (cells 3 3) (Permutation_refl _) HT) as [P [E _]].
  exists e, (Q2Qc (-7)), 3, 3, T0, (cells 3 3), P, 1, 1, 1%nat, 8%nat.
  eexists (at2 T0 (Q2Qc 0 - Q2Qc (-1)) (Q2Qc 8 - Q2Qc 0))%Qc, _.
  split; [reflexivity|]. split; [exact HT|]. split; [exact E|]. split; [cbn; tauto|].
  split; [apply (ff_inside e T0 1 1 1%nat 8%nat (Q2Qc 0) (Q2Qc (-1)))|].
  - exists 0, 1. split; [apply toward_W|reflexivity].
  - exists 0, 2. split; [apply toward_SW|reflexivity].
  - vm_compute. discriminate.
  - vm_compute. discriminate.
  - assert (V : forall r : res (Z -> row), match r with Ok Q => ltq 0 (Q 4 1%nat) && ltq (Q 4 1%nat) (Q 4 8%nat) | _ => false end = true ->
        forall Q, r = Ok Q -> (0 < Q 4 1%nat)%Qc /\ (Q 4 1%nat < Q 4 8%nat)%Qc).
    { intros r H Q ->. apply andb_true_iff in H. rewrite !ltq_iff in H. exact H. }
    split; [vm_compute; reflexivity|]. split; [vm_compute; reflexivity|].
    apply (V (FM_Tarboton e (Q2Qc (-7)) 3 3 T0 (cells 3 3))); [vm_compute; reflexivity|exact E].
Qed.

(** C22. The D4 metrics select a lower (O'Callaghan: lowest) of the four straight data neighbours, but
    store its D4 number, which FlowAccumulation reads as a D8 direction. *)
(** [rerouted x y sel act]: water for the selected neighbour [sel] is sent to [act] *)
Inductive rerouted (x y : Z) : Z * Z -> Z * Z -> Prop :=
| rr_west : rerouted x y (x - 1, y) (x - 1, y)
| rr_north : rerouted x y (x, y - 1) (x - 1, y - 1)
| rr_east : rerouted x y (x + 1, y) (x, y - 1)
| rr_south : rerouted x y (x, y + 1) (x + 1, y - 1).

Lemma rerouted_dir x y n : In n (dirs D4) -> rerouted x y (x + dx D4 n, y + dy D4 n) (x + dx D8 n, y + dy D8 n) /\
  toward (Z.of_nat n) x y (x + dx D8 n) (y + dy D8 n).
Proof.
  intros H. apply dirs_In in H. cbn [nmax] in H. split; [|apply toward_iff; rewrite Nat2Z.id; lia].
  assert (C : n = 1%nat \/ n = 2%nat \/ n = 3%nat \/ n = 4%nat) by lia.
  destruct C as [->|[->|[->| ->]]]; unfold dx, dy; cbn [nth d4x d4y d8x d8y];
  repeat match goal with |- context [?a + 0] => replace (a + 0) with a by lia | |- context [?a + -1] => replace (a + -1) with (a - 1) by lia end; constructor.
Qed.

Lemma d4_route elev nd w h P (cellf : Z -> Z -> row -> res row) order (Q : Z -> Z -> nat -> Prop) (K : Z -> Z -> Prop) : Permutation order (cells w h) ->
  FM elev nd w h cellf order = Ok P ->
  (forall x y, in_raster w h x y -> elev x y <> nd -> ~ on_edge w h x y -> exists r, cellf x y row0 = Ok r /\
     ((r = row0 /\ K x y) \/ exists n, In n (dirs D4) /\ Q x y n /\ r = one_row n)) ->
  forall x y, in_raster w h x y -> elev x y <> nd -> ~ on_edge w h x y ->
    (K x y /\ is_sink w P (x, y)) \/
    exists n, In n (dirs D4) /\ Q x y n /\ (forall k d, sends w h P NO_DATA_GEN (x, y) k d -> k = n /\ d = (x + dx D8 n, y + dy D8 n)) /\
      (elev (x + dx D8 n) (y + dy D8 n) <> nd -> sends w h P NO_DATA_GEN (x, y) n (x + dx D8 n, y + dy D8 n)).
Proof.
  intros Ho E Hc x y Hin Hd Hi.
  destruct (FM_ok elev nd w h cellf _ order Ho Hc) as [P' [E' H]]. assert (P' = P) by congruence. subst P'.
  assert (HDt : forall a b, in_raster w h a b -> elev a b <> nd -> has_data w h P NO_DATA_GEN (a, b)).
  { intros a b A B. split; [exact A|]. unfold at_. cbn [fst snd]. destruct (H a b A) as [_ [H2 H3]].
    destruct (isEdgeCell w h a b) eqn:HE.
    - apply on_edge_iff in HE; [|auto]. rewrite (H2 B HE). discriminate.
    - assert (Hi' : ~ on_edge w h a b) by (rewrite on_edge_iff by auto; congruence).
      destruct (H3 B Hi') as [[-> _]|[n [Hn [_ ->]]]]; [discriminate|]. rewrite one_row_0 by (apply dirs_In in Hn; lia). discriminate. }
  destruct (H x y Hin) as [_ [_ H3]]. destruct (H3 Hd Hi) as [[Er Hk]|[n [Hn [Hq Er]]]].
  - left. split; [exact Hk|]. intros k _. unfold at_. cbn [fst snd]. rewrite Er. discriminate.
  - right. exists n. destruct (rerouted_dir x y n Hn) as [_ Tw]. pose proof Hn as Hn'. apply dirs_In in Hn'. cbn [nmax] in Hn'.
    split; [auto|]. split; [auto|]. split.
    + intros k d [_ [_ [Hk [T Hp]]]]. unfold at_ in Hp. cbn [fst snd] in *. rewrite Er in Hp. apply one_row_pos in Hp; [|lia]. subst k. split; [auto|].
      apply toward_iff in T. rewrite Nat2Z.id in T. destruct d as [a b]. cbn [fst snd] in T. destruct T as [_ [-> ->]]. reflexivity.
    + intros Hnd. split; [apply HDt; auto|]. split; [apply HDt; [apply interior_nbr; auto|auto]|]. split; [lia|]. split; [exact Tw|].
      unfold at_. cbn [fst snd]. rewrite Er, one_row_self. reflexivity.
Qed.

Theorem C22_D4_routing : forall elev nd w h maxe order P, Permutation order (cells w h) ->
  (forall x y, in_raster w h x y -> (elev x y <= maxe)%Qc) -> FM_OCallaghan elev nd w h D4 maxe order = Ok P ->
  forall x y, in_raster w h x y -> elev x y <> nd -> ~ on_edge w h x y ->
    let candidate s := adjacent D4 x y (fst s) (snd s) /\ elev (fst s) (snd s) <> nd /\ (elev (fst s) (snd s) < elev x y)%Qc in
    ((forall s, ~ candidate s) /\ is_sink w P (x, y)) \/
    exists sel act, candidate sel /\ (forall s, candidate s -> (elev (fst sel) (snd sel) <= elev (fst s) (snd s))%Qc) /\
      rerouted x y sel act /\ (forall k d, sends w h P NO_DATA_GEN (x, y) k d -> d = act) /\
      (elev (fst act) (snd act) <> nd -> exists k, sends w h P NO_DATA_GEN (x, y) k act).
Proof.
  intros elev nd w h maxe order P Ho Hm E x y Hin Hd Hi candidate.
  destruct (d4_route elev nd w h P _ order (fun x y n => low elev nd w h D4 x y n /\
     forall m, In m (dirs D4) -> low elev nd w h D4 x y m ->
           (elev (x + dx D4 n)%Z (y + dy D4 n)%Z <= elev (x + dx D4 m)%Z (y + dy D4 m)%Z)%Qc)
     (fun x y => forall n, In n (dirs D4) -> ~ low elev nd w h D4 x y n) Ho E) with (x := x) (y := y) as [[K S]|[n [Hn [[Hl Hmin] [H1 H2]]]]]; auto.
  - intros a b A B C. destruct (oc_cell_ok elev nd w h D4 maxe a b A B C (Hm a b A)) as [r [R [[R1 R2]|[n [N1 [N2 [N3 N4]]]]]]]; exists r; (split; [exact R|]).
    + left. auto.
    + right. exists n. split; [auto|]. split; [|auto]. split; [auto|]. intros m M1 M2. apply N4; auto.
  - left. split; [|exact S]. intros [a b] [C1 [C2 C3]]. cbn [fst snd] in *. apply adjacent_iff in C1. destruct C1 as [n [Hn [-> ->]]].
    apply (K n Hn). split; [apply interior_nbr_t; auto|auto].
  - right. exists (x + dx D4 n, y + dy D4 n), (x + dx D8 n, y + dy D8 n). cbn [fst snd]. split; [|split; [|split; [|split]]].
    + unfold candidate. cbn [fst snd]. split; [apply adjacent_iff; eauto|]. apply Hl.
    + intros [a b] [C1 [C2 C3]]. cbn [fst snd] in *. apply adjacent_iff in C1. destruct C1 as [m [Hm' [-> ->]]]. apply Hmin; [auto|].
      split; [apply interior_nbr_t; auto|auto].
    + apply rerouted_dir; auto.
    + intros k d S. apply H1 in S. apply S.
    + intros C. exists n. apply H2. exact C.
Qed.

Theorem C22_Rho4_routing : forall elev nd w h rnd order P, Permutation order (cells w h) ->
  FM_FairfieldLeymarie elev nd w h D4 rnd order = Ok P ->
  forall x y, in_raster w h x y -> elev x y <> nd -> ~ on_edge w h x y ->
    is_sink w P (x, y) \/
    exists sel act, adjacent D4 x y (fst sel) (snd sel) /\ elev (fst sel) (snd sel) <> nd /\ (elev (fst sel) (snd sel) < elev x y)%Qc /\
      rerouted x y sel act /\ (forall k d, sends w h P NO_DATA_GEN (x, y) k d -> d = act) /\
      (elev (fst act) (snd act) <> nd -> exists k, sends w h P NO_DATA_GEN (x, y) k act).
Proof.
  intros elev nd w h rnd order P Ho E x y Hin Hd Hi.
  destruct (d4_route elev nd w h P _ order (fun x y n => low elev nd w h D4 x y n) (fun _ _ => True) Ho E) with (x := x) (y := y) as [[K S]|[n [Hn [Hl [H1 H2]]]]]; auto.
  - intros a b A B C. destruct (ff_cell_ok elev nd w h D4 rnd a b A C) as [r [R [[R1 R2]|[n [N1 [N2 N3]]]]]]; exists r; (split; [exact R|]); eauto 10.
  - right. exists (x + dx D4 n, y + dy D4 n), (x + dx D8 n, y + dy D8 n). cbn [fst snd]. split; [apply adjacent_iff; eauto|].
    destruct Hl as [_ [Hl1 Hl2]]. split; [auto|]. split; [auto|]. split; [apply rerouted_dir; auto|]. split.
    + intros k d S. apply H1 in S. apply S.
    + intros C. exists n. apply H2. exact C.
Qed.

Lemma d4_acyclic elev nd w h P (cellf : Z -> Z -> row -> res row) order : Permutation order (cells w h) ->
  FM elev nd w h cellf order = Ok P ->
  (forall x y, in_raster w h x y -> elev x y <> nd -> ~ on_edge w h x y -> exists r, cellf x y row0 = Ok r /\
     (r = row0 \/ exists n, In n (dirs D4) /\ r = one_row n)) ->
  forall c, ~ on_loop w h P NO_DATA_GEN c.
Proof.
  intros Ho E Hc.
  destruct (FM_ok elev nd w h cellf _ order Ho Hc) as [P' [E' H]]. assert (P' = P) by congruence. subst P'.
  set (m := fun c : Z * Z => snd c * (w + 2) + fst c).
  assert (D : forall c d, feeds w h P NO_DATA_GEN c d -> m d < m c).
  { intros [x y] [a b] [k [[Hin Hnd] [_ [Hk [Tw Hp]]]]]. unfold at_, m in *. cbn [fst snd] in *.
    destruct (H x y Hin) as [H1 [H2 H3]]. destruct (Qc_eq_dec (elev x y) nd) as [C|C]; [rewrite (H1 C) in Hnd; exfalso; apply Hnd; reflexivity|].
    assert (Hrow : forall k, (1 <= k)%nat -> ~ (0 < row0 k)%Qc) by (intros j _ C'; exact (Qclt_not_le _ _ C' qc_neg1)).
    destruct (isEdgeCell w h x y) eqn:HE.
    - apply on_edge_iff in HE; [|auto]. rewrite (H2 C HE) in Hp. exfalso. apply (Hrow k); [lia|auto].
    - assert (Hi' : ~ on_edge w h x y) by (rewrite on_edge_iff by auto; congruence).
      destruct (H3 C Hi') as [Er|[n [Hn Er]]]; rewrite Er in Hp.
      + exfalso. apply (Hrow k); [lia|auto].
      + apply one_row_pos in Hp; [|lia]. subst k. apply dirs_In in Hn. cbn [nmax] in Hn. unfold in_raster in Hin.
        apply toward_iff in Tw. rewrite Nat2Z.id in Tw. destruct Tw as [_ [-> ->]].
        assert (Cn : n = 1%nat \/ n = 2%nat \/ n = 3%nat \/ n = 4%nat) by lia.
        destruct Cn as [->|[->|[->| ->]]]; unfold dx, dy; cbn [nth d8x d8y]; nia. }
  intros c L. assert (M : forall a b, clos_trans _ (feeds w h P NO_DATA_GEN) a b -> m b < m a).
  { intros a b Hab. induction Hab; [apply D; auto|lia]. }
  specialize (M _ _ L). lia.
Qed.
(** The rerouted water still never loops: it only moves west, north-west, north or north-east. *)
Theorem C22_D4_acyclic : forall elev nd w h order P, Permutation order (cells w h) ->
  (exists maxe, (forall x y, in_raster w h x y -> (elev x y <= maxe)%Qc) /\ FM_OCallaghan elev nd w h D4 maxe order = Ok P) \/
  (exists rnd, FM_FairfieldLeymarie elev nd w h D4 rnd order = Ok P) ->
  forall c, ~ on_loop w h P NO_DATA_GEN c.
Proof.
  intros elev nd w h order P Ho [[maxe [Hm E]]|[rnd E]]; apply (d4_acyclic elev nd w h P _ order Ho E); intros a b A B C.
  - destruct (oc_cell_ok elev nd w h D4 maxe a b A B C (Hm a b A)) as [r [R [[R1 _]|[n [N1 [_ [N3 _]]]]]]]; eauto 6.
  - destruct (ff_cell_ok elev nd w h D4 rnd a b A C) as [r [R [[R1 _]|[n [N1 [_ N3]]]]]]; eauto 6.
Qed.

(** So "water goes to the neighbour the metric selected" fails: here cell (1,1) selects its eastern
    neighbour (2,1), elevation 1, but its water is added to the edge cell (1,0), elevation 9. *)
Theorem C22_D4_selected_neighbour_refuted :
  exists elev nd w h maxe order P A x y, Permutation order (cells w h) /\ (forall x y, in_raster w h x y -> (elev x y <= maxe)%Qc) /\
    FM_OCallaghan elev nd w h D4 maxe order = Ok P /\ FlowAccumulation w h P NO_DATA_GEN w h (fun _ => 1%Qc) = Some (Ok A) /\
    adjacent D4 x y (x + 1) y /\ adjacent D4 x y x (y - 1) /\
    (elev (x + 1)%Z y < elev x y)%Qc /\ (elev x y < elev x (y - 1)%Z)%Qc /\
    A (y * w + (x + 1)) = 1%Qc /\ A ((y - 1) * w + x) = (1 + 1)%Qc.
Proof.
  set (e := qof [[9;9;9;9];[9;5;1;9];[9;9;9;9]]).
  assert (B : forall x y, in_raster 4 3 x y -> (e x y <= big)%Qc).
  { intros x y [Hx Hy]. assert (x = 0 \/ x = 1 \/ x = 2 \/ x = 3) by lia. assert (y = 0 \/ y = 1 \/ y = 2) by lia.
    destruct H as [->|[->|[->| ->]]], H0 as [->|[->| ->]]; vm_compute; discriminate. }
  assert (D : forall r : res (Z -> row), (match r with Ok P => match FlowAccumulation 4 3 P NO_DATA_GEN 4 3 ones with
       Some (Ok A) => eqq (A 6) 1 && eqq (A 1) (1 + 1) | _ => false end | _ => false end) = true ->
     exists P A, r = Ok P /\ FlowAccumulation 4 3 P NO_DATA_GEN 4 3 ones = Some (Ok A) /\ A 6 = 1%Qc /\ A 1 = (1 + 1)%Qc).
  { intros [P| |] H; try discriminate. destruct (FlowAccumulation 4 3 P NO_DATA_GEN 4 3 ones) as [[A| |]|] eqn:EA; try discriminate.
    apply andb_true_iff in H. rewrite !eqq_iff in H. exists P, A. tauto. }
  destruct (D (FM_OCallaghan e (Q2Qc (-1)) 4 3 D4 big (cells 4 3))) as [P [A [E1 [E2 [E3 E4]]]]]; [vm_compute; reflexivity|].
  exists e, (Q2Qc (-1)), 4, 3, big, (cells 4 3), P, A, 1, 1.
  split; [reflexivity|]. split; [exact B|]. split; [exact E1|]. split; [exact E2|].
  split; [apply adjacent_iff; exists 3%nat; cbn; tauto|]. split; [apply adjacent_iff; exists 2%nat; cbn; tauto|].
  split; [vm_compute; reflexivity|]. split; [vm_compute; reflexivity|]. split; [exact E3|exact E4].
Qed.

Print Assumptions C20_mass_balance.
Print Assumptions C20_conservation.
Print Assumptions C20_dimensions.
Print Assumptions C20_metric_then_accumulation.
Print Assumptions C17_metrics_acyclic.
Print Assumptions C21_OCallaghan.
Print Assumptions C21_OCallaghan_lowest.
Print Assumptions C21_Rho8.
Print Assumptions C21_Holmgren.
Print Assumptions C21_Freeman.
Print Assumptions C21_Quinn.
Print Assumptions C21_Holmgren_shares.
Print Assumptions C21_Freeman_shares.
Print Assumptions C21_Tarboton.
Print Assumptions C21_Tarboton_shares.
Print Assumptions C21_Tarboton_larger_share_to_closer_refuted.
Print Assumptions C21_order_independent.
Print Assumptions C22_D4_routing.
Print Assumptions C22_Rho4_routing.
Print Assumptions C22_D4_selected_neighbour_refuted.
Print Assumptions C22_D4_acyclic.
