(** MoveWaterInDepHier: the traversal. *)
From Coq Require Import ZArith List Lia Bool Permutation Sorting.Sorted QArith Qcanon Relations.
From Verif Require Import Base Res QcTac RasterSpec FlatsSpec FlowModel DHModel DHSpec DHTree DHTerrain FSMModel FSMSpec FSMPits FSMPits2 FSMRoute.
Open Scope Z_scope.

Lemma forO_app {I S} (a b : list I) (body : I -> S -> option (res S)) s : forO (a ++ b) body s = andthen (forO a body s) (forO b body).
Proof. revert s. induction a as [|x a IH]; intros s; cbn [app forO andthen]; [reflexivity|]. destruct (body x s) as [[s'| |]|]; auto. Qed.
Lemma forO_flat {I J S} (g : I -> list J) (body : J -> S -> option (res S)) l : forall s,
  forO (flat_map g l) body s = forO l (fun i => forO (g i) body) s.
Proof.
  induction l as [|x l IH]; intros s; cbn [flat_map forO]; [reflexivity|]. rewrite forO_app.
  destruct (forO (g x) body s) as [[s'| |]|]; cbn [andthen]; auto.
Qed.
Lemma forO_ext {I S} (b1 b2 : I -> S -> option (res S)) l : (forall i s, In i l -> b1 i s = b2 i s) -> forall s, forO l b1 s = forO l b2 s.
Proof.
  intros H. induction l as [|x l IH]; intros s; cbn [forO]; [reflexivity|]. rewrite (H x s) by (left; auto).
  destruct (b2 x s) as [[s'| |]|]; auto. apply IH. intros; apply H; right; auto.
Qed.
Lemma forO_inv {I S} (P : list I -> S -> Prop) (body : I -> S -> option (res S)) l :
  (forall p i q s, l = p ++ i :: q -> P p s -> exists s', body i s = Some (Ok s') /\ P (p ++ [i]) s') ->
  forall s, P [] s -> exists s', forO l body s = Some (Ok s') /\ P l s'.
Proof.
  intros H. assert (G : forall q p s, l = p ++ q -> P p s -> exists s', forO q body s = Some (Ok s') /\ P l s').
  { induction q as [|i q IH]; intros p s E HP.
    - exists s. rewrite app_nil_r in E. subst l. auto.
    - destruct (H p i q s E HP) as [s' [E' HP']]. destruct (IH (p ++ [i]) s') as [s'' [E'' HP'']]; auto; [rewrite <- app_assoc; exact E|].
      exists s''. cbn [forO]. rewrite E'. auto. }
  intros s HP. apply (G l [] s); auto.
Qed.
Lemma sorted_app {A} (R : A -> A -> Prop) a b : StronglySorted R a -> StronglySorted R b -> (forall x y, In x a -> In y b -> R x y) -> StronglySorted R (a ++ b).
Proof.
  intros HA HB H. induction HA as [|x a HA IH HF]; cbn [app]; auto. constructor.
  - apply IH. intros; apply H; [right|]; auto.
  - rewrite Forall_app. split; auto. rewrite Forall_forall. intros y Hy. apply H; [left|]; auto.
Qed.
Lemma sorted_flat {I A} (R : A -> A -> Prop) (g : I -> list A) l : NoDup l -> (forall i, In i l -> StronglySorted R (g i)) ->
  (forall i j x y, In i l -> In j l -> i <> j -> In x (g i) -> In y (g j) -> R x y) -> StronglySorted R (flat_map g l).
Proof.
  induction l as [|i l IH]; intros ND HS H; cbn [flat_map]; [constructor|]. inversion ND; subst.
  apply sorted_app; [apply HS; left; auto|apply IH; auto|].
  - intros j Hj. apply HS; right; auto.
  - intros j k x y Hj Hk. apply H; right; auto.
  - intros x y Hx Hy. apply in_flat_map in Hy. destruct Hy as [j [Hj Hy]]. apply (H i j); auto; [left; auto|right; auto|].
    intros ->. contradiction.
Qed.

Section Walk.
  Variables (n : Z) (deps : list dep).
  Hypothesis WF : well_formed n deps.
  Hypothesis Hn : n <= 2 ^ 31.
  Hypothesis VO : volumes_ok n deps.
  Notation N := (length deps).
  Notation len := (Z.of_nat (length deps)).
  Notation dp := (FSMRoute.dp deps).
  Notation V := (FSMRoute.V deps).
  Notation par i := (d_parent (dp i)).
  Notation sib i := (d_odep (dp i)).
  Notation lch i := (d_lchild (dp i)).
  Notation rch i := (d_rchild (dp i)).
  Local Notation dp_ix := (FSMRoute.dp_ix deps).
  Local Notation dp_at := (FSMRoute.dp_at deps).
  Local Notation n_pos := (FSMRoute.n_pos n deps WF).
  Local Notation len_small := (FSMRoute.len_small n deps WF Hn).
  Local Notation wplace := (FSMRoute.wplace n deps WF).
  Local Notation wmeta := (FSMRoute.wmeta n deps WF VO).
  Local Notation wleaf := (FSMRoute.wleaf n deps WF).

  (** *** heights: the length of the way to the ocean *)
  Inductive hgt : Z -> nat -> Prop :=
  | h_ocean : hgt 0 0
  | h_up k m : 0 < k < len -> hgt (par k) m -> hgt k (S m).
  Lemma par0 : par 0 = NO_PARENT.
  Proof. destruct (wf_ocean _ _ WF) as [r [E [A _]]]. unfold FSMRoute.dp. rewrite E. exact A. Qed.
  Lemma hgt_in k m : hgt k m -> 0 <= k < len.
  Proof. intros [|k' m' H _]; [|lia]. pose proof (wf_size _ _ WF). pose proof n_pos. lia. Qed.
  Lemma hgt_ex k : 0 <= k < len -> exists m, hgt k m.
  Proof.
    intros H. pose proof (wf_flows _ _ WF k H) as F. revert H. induction F as [|k r E NP _ IH]; intros H; [exists O; constructor|].
    destruct (Z.eq_dec k 0) as [->|]; [exists O; constructor|].
    assert (r = dp k) by (pose proof (dp_ix k H) as E2; rewrite E in E2; congruence). subst r.
    destruct (IH (FSMRoute.par_in n deps WF k ltac:(lia))) as [m Hm]. exists (S m). constructor; auto. lia.
  Qed.
  Lemma hgt_fun k a : hgt k a -> forall b, hgt k b -> a = b.
  Proof. induction 1 as [|k a H _ IH]; intros b Hb; inversion Hb; subst; auto; lia. Qed.
  Lemma hgt_bound k m : hgt k m -> (m < N)%nat.
  Proof.
    intros H. assert (G : exists l, length l = S m /\ NoDup l /\ forall y, In y l -> 0 <= y < len /\ exists j, hgt y j /\ (j <= m)%nat).
    { induction H as [|k m Hk H IH].
      - exists [0]. split; auto. split; [repeat constructor; intros []|]. intros y [<-|[]]. split; [eapply hgt_in; constructor|]. exists O. split; [constructor|auto].
      - destruct IH as [l [L1 [L2 L3]]]. exists (k :: l). split; [cbn [length]; lia|]. split.
        + constructor; auto. intros X. destruct (L3 k X) as [_ [j [Hj Hl]]]. assert (j = S m) by (eapply hgt_fun; [exact Hj|constructor; auto]). lia.
        + intros y [<-|Hy]; [split; [lia|]; exists (S m); split; [constructor; auto|auto]|]. destruct (L3 y Hy) as [A [j [B C]]]. split; auto. exists j. split; auto. }
    destruct G as [l [L1 [L2 L3]]]. assert (length l <= length (zrange 0 N))%nat; [|rewrite zrange_length in *; lia].
    apply NoDup_incl_length; auto. intros y Hy. apply zrange_In. destruct (L3 y Hy). lia.
  Qed.

  Lemma up_par x c : 0 < x < len -> upstream deps (par x) c -> upstream deps x c.
  Proof.
    intros Hx U. eapply us_up; [apply dp_ix; lia| |exact U]. pose proof (FSMRoute.par_in n deps WF x Hx).
    pose proof len_small. unfold NO_PARENT, NO_VALUE in *. lia.
  Qed.
  Lemma up_inv x c : upstream deps x c -> x = c \/ (0 < x < len /\ upstream deps (par x) c).
  Proof.
    intros U. destruct U as [|k r d E NP U]; auto. right. assert (Hk := ixr _ _ _ E).
    assert (r = dp k) by (pose proof (dp_ix k Hk) as E2; rewrite E in E2; congruence). subst r.
    split; auto. destruct (Z.eq_dec k 0) as [->|]; [|lia]. exfalso. apply NP, par0.
  Qed.
  Lemma up_ind' (P : Z -> Z -> Prop) : (forall c, P c c) -> (forall x c, 0 < x < len -> upstream deps (par x) c -> P (par x) c -> P x c) ->
    forall x c, upstream deps x c -> P x c.
  Proof.
    intros H1 H2 x c U. induction U as [|k r d E NP U IH]; auto. assert (Hk := ixr _ _ _ E).
    assert (r = dp k) by (pose proof (dp_ix k Hk) as E2; rewrite E in E2; congruence). subst r.
    apply H2; auto. destruct (Z.eq_dec k 0) as [->|]; [|lia]. exfalso. apply NP, par0.
  Qed.
  Lemma up_in x c : upstream deps x c -> 0 <= c < len -> 0 <= x < len.
  Proof. intros U H. destruct (up_inv _ _ U) as [->|[A _]]; [auto|lia]. Qed.
  Lemma up_hgt x c : upstream deps x c -> forall m j, hgt x m -> hgt c j -> (j <= m)%nat /\ (j = m -> x = c).
  Proof.
    revert x c. apply (up_ind' (fun x c => forall m j, hgt x m -> hgt c j -> (j <= m)%nat /\ (j = m -> x = c))).
    - intros c m j A B. rewrite (hgt_fun _ _ A _ B). auto.
    - intros x c Hx U IH m j A B. inversion A; subst; [lia|]. destruct (IH _ _ H0 B). split; [lia|]. intros ->. lia.
  Qed.
  Lemma up_uniq x c : upstream deps x c -> forall c' j, upstream deps x c' -> hgt c j -> hgt c' j -> c = c'.
  Proof.
    revert x c. apply (up_ind' (fun x c => forall c' j, upstream deps x c' -> hgt c j -> hgt c' j -> c = c')).
    - intros c c' j U A B. destruct (up_hgt _ _ U _ _ A B) as [_ H]. auto.
    - intros x c Hx U IH c' j U' A B. destruct (up_inv _ _ U') as [->|[_ U'']]; [|eapply IH; eauto].
      destruct (hgt_ex (par c')) as [m Hm]; [apply (FSMRoute.par_in n deps WF); auto|]. destruct (up_hgt _ _ U _ _ Hm A).
      assert (j = S m) by (eapply hgt_fun; [exact B|constructor; auto]). lia.
  Qed.
  Lemma up_trans x y z : upstream deps x y -> upstream deps y z -> upstream deps x z.
  Proof. revert x y. apply (up_ind' (fun x y => upstream deps y z -> upstream deps x z)); auto. intros x c Hx U IH H. apply up_par; auto. Qed.

  (** *** the order of the traversal *)
  Definition kids (i : Z) : list Z := d_ocean_linked (dp i) ++ [lch i; rch i].
  Fixpoint postorder (f : nat) (i : Z) : list Z :=
    if i =? NO_VALUE then [] else match f with O => [] | S f' => flat_map (postorder f') (kids i) ++ [i] end.
  Definition visit (i : Z) (s : wstate) : option (res wstate) := if i =? OCEAN then Some (Ok s) else mw_own deps i s.

  Lemma kid_iff i k : 0 <= i < len -> k <> NO_VALUE -> In k (kids i) <-> 0 < k < len /\ par k = i.
  Proof.
    intros Hi Hk. pose proof len_small as LS. pose proof n_pos as NP. pose proof (wf_size _ _ WF) as SZ.
    unfold kids. rewrite in_app_iff. destruct (wf_linked _ _ WF i (dp i) (dp_ix i Hi)) as [_ LK]. rewrite LK. split.
    - intros [[q [E [O P]]]|H].
      + assert (Hr := ixr _ _ _ E). assert (q = dp k) by (pose proof (dp_ix k Hr) as E2; rewrite E in E2; congruence). subst q.
        split; auto. destruct (Z.eq_dec k 0) as [->|]; [|lia]. destruct (wf_ocean _ _ WF) as [r [E0 [_ [O0 _]]]].
        assert (r = dp 0) by (rewrite E in E0; congruence). subst r. congruence.
      + destruct (Z_lt_ge_dec i n).
        * destruct (wleaf i) as [A B]; [lia|]. exfalso. rewrite A, B in H. cbn [In] in H. intuition congruence.
        * destruct (wmeta i) as [A [B [C [D [E _]]]]]; [lia|]. cbn [In] in H. destruct H as [<-|[<-|[]]]; (split; [lia|auto]).
    - intros [Hr P]. destruct (wplace k Hr) as [A B C|A1 A2 A3 A4 A5 A6 A7 A8 A9 A10 A11 A12].
      + left. exists (dp k). split; [apply dp_ix; lia|auto].
      + right. rewrite P in A10. cbn [In]. intuition.
  Qed.

  Lemma mw_post : forall f i s, i = NO_VALUE \/ (exists m, hgt i m /\ (N <= m + f)%nat) ->
    MoveWaterInDepHier f deps i s = forO (postorder f i) visit s.
  Proof.
    induction f as [|f IH]; intros i s H; cbn [MoveWaterInDepHier postorder]; (destruct (Z.eqb_spec i NO_VALUE) as [|Hv]; [reflexivity|]);
      (destruct H as [H|[m [Hm Hf]]]; [contradiction|]).
    { pose proof (hgt_bound _ _ Hm). lia. }
    pose proof (hgt_in _ _ Hm) as Hi. rewrite dp_at by auto.
    assert (K : forall k s, In k (kids i) -> MoveWaterInDepHier f deps k s = forO (postorder f k) visit s).
    { intros k s' Hk. apply IH. destruct (Z.eq_dec k NO_VALUE) as [|Hv']; [auto|right]. apply kid_iff in Hk; auto. destruct Hk as [Hk P].
      exists (S m). split; [constructor; auto; rewrite P; auto|lia]. }
    rewrite forO_app, forO_flat. unfold kids at 1. rewrite forO_app. unfold kids in K.
    rewrite (forO_ext (MoveWaterInDepHier f deps) (fun k => forO (postorder f k) visit)) by (intros k s' Hk; apply K, in_app_iff; auto).
    destruct (forO (d_ocean_linked (dp i)) _ s) as [[s1| |]|]; cbn [andthen]; auto. cbn [forO].
    rewrite K by (apply in_app_iff; right; left; auto). destruct (forO (postorder f (lch i)) visit s1) as [[s2| |]|]; cbn [andthen]; auto.
    rewrite K by (apply in_app_iff; right; right; left; auto). destruct (forO (postorder f (rch i)) visit s2) as [[s3| |]|]; cbn [andthen]; auto.
    unfold visit. destruct (i =? OCEAN); [reflexivity|]. destruct (mw_own deps i s3) as [[s4| |]|]; reflexivity.
  Qed.

  (** every depression upstream of [i] is visited, once, and before its parent *)
  Definition sooner (x y : Z) : Prop := x <> y /\ x <> par y.
  Lemma po_in : forall f i m, hgt i m -> (N <= m + f)%nat -> forall x, In x (postorder f i) <-> upstream deps x i.
  Proof.
    pose proof len_small as LS. induction f as [|f IH]; intros i m Hm Hf x; [pose proof (hgt_bound _ _ Hm); lia|].
    pose proof (hgt_in _ _ Hm) as Hi. cbn [postorder]. destruct (Z.eqb_spec i NO_VALUE) as [|Hv]; [lia|].
    rewrite in_app_iff, in_flat_map. split.
    - intros [[k [Hk Hx]]|[<-|[]]]; [|constructor]. destruct (Z.eq_dec k NO_VALUE) as [->|Hv'].
      + exfalso. destruct f; cbn [postorder] in Hx; rewrite Z.eqb_refl in Hx; exact Hx.
      + apply kid_iff in Hk; auto. destruct Hk as [Hk P]. apply (IH k (S m)) in Hx; [|constructor; auto; rewrite P; auto|lia].
        eapply up_trans; [exact Hx|]. apply up_par; auto. rewrite P. constructor.
    - intros U. destruct (Z.eq_dec x i) as [->|Hne]; [right; left; auto|left].
      assert (G : exists k, (0 < k < len /\ par k = i) /\ upstream deps x k).
      { clear IH Hf Hm. revert x i U Hi Hne Hv. apply (up_ind' (fun x i => 0 <= i < len -> x <> i -> i <> NO_VALUE -> exists k, (0 < k < len /\ par k = i) /\ upstream deps x k)).
        - intros; contradiction.
        - intros x c Hx U IH Hc Hne Hv. destruct (Z.eq_dec (par x) c) as [E|E]; [exists x; split; auto; constructor|].
          destruct (IH Hc E Hv) as [k [K1 K2]]. exists k. split; auto. apply up_par; auto. }
      destruct G as [k [[Hk P] U']]. exists k. split; [apply kid_iff; auto; lia|]. apply (IH k (S m)); auto; [constructor; auto; rewrite P; auto|lia].
  Qed.
  Lemma kids_nodup i : 0 <= i < len -> NoDup (filter (fun k => negb (k =? NO_VALUE)) (kids i)).
  Proof.
    intros Hi. unfold kids. rewrite filter_app. destruct (wf_linked _ _ WF i (dp i) (dp_ix i Hi)) as [ND LK].
    pose proof len_small. pose proof n_pos.
    assert (D : NoDup (filter (fun k => negb (k =? NO_VALUE)) [lch i; rch i]) /\ forall k, In k (filter (fun k => negb (k =? NO_VALUE)) [lch i; rch i]) -> d_ocean_parent (dp k) = false).
    { destruct (Z_lt_ge_dec i n).
      - destruct (wleaf i) as [-> ->]; [lia|]. cbn [filter]. rewrite Z.eqb_refl. cbn [negb]. split; [constructor|intros k []].
      - destruct (wmeta i) as [A [B [C [D [E [F [G _]]]]]]]; [lia|]. cbn [filter].
        destruct (Z.eqb_spec (lch i) NO_VALUE); [lia|]. destruct (Z.eqb_spec (rch i) NO_VALUE); [lia|]. cbn [negb]. split.
        + repeat constructor; cbn [In]; intuition.
        + intros k [<-|[<-|[]]]; auto. }
    destruct D as [D1 D2]. apply NoDup_app_disj; auto; [apply NoDup_filter; auto|].
    intros k K1 K2. apply filter_In in K1. destruct K1 as [K1 _]. apply D2 in K2. apply LK in K1. destruct K1 as [q [E [O _]]].
    unfold FSMRoute.dp in K2. rewrite E in K2. congruence.
  Qed.
  Lemma po_sorted : forall f i m, hgt i m -> (N <= m + f)%nat -> StronglySorted sooner (postorder f i).
  Proof.
    pose proof len_small as LS. induction f as [|f IH]; intros i m Hm Hf; [pose proof (hgt_bound _ _ Hm); lia|].
    pose proof (hgt_in _ _ Hm) as Hi. cbn [postorder]. destruct (Z.eqb_spec i NO_VALUE) as [|Hv]; [lia|].
    assert (FN : flat_map (postorder f) (kids i) = flat_map (postorder f) (filter (fun k => negb (k =? NO_VALUE)) (kids i))).
    { generalize (kids i) as L. induction L as [|k L IHL]; cbn [flat_map filter]; [reflexivity|]. destruct (Z.eqb_spec k NO_VALUE) as [->|]; cbn [negb].
      - destruct f; cbn [postorder]; rewrite Z.eqb_refl; exact IHL.
      - cbn [flat_map]. rewrite IHL. reflexivity. }
    assert (KID : forall k, In k (filter (fun k => negb (k =? NO_VALUE)) (kids i)) -> (0 < k < len /\ par k = i) /\ hgt k (S m)).
    { intros k Hk. apply filter_In in Hk. destruct Hk as [Hk B]. destruct (Z.eqb_spec k NO_VALUE); [discriminate B|].
      apply kid_iff in Hk; auto. destruct Hk as [Hk P]. split; auto. constructor; auto. rewrite P; auto. }
    assert (CH : forall k x, In k (filter (fun k => negb (k =? NO_VALUE)) (kids i)) -> In x (postorder f k) -> upstream deps x k /\ hgt k (S m) /\ 0 <= x < len).
    { intros k x Hk Hx. destruct (KID k Hk) as [[A B] C]. apply (po_in f k (S m)) in Hx; auto; [|lia]. split; auto. split; auto. eapply up_in; eauto. lia. }
    rewrite FN. apply sorted_app.
    - apply sorted_flat; [apply kids_nodup; auto| |].
      + intros k Hk. apply (IH k (S m)); [apply KID; auto|lia].
      + intros k k' x y Hk Hk' Hne Hx Hy. destruct (CH k x Hk Hx) as [U [H1 _]]. destruct (CH k' y Hk' Hy) as [U' [H2 _]]. split.
        * intros ->. apply Hne. eapply up_uniq; eauto.
        * intros ->. destruct (up_inv _ _ U') as [->|[_ U'']].
          -- destruct (KID k' Hk') as [[_ P] _]. rewrite P in U. destruct (up_hgt _ _ U _ _ Hm H1). lia.
          -- apply Hne. eapply up_uniq; eauto.
    - repeat constructor.
    - intros x y Hx [<-|[]]. apply in_flat_map in Hx. destruct Hx as [k [Hk Hx]]. destruct (CH k x Hk Hx) as [U [H1 Hr]]. split.
      + intros ->. destruct (up_hgt _ _ U _ _ Hm H1). lia.
      + intros ->. inversion Hm; subst; [rewrite par0 in Hr; unfold NO_PARENT, NO_VALUE in *; lia|].
        destruct (up_hgt _ _ U _ _ H0 H1). lia.
  Qed.

  (** *** one depression *)
  Notation fok := (FSMRoute.fok n deps).
  Notation jok := (FSMRoute.jok n deps).
  Notation full := (FSMRoute.full deps).
  Notation tsum := (FSMRoute.tsum n deps).
  Notation closed := (FSMRoute.closed deps).
  Notation all := (fun _ : Z => true).
  Notation wof s := (wat (s_wv s)).

  Record owned (i : Z) (s s' : wstate) : Prop := {
    ow_len : length (s_wv s') = N; ow_fok : fok (wof s'); ow_jok : exists F, jok (wof s') (s_jump s') F;
    ow_full : forall d, 0 < d < len -> full (wof s) d -> full (wof s') d;
    ow_le : forall x, 0 < x < len -> x <> par i -> (wof s x <= V x)%Qc \/ x = i -> (wof s' x <= V x)%Qc;
    ow_sum : forall S d, closed S d -> (0 < d < len /\ full (wof s') d) \/ (tsum S (wof s) - fp_error <= tsum S (wof s'))%Qc;
    ow_all : (tsum all (wof s') <= tsum all (wof s))%Qc }.

  Lemma at_brim_iff i q : 0 < i < len -> at_brim (d_vol (dp i)) q = qeq q (V i).
  Proof. intros H. destruct (vol_dp n deps VO i H) as [z [E [-> _]]]. unfold at_brim. rewrite E. reflexivity. Qed.

  Lemma merge_step i wv : length wv = N -> fok (wat wv) -> 0 < i < len ->
    exists wv1, mw_merge deps (dp i) i wv = Ok wv1 /\ length wv1 = N /\ fok (wat wv1) /\ mono n deps (wat wv) (wat wv1) /\
      (forall S, tsum S (wat wv1) = tsum S (wat wv)) /\ (forall x, 0 < x < len -> (wat wv x <= V x)%Qc -> (wat wv1 x <= V x)%Qc).
  Proof.
    intros HL FO Hi. pose proof len_small as LS. pose proof n_pos as NP. unfold mw_merge.
    assert (SAME : exists wv1, Ok wv = Ok wv1 /\ length wv1 = N /\ fok (wat wv1) /\ mono n deps (wat wv) (wat wv1) /\
      (forall S, tsum S (wat wv1) = tsum S (wat wv)) /\ (forall x, 0 < x < len -> (wat wv x <= V x)%Qc -> (wat wv1 x <= V x)%Qc)).
    { exists wv. split; [reflexivity|]. split; auto. split; auto. split; [apply mono_refl|]. split; auto. }
    destruct (Z_lt_ge_dec i n) as [Hl|Hl].
    { destruct (wleaf i) as [-> _]; [lia|]. rewrite Z.eqb_refl. exact SAME. }
    destruct (wmeta i) as [A [B [C [D [E [F [G [H1 [H2 H3]]]]]]]]]; [lia|].
    destruct (Z.eqb_spec (lch i) NO_VALUE); [lia|]. cbn [negb].
    rewrite dp_at by lia. cbn [bind]. rewrite wat_at by lia. cbn [bind]. rewrite at_brim_iff by lia.
    destruct (qeqP (wat wv (lch i)) (V (lch i))) as [QL|_]; [|exact SAME].
    rewrite dp_at by lia. cbn [bind]. rewrite wat_at by lia. cbn [bind]. rewrite wat_at by lia. cbn [bind]. rewrite at_brim_iff by lia.
    destruct (qeqP (wat wv (rch i)) (V (rch i))) as [QR|_]; [|exact SAME].
    destruct (qeqP (wat wv i) 0) as [Q0|_]; [|exact SAME]. cbn [andb].
    destruct (wat_wr wv i (wat wv i + (wat wv (lch i) + wat wv (rch i)))%Qc) as [wv1 [E1 [L1 J1]]]; [lia|].
    destruct (merge_ok n deps WF VO (wat wv) (wat wv1) i) as [X1 [X2 [X3 [X4 X5]]]]; auto.
    - lia.
    - intros j Hj. rewrite J1. destruct (Z.eqb_spec j i); [contradiction|reflexivity].
    - unfold FSMRoute.full. rewrite QL. apply Qcle_refl.
    - unfold FSMRoute.full. rewrite QR. apply Qcle_refl.
    - rewrite J1, Z.eqb_refl, Q0, QL, QR. ring.
    - exists wv1. split; [exact E1|]. split; [lia|]. split; auto. split; auto. split; auto.
      intros x Hx Hx'. destruct (Z.eq_dec x i) as [->|]; [exact X5|]. rewrite J1. destruct (Z.eqb_spec x i); [contradiction|exact Hx'].
  Qed.

  Lemma own_ok i s F : length (s_wv s) = N -> fok (wof s) -> jok (wof s) (s_jump s) F -> 0 < i < len ->
    (forall c, 0 < c < len -> par c = i -> (wof s c <= V c)%Qc) ->
    exists s', mw_own deps i s = Some (Ok s') /\ owned i s s'.
  Proof.
    intros HL FO JO Hi CH. pose proof len_small as LS. pose proof n_pos as NP. unfold mw_own.
    rewrite dp_at by lia. cbn [bind]. destruct (merge_step i (s_wv s) HL FO Hi) as [wv1 [E1 [L1 [F1 [M1 [S1 V1]]]]]].
    rewrite E1. cbn [bind]. rewrite wat_at by lia. cbn [bind].
    destruct (vol_dp n deps VO i Hi) as [z [Ez [EV Hz]]]. unfold over. rewrite Ez, <- EV.
    assert (JO1 : jok (wat wv1) (s_jump s) F) by (eapply jok_mono; eauto).
    assert (NPAR : par i <> i).
    { destruct (wplace i Hi) as [A B C|A1 A2 _ _ _ _ _ _ _ _ _ _]; [|lia]. intros X.
      destruct (hgt_ex i) as [m Hm]; [lia|]. inversion Hm; subst; [lia|]. rewrite X in H0. pose proof (hgt_fun _ _ Hm _ H0). lia. }
    destruct (qltP (V i) (wat wv1 i)) as [Q|Q].
    - assert (V0 : (0 <= V i)%Qc) by (apply (V_nonneg n deps VO); auto).
      assert (NZ : wat wv1 i <> 0%Qc) by (intros X; rewrite X in Q; revert Q; apply Qcle_not_lt, V0).
      assert (BR : forall c, c = lch i \/ c = rch i -> brim_or_none deps c wv1 = Ok tt).
      { intros c Hc. unfold brim_or_none. destruct (Z.eqb_spec c NO_VALUE) as [|Hv]; [reflexivity|].
        destruct (Z_lt_ge_dec i n); [destruct (wleaf i) as [A B]; [lia|]; destruct Hc; congruence|].
        destruct (wmeta i) as [A [B [C [D [E _]]]]]; [lia|]. assert (Hcr : 0 < c < len) by (destruct Hc as [->| ->]; lia).
        rewrite dp_at, wat_at by lia. cbn [bind]. rewrite at_brim_iff by lia.
        destruct (fk_meta _ _ _ F1 i) as [FL FR]; [lia|auto|]. unfold FSMRoute.full in *.
        assert (PC : par c = i) by (destruct Hc as [->| ->]; auto).
        assert (wat wv1 c <= V c)%Qc by (apply V1; auto).
        destruct (qeqP (wat wv1 c) (V c)) as [|X]; [reflexivity|]. exfalso. apply X. apply Qcle_antisym; auto. destruct Hc as [->| ->]; auto. }
      rewrite !BR by auto. cbn [bind].
      destruct (overflow_ok n deps WF Hn VO (par i) (S N) (s_jump s) i wv1 0%Qc F []) as [r [wv2 [jump2 [F2 [E2 [L2 R]]]]]]; auto.
      + right; left; exact NZ.
      + lia.
      + apply Qcle_refl.
      + constructor.
      + intros z0 [].
      + cbn [length]. lia.
      + rewrite E2. destruct R as [R1 R2 R3 R4 R5 R6 R7 R8 R9 R10 R11].
        assert (LE : (wat wv2 i <= V i)%Qc) by (apply R9; auto).
        assert (NO : not_over deps (dp i) i wv2 = Ok tt).
        { unfold not_over. rewrite wat_at by lia. cbn [bind]. rewrite Ez, <- EV. destruct (qleP (wat wv2 i) (V i)); [|contradiction].
          rewrite orb_true_r. reflexivity. }
        rewrite NO. eexists. split; [reflexivity|]. constructor; cbn [s_wv s_jump]; auto.
        * exists F2. exact R3.
        * intros d Hd Fd. apply (mn_full _ _ _ _ R2); auto. apply (mn_full _ _ _ _ M1); auto.
        * intros x Hx Hp [Hl|Hl]; apply R9; auto.
        * intros S d C. destruct (R10 S d C) as [X|X]; [auto|right]. rewrite S1 in X. destruct (S i); qlra.
        * rewrite S1 in R11. qlra.
    - eexists. split; [reflexivity|]. pose proof fp_pos. constructor; cbn [s_wv s_jump]; auto.
      + exists F. exact JO1.
      + intros d Hd Fd. apply (mn_full _ _ _ _ M1); auto.
      + intros x Hx Hp [Hl| ->]; [apply V1; auto|]. apply Qcnot_lt_le, Q.
      + intros S d C. right. rewrite S1. qlra.
      + rewrite S1. apply Qcle_refl.
  Qed.

  (** *** the whole traversal *)
  Record walked (f0 : Z -> Qc) (P : list Z) (s : wstate) : Prop := {
    wk_len : length (s_wv s) = N; wk_fok : fok (wof s); wk_jok : exists F, jok (wof s) (s_jump s) F;
    wk_le : forall x, 0 < x < len -> In x P -> (wof s x <= V x)%Qc;
    wk_sum : forall S d, closed S d -> (0 < d < len /\ full (wof s) d) \/
      (tsum S f0 - zq (Z.of_nat (length P)) * fp_error <= tsum S (wof s))%Qc;
    wk_all : (tsum all (wof s) <= tsum all f0)%Qc }.

  Lemma route_ok wv0 : length wv0 = N -> fok (wat wv0) ->
    exists s, MoveWaterInDepHier N deps OCEAN (mkW wv0 (fun _ => None)) = Some (Ok s) /\
      walked (wat wv0) (postorder N 0) s /\ Permutation (postorder N 0) (zrange 0 N).
  Proof.
    intros HL FO. pose proof n_pos as NP. pose proof (wf_size _ _ WF) as SZ.
    assert (H0 : hgt 0 0) by constructor.
    rewrite mw_post by (right; exists O; split; [constructor|lia]).
    assert (PIN : forall x, In x (postorder N 0) <-> 0 <= x < len).
    { intros x. rewrite (po_in N 0 O H0) by lia. split; [intros U; eapply up_in; eauto; lia|]. intros Hx.
      destruct (hgt_ex x Hx) as [m Hm]. clear Hx. induction Hm; [constructor|]. apply up_par; auto. }
    pose proof (po_sorted N 0 O H0 ltac:(lia)) as PS.
    assert (PSP : forall p i q, postorder N 0 = p ++ i :: q -> (forall x, In x p -> sooner x i) /\ (forall x, In x q -> sooner i x)).
    { intros p i q E. rewrite E in PS. clear -PS. induction p as [|a p IH]; cbn [app] in PS.
      - inversion PS as [|a0 l0 PS' PF]; subst. split; [intros x []|]. rewrite Forall_forall in PF. exact PF.
      - inversion PS as [|a0 l0 PS' PF]; subst. destruct (IH PS') as [A B]. split; [|exact B]. intros x [<-|Hx]; [|auto].
        rewrite Forall_forall in PF. apply PF, in_app_iff. right; left; auto. }
    assert (PND : NoDup (postorder N 0)).
    { revert PS. generalize (postorder N 0) as l. induction l as [|a l IH]; intros PS; constructor; inversion PS as [|a0 l0 PS' PF]; subst; auto.
      intros X. rewrite Forall_forall in PF. destruct (PF a X) as [Y _]. congruence. }
    destruct (forO_inv (walked (wat wv0)) visit (postorder N 0)) with (s := mkW wv0 (fun _ => None)) as [s [E K]].
    - intros p i q s EP [K1 K2 [F K3] K4 K5 K6]. destruct (PSP p i q EP) as [PA PB].
      assert (Hi : 0 <= i < len) by (apply PIN; rewrite EP; apply in_app_iff; right; left; auto).
      unfold visit, OCEAN. destruct (Z.eqb_spec i 0) as [->|Ni].
      + exists s. split; [reflexivity|]. pose proof fp_pos. constructor; auto; [exists F; auto| |].
        * intros x Hx Hx'. apply in_app_iff in Hx'. destruct Hx' as [Hx'|[<-|[]]]; [auto|lia].
        * intros S d C. destruct (K5 S d C) as [X|X]; [auto|right]. rewrite app_length. cbn [length].
          replace (Z.of_nat (length p + 1)) with (Z.of_nat (length p) + 1) by lia. rewrite zq_add.
          assert (Y : ((zq (Z.of_nat (length p)) + zq 1) * fp_error = zq (Z.of_nat (length p)) * fp_error + fp_error)%Qc)
            by (replace (zq 1) with 1%Qc by reflexivity; ring).
          rewrite Y. generalize dependent (zq (Z.of_nat (length p)) * fp_error)%Qc. intros. qlra.
      + assert (Hi' : 0 < i < len) by lia.
        destruct (own_ok i s F K1 K2 K3 Hi') as [s' [E' [O1 O2 [F' O3] O4 O5 O6 O7]]].
        { intros c Hc Pc. apply K4; auto.
          assert (IC : In c (postorder N 0)) by (apply PIN; lia). rewrite EP in IC. apply in_app_iff in IC. destruct IC as [|[->|IC]]; auto.
          - exfalso. destruct (hgt_ex c) as [m Hm]; [lia|]. inversion Hm; subst; [lia|]. rewrite Pc in H1. pose proof (hgt_fun _ _ Hm _ H1). lia.
          - destruct (PB c IC) as [_ X]. congruence. }
        exists s'. split; [exact E'|]. constructor; auto; [exists F'; auto| | |].
        * intros x Hx Hx'. apply in_app_iff in Hx'. destruct Hx' as [Hx'|[<-|[]]].
          -- apply O5; auto. destruct (PA x Hx') as [_ X]. exact X.
          -- apply O5; auto. intros X. destruct (hgt_ex i) as [m Hm]; [lia|]. inversion Hm; subst; [lia|]. rewrite <- X in H1. pose proof (hgt_fun _ _ Hm _ H1). lia.
        * intros S d C. destruct (K5 S d C) as [[X Y]|X]; [left; split; auto|]. destruct (O6 S d C) as [Y|Y]; [auto|right].
          rewrite app_length. cbn [length].
          replace (Z.of_nat (length p + 1)) with (Z.of_nat (length p) + 1) by lia. rewrite zq_add.
          assert (Z : ((zq (Z.of_nat (length p)) + zq 1) * fp_error = zq (Z.of_nat (length p)) * fp_error + fp_error)%Qc)
            by (replace (zq 1) with 1%Qc by reflexivity; ring).
          rewrite Z. clear Z. generalize dependent (zq (Z.of_nat (length p)) * fp_error)%Qc. intros. qlra.
        * qlra.
    - constructor; cbn [s_wv s_jump]; auto.
      + exists (fun _ => false). constructor; [discriminate|discriminate|]. intros x _ _ X. discriminate X.
      + intros x _ [].
      + intros S d C. right. cbn [length]. replace (zq (Z.of_nat 0)) with 0%Qc by reflexivity. rewrite Qcmult_0_l. qlra.
      + apply Qcle_refl.
    - exists s. split; [exact E|]. split; [exact K|]. apply NoDup_Permutation; auto; [apply zrange_NoDup|].
      intros x. rewrite PIN, zrange_In. lia.
  Qed.
End Walk.
