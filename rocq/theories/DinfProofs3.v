(** D-infinity flow directions: water goes down; edges; the raster as a whole. *)
From Coq Require Import ZArith Reals List Bool Permutation Lra Lia Psatz.
From Verif Require Import Base Res RasterSpec RasterFacts FlowModel FlowSpec FlowProofs TAModel TAProofs DinfModel DinfSpec DinfProofs DinfProofs2.
Import ListNotations.
Open Scope R_scope.

Lemma facet_down e0 e1 e2 r s : facet e0 e1 e2 = (r, s) -> 0 < s -> (r < PI / 4 -> e1 < e0) /\ (0 < r -> e2 < e0).
Proof.
  unfold facet. rewrite datan2_11. set (s1 := e0 - e1). set (s2 := e1 - e2).
  assert (HPI := PI_RGT_0).
  replace (s1 / 1) with s1 by field. replace (s2 / 1) with s2 by field.
  destruct (Rlt_dec (datan2 s2 s1) 0) as [L|L]; [|destruct (Rgt_dec (datan2 s2 s1) (PI / 4)) as [G|G]]; intros [= <- <-] Hs.
  - unfold s1 in *. split; intros; lra.
  - split; intros; [lra|]. replace (1 * 1 + 1 * 1) with 2 in Hs by ring. assert (S2 := sqrt2_pos).
    apply (Rmult_lt_compat_r (sqrt 2)) in Hs; [|lra]. replace ((e0 - e2) / sqrt 2 * sqrt 2) with (e0 - e2) in Hs by (field; lra). lra.
  - assert (NZ : s2 <> 0 \/ s1 <> 0).
    { destruct (Req_EM_T s2 0) as [Z2|]; [|tauto]. destruct (Req_EM_T s1 0) as [Z1|]; [|tauto]. exfalso.
      rewrite Z1, Z2 in Hs. replace (0 * 0 + 0 * 0) with 0 in Hs by ring. rewrite sqrt_0 in Hs. lra. }
    assert (E : datan2 s2 s1 = atan2 s2 s1) by (unfold datan2; destruct (Req_EM_T s2 0); [|reflexivity]; destruct (Req_EM_T s1 0); [tauto|reflexivity]).
    rewrite E in *. destruct (atan2_polar s2 s1 NZ) as [rho [Hr [E1 E2]]]. set (phi := atan2 s2 s1) in *. clear E.
    assert (C : 0 < cos phi) by (apply cos_gt_0; lra).
    assert (S : 0 <= sin phi) by (apply sin_ge_0; lra).
    assert (P1 : 0 < s1) by (rewrite E1; apply Rmult_lt_0_compat; lra).
    assert (P2 : 0 <= s2) by (rewrite E2; apply Rmult_le_pos; lra).
    unfold s1, s2 in *. split; intros; lra.
Qed.

Lemma near_int (a b : Z) : -1 < IZR a - IZR b < 1 -> a = b.
Proof.
  rewrite <- minus_IZR. intros [H1 H2]. change (-1) with (IZR (-1)) in H1. apply lt_IZR in H1, H2. lia.
Qed.
Lemma share_facet n r k s : (0 <= n < 8)%Z -> 0 <= r <= PI / 4 -> share (angle n r) k s ->
  (compass k = off1 n /\ r < PI / 4) \/ (compass k = off2 n /\ 0 < r).
Proof.
  intros Hn Hr [j H]. cbv zeta in H. assert (P := PI_RGT_0).
  set (t := 4 * r / PI).
  assert (Er : r = t * (PI / 4)) by (unfold t; field; lra).
  assert (T : 0 <= t <= 1).
  { rewrite Er in Hr. split; [apply (Rmult_le_reg_r (PI / 4)); lra|apply (Rmult_le_reg_r (PI / 4)); lra]. }
  assert (Tr : (t < 1 -> r < PI / 4) /\ (0 < t -> 0 < r)).
  { rewrite Er. split; intros; nra. }
  assert (Q : (4 * angle n r / PI = IZR n + t /\ compass n = off1 n /\ compass (n + 1) = off2 n) \/
              (4 * angle n r / PI = IZR n + 1 - t /\ compass (n + 1) = off1 n /\ compass n = off2 n)).
  { unfold angle, t. clear - Hn P. each Hn; offa;
    first [ left; split; [field; lra|split; reflexivity] | right; split; [field; lra|split; reflexivity] ]. }
  clearbody t.
  destruct Q as [[Eq [C1 C2]]|[Eq [C1 C2]]]; rewrite Eq in H; (destruct H as [[H [-> _]]|[H [[-> _]|[-> _]]]]).
  - destruct (Rlt_le_dec t 1) as [T1|T1].
    + assert (n = j) by (apply near_int; lra). subst j. left. rewrite C1. tauto.
    + assert (n + 1 = j)%Z by (apply near_int; rewrite plus_IZR; lra). subst j. right. rewrite C2. split; [reflexivity|]. apply Tr. lra.
  - destruct (Rlt_le_dec t 1) as [T1|T1].
    + assert (n = j) by (apply near_int; lra). subst j. left. rewrite C1. tauto.
    + assert (n + 1 = j)%Z by (apply near_int; rewrite plus_IZR; lra). subst j. right. rewrite C2. split; [reflexivity|]. apply Tr. lra.
  - destruct (Rlt_le_dec t 1) as [T1|T1].
    + assert (n = j) by (apply near_int; lra). subst j. right. rewrite C2. split; [reflexivity|]. apply Tr. lra.
    + assert (n + 1 = j)%Z by (apply near_int; rewrite plus_IZR; lra). subst j. rewrite plus_IZR in H. lra.
  - destruct (Rlt_le_dec 0 t) as [T1|T1].
    + assert (n = j) by (apply near_int; lra). subst j. right. rewrite C2. tauto.
    + assert (n + 1 = j)%Z by (apply near_int; rewrite plus_IZR; lra). subst j. left. rewrite C1. split; [reflexivity|]. apply Tr. lra.
  - destruct (Rlt_le_dec 0 t) as [T1|T1].
    + assert (n = j) by (apply near_int; lra). subst j. right. rewrite C2. tauto.
    + assert (n + 1 = j)%Z by (apply near_int; rewrite plus_IZR; lra). subst j. left. rewrite C1. split; [reflexivity|]. apply Tr. lra.
  - destruct (Rlt_le_dec 0 t) as [T1|T1].
    + assert (n = j) by (apply near_int; lra). subst j. left. rewrite C1. split; [reflexivity|]. apply Tr. lra.
    + assert (n + 1 = j)%Z by (apply near_int; rewrite plus_IZR; lra). subst j. rewrite plus_IZR in H. lra.
Qed.

Lemma dinf_lower w h e x y th k s :
  (forall i j, (-1 <= i <= 1)%Z -> (-1 <= j <= 1)%Z -> in_raster w h (x + i) (y + j)) ->
  dinf_FlowDir w h e x y = Ok th -> th <> 0 -> share th k s ->
  e (fst (step (x, y) k)) (snd (step (x, y) k)) < e x y.
Proof.
  intros I E NZ Hs. destruct (flowdir_inner w h e x y I) as [th' [E' H]]. rewrite E in E'. injection E' as <-.
  destruct H as [[-> _]|[n [r [s0 [Hn [S0 [F [-> _]]]]]]]]; [contradiction|].
  destruct (facet_ok _ _ _ _ _ F) as [Hr _]. destruct (facet_down _ _ _ _ _ F S0) as [D1 D2].
  unfold step. cbn [fst snd].
  destruct (share_facet n r k s Hn Hr Hs) as [[-> L]|[-> L]]; [exact (D1 L)|exact (D2 L)].
Qed.

(** * Edges *)
Lemma edge_dir w h e x y : in_raster w h x y -> on_edge w h x y ->
  exists k, (0 <= k < 8)%Z /\ dinf_FlowDir w h e x y = Ok (IZR k * PI / 4) /\ ~ in_raster w h (fst (step (x, y) k)) (snd (step (x, y) k)).
Proof.
  intros I D. unfold dinf_FlowDir.
  assert (E : isEdgeCell w h x y = true).
  { unfold isEdgeCell. rewrite !orb_true_iff, !Z.eqb_eq. unfold on_edge in D. tauto. }
  rewrite E. unfold on_edge in D. unfold in_raster, step, compass in *. 
  assert (G : forall k, (0 <= k < 8)%Z -> forall r, r = IZR k * PI / 4 ->
     ~ (0 <= x + fst (compass k) < w /\ 0 <= y + snd (compass k) < h)%Z ->
     exists k, (0 <= k < 8)%Z /\ Ok r = Ok (IZR k * PI / 4) /\ ~ in_raster w h (fst (step (x, y) k)) (snd (step (x, y) k))).
  { intros k Hk r -> N. exists k. split; [exact Hk|]. split; [reflexivity|exact N]. }
  destruct (Z.eqb_spec x 0) as [X0|X0], (Z.eqb_spec y 0) as [Y0|Y0], (Z.eqb_spec x (w - 1)) as [XW|XW],
    (Z.eqb_spec y (h - 1)) as [YH|YH]; cbn [andb];
    first [ apply (G 3%Z); [lia|reflexivity|vm_compute compass; cbn [fst snd]; lia]
          | apply (G 5%Z); [lia|reflexivity|vm_compute compass; cbn [fst snd]; lia]
          | apply (G 1%Z); [lia|reflexivity|vm_compute compass; cbn [fst snd]; lia]
          | apply (G 7%Z); [lia|reflexivity|vm_compute compass; cbn [fst snd]; lia]
          | apply (G 4%Z); [lia|reflexivity|vm_compute compass; cbn [fst snd]; lia]
          | apply (G 0%Z); [lia|reflexivity|vm_compute compass; cbn [fst snd]; lia]
          | apply (G 2%Z); [lia|reflexivity|vm_compute compass; cbn [fst snd]; lia]
          | apply (G 6%Z); [lia|reflexivity|vm_compute compass; cbn [fst snd]; lia]
          | exfalso; lia ].
Qed.
Lemma share_int i k s : share (IZR i * PI / 4) k s -> k = i /\ s = 1.
Proof.
  intros [j H]. cbv zeta in H. assert (P := PI_RGT_0).
  replace (4 * (IZR i * PI / 4) / PI) with (IZR i) in H by (field; lra).
  destruct H as [[H [-> ->]]|[H _]].
  - assert (i = j) by (apply near_int; lra). auto.
  - assert (i = j) by (apply near_int; lra). subst j. lra.
Qed.

(** * The raster *)
Lemma inner_nbrs w h x y : in_raster w h x y -> ~ on_edge w h x y ->
  forall i j, (-1 <= i <= 1)%Z -> (-1 <= j <= 1)%Z -> in_raster w h (x + i) (y + j).
Proof.
  intros I N i j Hi Hj. assert (N' : ~ (x = 0 \/ y = 0 \/ x = w - 1 \/ y = h - 1)%Z) by (intros K; apply N; split; assumption).
  unfold in_raster in *. lia.
Qed.
Lemma dir_total w h e x y : in_raster w h x y -> exists th, dinf_FlowDir w h e x y = Ok th.
Proof.
  intros I. destruct (isEdgeCell w h x y) eqn:E.
  - destruct (edge_dir w h e x y I) as [k [_ [H _]]]; [|eauto]. apply on_edge_iff; assumption.
  - destruct (dinf_inner w h e x y) as [th [H _]]; [|eauto]. apply inner_nbrs; [exact I|].
    rewrite on_edge_iff by exact I. congruence.
Qed.

Lemma dirs_ok w h e nd order : Permutation order (scan w h) ->
  exists fd, dinf_flow_directions w h e nd order = Ok fd /\
    forall x y, in_raster w h x y ->
      (e x y = nd -> fd x y = -1) /\ (e x y <> nd -> dinf_FlowDir w h e x y = Ok (fd x y)).
Proof.
  intros Hp. unfold dinf_flow_directions.
  assert (G : forall l fd0, (forall c, In c l -> in_raster w h (fst c) (snd c)) ->
    exists fd, forM l (fun p fd =>
    let '(x, y) := p in
    do e0 <- gat w h e x y;
    if Req_EM_T e0 nd then Ok (gset fd x y dinf_NO_DATA)
    else do d <- dinf_FlowDir w h e x y; Ok (gset fd x y d)) fd0 = Ok fd /\
    forall x y, (In (x, y) l -> (e x y = nd -> fd x y = -1) /\ (e x y <> nd -> dinf_FlowDir w h e x y = Ok (fd x y))) /\
                (~ In (x, y) l -> fd x y = fd0 x y)).
  { induction l as [|[a b] l IH]; intros fd0 Hl.
    - exists fd0. split; [reflexivity|]. intros x y. split; [intros []|reflexivity].
    - assert (Iab := Hl (a, b) (or_introl eq_refl)). cbn [fst snd] in Iab. cbn [forM]. rewrite (gat_ok w h e a b Iab). cbn [bind].
      destruct (dir_total w h e a b Iab) as [th Et].
      assert (K : exists v, (if Req_EM_T (e a b) nd then Ok (gset fd0 a b dinf_NO_DATA)
         else do d <- dinf_FlowDir w h e a b; Ok (gset fd0 a b d)) = Ok (gset fd0 a b v) /\
         ((e a b = nd -> v = -1) /\ (e a b <> nd -> dinf_FlowDir w h e a b = Ok v))).
      { destruct (Req_EM_T (e a b) nd) as [Q|Q].
        - exists (-1). split; [reflexivity|]. split; [reflexivity|contradiction].
        - rewrite Et. exists th. split; [reflexivity|]. split; [contradiction|reflexivity]. }
      destruct K as [v [-> Hv]]. cbn [bind].
      destruct (IH (gset fd0 a b v)) as [fd [E F]]; [intros c Hc; apply Hl; right; exact Hc|].
      exists fd. split; [exact E|]. intros x y. destruct (F x y) as [F1 F2].
      destruct (in_dec (fun c d : Z * Z => ltac:(repeat decide equality)) (x, y) l) as [In1|N1].
      + split; [intros _; exact (F1 In1)|]. intros N. destruct N. right. exact In1.
      + rewrite (F2 N1). split.
        * intros [Q|Q]; [|contradiction]. injection Q as -> ->. rewrite gset_same. exact Hv.
        * intros N. rewrite gset_other; [reflexivity|]. intros Q. apply N. left. symmetry. exact Q. }
  destruct (G order (fun _ _ => 0)) as [fd [E F]].
  { intros [cx cy] Hc. apply (Permutation_in _ Hp) in Hc. apply scan_In in Hc. exact Hc. }
  exists fd. split; [exact E|]. intros x y I. apply F. apply (Permutation_in _ (Permutation_sym Hp)). apply scan_In. exact I.
Qed.
