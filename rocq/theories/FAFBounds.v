(** Exactness on integer weights with a single receiver, and the rounding error bound in general. *)
From Coq Require Import ZArith List Lia Bool Reals Lra Relations Permutation.
From Flocq Require Import Core BinarySingleNaN.
From Verif Require Import Base RasterSpec RasterFacts FlowSpec FlowProofs Kahn FAFModel FAFSpec FAFNum FAFMain.
Open Scope R_scope.

Lemma bpow_frac e f : (e <= f)%Z -> bpow radix2 e <= bpow radix2 f. Proof. apply bpow_le. Qed.

(** ** one cell: the error of adding its donors in turn *)
Lemma cell_error (l : list ((Z * Z) * nat)) (q : (Z * Z) * nat -> float32) (A : Z * Z -> float64) (X : Z * Z -> R) (K : nat) :
  (forall e, In e l -> is_finite (q e) = true /\ 0 < B2R (q e) /\ is_finite (A (fst e)) = true /\ 0 <= X (fst e) /\
     near K (X (fst e)) (B2R (A (fst e))) /\ (X (fst e) = 0 \/ bpow radix2 (-800) <= X (fst e))) ->
  forall k a x, (K + 1 <= k)%nat -> INR (k + length l) * u <= /2 -> is_finite a = true -> 0 <= x -> near k x (B2R a) ->
  x + rsum (map (fun e => B2R (q e) * X (fst e)) l) <= bpow radix2 900 ->
  let r := fold_left (fun a e => accf a (q e) (A (fst e))) l a in
  is_finite r = true /\ near (k + length l) (x + rsum (map (fun e => B2R (q e) * X (fst e)) l)) (B2R r).
Proof.
  induction l as [|e l IH]; intros He k a x Hk Hu Fa Hx Na Ht; cbv zeta; cbn [fold_left map length].
  - rewrite Nat.add_0_r. unfold rsum. cbn. rewrite Rplus_0_r. auto.
  - destruct (He e (or_introl eq_refl)) as [Fq [Pq [FA [HX [NX RX]]]]].
    set (t := B2R (q e) * X (fst e)) in *.
    assert (Ht0 : 0 <= t) by (apply Rmult_le_pos; lra).
    assert (Hs : 0 <= rsum (map (fun e => B2R (q e) * X (fst e)) l)).
    { apply rsum_nonneg. intros y Hy. apply in_map_iff in Hy. destruct Hy as [e' [<- Hi]].
      destruct (He e' (or_intror Hi)) as [_ [P' [_ [X' _]]]]. apply Rmult_le_pos; lra. }
    cbn [map] in Ht. unfold rsum in Ht at 1. cbn [fold_right] in Ht. fold (rsum (map (fun e => B2R (q e) * X (fst e)) l)) in Ht. fold t in Ht.
    pose proof u_pos as U0.
    assert (HuK : forall j, (j <= k + length (e :: l))%nat -> INR j * u <= /2).
    { intros j Hj. eapply Rle_trans; [|exact Hu]. apply Rmult_le_compat_r; [lra|]. apply le_INR. exact Hj. }
    cbn [length] in HuK.
    destruct (f64_of_f32_ok (q e) Fq) as [Eq Fq'].
    (* the product *)
    assert (Np : near K t (B2R (q e) * B2R (A (fst e)))) by (apply near_scale; [lra|auto]).
    assert (Bp : B2R (f64_of_f32 (q e)) * B2R (A (fst e)) = 0 \/
       bpow radix2 (-1000) <= Rabs (B2R (f64_of_f32 (q e)) * B2R (A (fst e))) <= bpow radix2 1000).
    { rewrite Eq. destruct RX as [Z|LX].
      - left. assert (t = 0) by (unfold t; rewrite Z; ring). apply (near_zero K). congruence.
      - right. pose proof (near_double K _ _ (HuK K ltac:(lia)) Ht0 Np) as [L U]. rewrite Rabs_pos_eq by lra. split.
        + assert (bpow radix2 (-149) * bpow radix2 (-800) <= t).
          { apply Rmult_le_compat; auto using bpow_ge_0. apply f32_min; auto. }
          rewrite <- bpow_plus in H. apply Rle_trans with (/2 * bpow radix2 (-149 + -800)); [|lra].
          change (/2) with (bpow radix2 (-1)). rewrite <- bpow_plus. apply bpow_le. lia.
        + assert (t <= bpow radix2 900) by lra. apply Rle_trans with (2 * bpow radix2 900); [lra|].
          change 2 with (bpow radix2 1). rewrite <- bpow_plus. apply bpow_le. lia. }
    destruct (mult_err (f64_of_f32 (q e)) (A (fst e)) Fq' FA Bp) as [d [Hd [Em Fm]]]. rewrite Eq in Em.
    assert (Nm : near k t (B2R (Bmult mode_NE (f64_of_f32 (q e)) (A (fst e))))).
    { rewrite Em. apply (near_le (S K)); [lia|auto|]. apply near_round; auto. }
    (* the sum *)
    pose proof (near_plus k _ _ _ _ Na Nm) as Ns.
    assert (Hxt : 0 <= x + t) by lra.
    assert (Bs : Rabs (B2R a + B2R (Bmult mode_NE (f64_of_f32 (q e)) (A (fst e)))) <= bpow radix2 1000).
    { pose proof (near_double k _ _ (HuK k ltac:(lia)) Hxt Ns) as [L U]. rewrite Rabs_pos_eq by lra.
      apply Rle_trans with (2 * bpow radix2 900); [lra|]. change 2 with (bpow radix2 1). rewrite <- bpow_plus. apply bpow_le. lia. }
    destruct (plus_err a _ Fa Fm Bs) as [d' [Hd' [Es Fs]]].
    assert (Na' : near (S k) (x + t) (B2R (accf a (q e) (A (fst e))))).
    { unfold accf. rewrite Es. apply near_round; auto. }
    destruct (IH (fun e' H => He e' (or_intror H)) (S k) (accf a (q e) (A (fst e))) (x + t)) as [F' N']; auto.
    + replace (S k + length l)%nat with (k + length (e :: l))%nat by (cbn [length]; lia). exact Hu.
    + lra.
    + split; [exact F'|]. replace (k + S (length l))%nat with (S k + length l)%nat by lia.
      replace (x + rsum (t :: map (fun e => B2R (q e) * X (fst e)) l)) with (x + t + rsum (map (fun e => B2R (q e) * X (fst e)) l)); [exact N'|].
      unfold rsum. cbn [fold_right]. ring.
Qed.

(** ** one cell: integers below 2^53 are added exactly *)
Definition zs (l : list Z) : Z := fold_right Z.add 0%Z l.
Lemma zs_nonneg l : (forall x, In x l -> (0 <= x)%Z) -> (0 <= zs l)%Z.
Proof. induction l as [|a l IH]; intros H; [cbn; lia|]. cbn [zs fold_right]. assert (0 <= a)%Z by (apply H; left; auto). fold (zs l). specialize (IH (fun x Hx => H x (or_intror Hx))). lia. Qed.
Lemma zs_app l l' : zs (l ++ l') = (zs l + zs l')%Z.
Proof. induction l as [|a l IH]; [reflexivity|]. cbn [zs app fold_right]. unfold zs in *. lia. Qed.

Lemma cell_exact (l : list ((Z * Z) * nat)) (q : (Z * Z) * nat -> float32) (A : Z * Z -> float64) (X : Z * Z -> Z) :
  (forall e, In e l -> is_finite (q e) = true /\ B2R (q e) = 1 /\ is_finite (A (fst e)) = true /\ B2R (A (fst e)) = IZR (X (fst e)) /\ (0 <= X (fst e))%Z) ->
  forall a x, is_finite a = true -> B2R a = IZR x -> (0 <= x)%Z -> (x + zs (map (fun e => X (fst e)) l) < 2 ^ 53)%Z ->
  let r := fold_left (fun a e => accf a (q e) (A (fst e))) l a in
  is_finite r = true /\ B2R r = IZR (x + zs (map (fun e => X (fst e)) l)).
Proof.
  induction l as [|e l IH]; intros He a x Fa Ea Hx Ht; cbv zeta; cbn [fold_left map].
  - cbn [zs fold_right]. rewrite Z.add_0_r. auto.
  - destruct (He e (or_introl eq_refl)) as [Fq [E1 [FA [EA HX]]]].
    assert (Hs : (0 <= zs (map (fun e => X (fst e)) l))%Z).
    { apply zs_nonneg. intros y Hy. apply in_map_iff in Hy. destruct Hy as [e' [<- Hi]]. apply (He e' (or_intror Hi)). }
    cbn [map zs fold_right] in *. fold (zs (map (fun e => X (fst e)) l)) in *. change (2 ^ 53)%Z with 9007199254740992%Z in *.
    assert (L1024 : forall n, (0 <= n < 9007199254740992)%Z -> Rabs (IZR n) < bpow radix2 1024).
    { intros n Hn. rewrite Rabs_pos_eq by (apply IZR_le; lia). apply Rlt_le_trans with (bpow radix2 53); [|apply bpow_le; lia].
      change (bpow radix2 53) with (IZR 9007199254740992). apply IZR_lt. lia. }
    destruct (f64_of_f32_ok (q e) Fq) as [Eq Fq'].
    destruct (mult_exact (f64_of_f32 (q e)) (A (fst e)) Fq' FA) as [Em Fm].
    { rewrite Eq, E1, EA, Rmult_1_l. apply int_format. change (2 ^ 53)%Z with 9007199254740992%Z. lia. }
    { rewrite Eq, E1, EA, Rmult_1_l. apply L1024. lia. }
    rewrite Eq, E1, EA, Rmult_1_l in Em.
    destruct (plus_exact a _ Fa Fm) as [Es Fs].
    { rewrite Em, Ea, <- plus_IZR. apply int_format. change (2 ^ 53)%Z with 9007199254740992%Z. lia. }
    { rewrite Em, Ea, <- plus_IZR. apply L1024. lia. }
    rewrite Em, Ea, <- plus_IZR in Es.
    destruct (IH (fun e' H => He e' (or_intror H)) (accf a (q e) (A (fst e))) (x + X (fst e))%Z) as [F' E']; auto; [lia| |].
    + change (2 ^ 53)%Z with 9007199254740992%Z. lia.
    + split; [exact F'|]. rewrite E'. f_equal. lia.
Qed.

Section B.
  Variables (w h : Z) (p : Z -> nat -> float32).
  Hypothesis Hw : (0 <= w)%Z.
  Hypothesis Hh : (0 <= h)%Z.
  Hypothesis HF : finite_props w h p.

  Notation st := (settled w h p).
  Notation turn := (rounded_in_turn w h p f64_of_f32 (Bmult mode_NE) (Bplus mode_NE)).

  (** [lev] increases along the flow *)
  Definition levelled (lev : Z * Z -> nat) : Prop := forall c d, ffeeds w h p c d -> st d -> (lev c < lev d)%nat.

  Lemma error_bound gen A genx X lev :
    levelled lev ->
    (forall c, st c -> is_finite (gen c) = true /\ B2R (gen c) = genx c /\ 0 <= genx c) ->
    (forall c, st c -> turn gen A c) ->
    (forall c, st c -> fbalanced w h p genx X c) ->
    (forall c, st c -> (X c = 0 \/ bpow radix2 (-800) <= X c) /\ X c <= bpow radix2 900 /\ (Z.of_nat (lev c) <= 2 ^ 48)%Z) ->
    forall c, st c -> is_finite (A c) = true /\ 0 <= X c /\ near (9 * lev c) (X c) (B2R (A c)).
  Proof.
    intros HL Hg HA HX HB.
    assert (G : forall n c, (lev c < n)%nat -> st c -> is_finite (A c) = true /\ 0 <= X c /\ near (9 * lev c) (X c) (B2R (A c))).
    2:{ intros c. apply (G (S (lev c))). lia. }
    induction n as [|n IH]; intros c Hn Hc; [lia|].
    destruct (HA c Hc) as [l [Dl EA]]. destruct (HX c Hc) as [l' [Dl' EX]]. destruct (Hg c Hc) as [Fg [Eg Pg]].
    assert (P : Permutation l' l).
    { destruct Dl as [N1 I1], Dl' as [N2 I2]. apply NoDup_Permutation; auto. intros [d k]. rewrite I1, I2. reflexivity. }
    assert (ES : X c = genx c + rsum (map (fun e => B2R (p (ix_of w (fst e)) (snd e)) * X (fst e)) l)).
    { rewrite EX. f_equal. apply rsum_perm. apply Permutation_map. exact P. }
    assert (Hd : forall e, In e l -> ffeeds w h p (fst e) c /\ fsends w h p (fst e) (snd e) c).
    { intros [d k] Hi. apply Dl in Hi. split; [exists k; auto|auto]. }
    set (K := (9 * (lev c - 1))%nat).
    assert (He : forall e, In e l -> is_finite (p (ix_of w (fst e)) (snd e)) = true /\ 0 < B2R (p (ix_of w (fst e)) (snd e)) /\ is_finite (A (fst e)) = true /\ 0 <= X (fst e) /\
       near K (X (fst e)) (B2R (A (fst e))) /\ (X (fst e) = 0 \/ bpow radix2 (-800) <= X (fst e))).
    { intros e Hi. destruct (Hd e Hi) as [F S]. pose proof (HL _ _ F Hc) as Hl. pose proof (settled_up w h p _ _ F Hc) as Hse.
      destruct (IH (fst e)) as [I1 [I2 I3]]; [lia|auto|]. destruct S as [[Hr _] [_ [Hk [_ Hp]]]].
      split; [apply fin_at with (h := h); auto; lia|]. split; [exact Hp|]. split; [auto|]. split; [auto|]. split; [|apply HB; auto].
      apply (near_le (9 * lev (fst e))); [unfold K; lia|auto|auto]. }
    pose proof (donors_le8 w h p c l Dl) as L8.
    destruct l as [|e0 l0] eqn:El.
    - cbn [fold_left] in EA. rewrite EA. cbn [map rsum fold_right] in ES. split; [auto|]. unfold rsum in ES. cbn in ES. rewrite Rplus_0_r in ES. split; [lra|].
      apply (near_le 0); [lia|lra|]. rewrite Eg, ES. apply near_0.
    - rewrite <- El in *. assert (Hl1 : (1 <= lev c)%nat) by (assert (Hi : In e0 l) by (rewrite El; left; auto); pose proof (HL _ _ (proj1 (Hd e0 Hi)) Hc); lia).
      assert (Hsum : 0 <= rsum (map (fun e => B2R (p (ix_of w (fst e)) (snd e)) * X (fst e)) l)).
      { apply rsum_nonneg. intros y Hy. apply in_map_iff in Hy. destruct Hy as [e' [<- Hi]].
        destruct (He e' Hi) as [_ [P' [_ [X' _]]]]. apply Rmult_le_pos; lra. }
      destruct (HB c Hc) as [_ [HB1 HB2]].
      destruct (cell_error l (fun e => p (ix_of w (fst e)) (snd e)) A X K He (K + 1)%nat (gen c) (genx c)) as [F' N']; auto.
      + apply Rle_trans with (bpow radix2 52 * u).
        * apply Rmult_le_compat_r; [apply Rlt_le, u_pos|]. rewrite INR_IZR_INZ. change (bpow radix2 52) with (IZR 4503599627370496). apply IZR_le.
          change (2 ^ 48)%Z with 281474976710656%Z in HB2. unfold K. lia.
        * unfold u. rewrite <- bpow_plus. change (/2) with (bpow radix2 (-1)). apply bpow_le. lia.
      + rewrite Eg. apply (near_le 0); [lia|auto|apply near_0].
      + rewrite <- ES. auto.
      + rewrite <- ES in N'. unfold accf in F', N'. rewrite EA. split; [exact F'|]. split; [lra|].
        apply (near_le (K + 1 + length l)); [unfold K; lia|lra|exact N'].
  Qed.

  (** ** counting *)
  Hypothesis HS : single_receiver w h p.
  Lemma feeds_fun c d d' : ffeeds w h p c d -> ffeeds w h p c d' -> d = d'.
  Proof.
    intros [n [D [_ [Hn [T P]]]]] [n' [_ [_ [Hn' [T' P']]]]]. destruct (HS c n D Hn P) as [_ U]. specialize (U n' Hn' P'). subst n'.
    apply toward_iff in T. apply toward_iff in T'. destruct d, d'. cbn [fst snd] in *. destruct T as [_ [? ?]], T' as [_ [? ?]]. f_equal; lia.
  Qed.
  Notation path := (clos_refl_trans _ (ffeeds w h p)).
  Lemma path_first a b : path a b -> a = b \/ exists d, ffeeds w h p a d /\ path d b.
  Proof. intros H. apply clos_rt_rt1n in H. inversion H as [|d z F R]; subst; [auto|]. right. exists d. split; [auto|]. apply clos_rt1n_rt. auto. Qed.
  Lemma path_linear v a : path v a -> forall b, path v b -> path a b \/ path b a.
  Proof.
    intros H. apply clos_rt_rt1n in H. induction H as [v|v d a F R IH]; intros b Hb; [auto|].
    destruct (path_first v b Hb) as [<-|[d' [F' R']]].
    - right. eapply rt_trans; [apply rt_step; exact F|]. apply clos_rt1n_rt. auto.
    - rewrite (feeds_fun v d d' F F') in IH. auto.
  Qed.

  Variables (gen A : Z * Z -> float64) (g : Z * Z -> Z) (rank : Z * Z -> nat).
  Hypothesis Hrank : levelled rank.
  Hypothesis Hg : forall c, st c -> is_finite (gen c) = true /\ B2R (gen c) = IZR (g c) /\ (0 <= g c)%Z.
  Hypothesis HA : forall c, st c -> turn gen A c.

  Lemma path_settled a b : path a b -> st b -> st a.
  Proof. induction 1 as [a b F|a|a b c H1 IH1 H2 IH2]; auto. apply settled_up; auto. Qed.
  Lemma no_back a b : ffeeds w h p a b -> st b -> ~ path b a.
  Proof. intros F S R. apply S. exists a. split; [|apply rt_step; auto]. apply clos_rt_rt1n in R.
    assert (G : forall x y, clos_refl_trans_1n _ (ffeeds w h p) x y -> forall z, ffeeds w h p z x -> clos_trans _ (ffeeds w h p) z y).
    { induction 1 as [x|x y' z' Q R' IH]; intros z Hz; [apply t_step; auto|]. eapply t_trans; [apply t_step; exact Hz|]. apply IH; auto. }
    eapply G; eauto. Qed.

  Lemma exact_count : forall c, st c -> exists U, upstream w h p c U /\
    ((zs (map g U) < 2 ^ 53)%Z -> is_finite (A c) = true /\ B2R (A c) = IZR (zs (map g U))).
  Proof.
    assert (G : forall n c, (rank c < n)%nat -> st c -> exists U, upstream w h p c U /\
      ((zs (map g U) < 2 ^ 53)%Z -> is_finite (A c) = true /\ B2R (A c) = IZR (zs (map g U)))).
    2:{ intros c. apply (G (S (rank c))). lia. }
    induction n as [|n IH]; intros c Hn Hc; [lia|].
    destruct (HA c Hc) as [l [Dl EA]]. destruct (Hg c Hc) as [Fg [Eg Pg]].
    assert (Hd : forall e, In e l -> ffeeds w h p (fst e) c /\ fsends w h p (fst e) (snd e) c).
    { intros [d k] Hi. apply Dl in Hi. split; [exists k; auto|auto]. }
    (* upstream sets of the donors *)
    assert (HU : exists Us : Z * Z -> list (Z * Z), forall e, In e l -> upstream w h p (fst e) (Us (fst e)) /\
       ((zs (map g (Us (fst e))) < 2 ^ 53)%Z -> is_finite (A (fst e)) = true /\ B2R (A (fst e)) = IZR (zs (map g (Us (fst e)))))).
    { assert (H : forall e, In e l -> exists U, upstream w h p (fst e) U /\ ((zs (map g U) < 2 ^ 53)%Z -> is_finite (A (fst e)) = true /\ B2R (A (fst e)) = IZR (zs (map g U)))).
      { intros e Hi. destruct (Hd e Hi) as [F _]. apply IH; [pose proof (Hrank _ _ F Hc); lia|]. eapply settled_up; eauto. }
      clear - H. assert (EQ : forall a b : Z * Z, {a = b} + {a <> b}) by (intros; decide equality; apply Z.eq_dec).
      induction l as [|e l IH]; [exists (fun _ => []); intros e []|].
      destruct IH as [Us HUs]; [intros e' Hi; apply H; right; auto|]. destruct (H e (or_introl eq_refl)) as [U HU].
      exists (fun x => if EQ x (fst e) then U else Us x). intros e' [<-|Hi].
      - destruct (EQ (fst e) (fst e)); [auto|congruence].
      - destruct (EQ (fst e') (fst e)) as [E|_]; [rewrite E; auto|auto]. }
    destruct HU as [Us HUs].
    set (U := c :: flat_map (fun e => Us (fst e)) l).
    assert (Nl : NoDup l) by apply Dl.
    assert (HUp : upstream w h p c U).
    { split.
      - unfold U. constructor.
        + rewrite in_flat_map. intros [e [Hi Hv]]. apply (HUs e Hi) in Hv. destruct (Hd e Hi) as [F _]. exact (no_back _ _ F Hc (proj2 Hv)).
        + apply flat_map_NoDup; [auto|intros e Hi; apply (HUs e Hi)|].
          intros e e' v Hi Hi' Hv Hv'. apply (HUs e Hi) in Hv. apply (HUs e' Hi') in Hv'.
          destruct (Hd e Hi) as [F S]. destruct (Hd e' Hi') as [F' S'].
          assert (Hlin : forall a b, ffeeds w h p a c -> ffeeds w h p b c -> path a b -> a = b).
          { intros a b Fa Fb R. destruct (path_first a b R) as [|[x [Fx Rx]]]; [auto|exfalso]. rewrite <- (feeds_fun _ _ _ Fa Fx) in Rx. exact (no_back _ _ Fb Hc Rx). }
          assert (Ef : fst e = fst e').
          { destruct (path_linear v _ (proj2 Hv) _ (proj2 Hv')) as [R|R]; [apply Hlin; auto|symmetry; apply Hlin; auto]. }
          destruct e as [d k], e' as [d' k']. cbn [fst snd] in *. subst d'. f_equal.
          destruct S as [D [_ [Hk [_ P]]]], S' as [_ [_ [Hk' [_ P']]]]. destruct (HS d k' D Hk' P') as [_ Q]. apply (Q k Hk P).
      - intros v. unfold U. cbn [In]. rewrite in_flat_map. split.
        + intros [<-|[e [Hi Hv]]]; [split; [apply Hc|apply rt_refl]|]. apply (HUs e Hi) in Hv. split; [apply Hv|].
          eapply rt_trans; [apply Hv|]. apply rt_step. apply Hd; auto.
        + intros [D R]. apply clos_rt_rtn1 in R. inversion R as [|y z F R']; subst; [auto|right].
          destruct F as [k F]. exists (y, k). assert (Hi : In (y, k) l) by (apply Dl; auto). split; [auto|].
          apply (HUs (y, k) Hi). split; [auto|]. apply clos_rtn1_rt. auto. }
    exists U. split; [exact HUp|]. intros Ht.
    assert (Hnn : forall v, In v U -> (0 <= g v)%Z).
    { intros v Hv. apply HUp in Hv. apply Hg. eapply path_settled; [apply Hv|auto]. }
    assert (EU : zs (map g U) = (g c + zs (map (fun e => zs (map g (Us (fst e)))) l))%Z).
    { unfold U. cbn [map zs fold_right]. fold (zs (map g (flat_map (fun e => Us (fst e)) l))). f_equal. clear. induction l as [|e l IH]; [reflexivity|].
      cbn [flat_map map]. rewrite map_app, zs_app, IH. reflexivity. }
    rewrite EU in Ht.
    assert (Hz : forall e, In e l -> (0 <= zs (map g (Us (fst e))))%Z).
    { intros e Hi. apply zs_nonneg. intros y Hy. apply in_map_iff in Hy. destruct Hy as [v [<- Hv]]. apply Hnn. unfold U. right. apply in_flat_map. exists e. auto. }
    assert (Hle : forall e, In e l -> (zs (map g (Us (fst e))) <= zs (map (fun e => zs (map g (Us (fst e)))) l))%Z).
    { clear - Hz. induction l as [|a l IH]; intros e []; cbn [map zs fold_right]; fold (zs (map (fun e => zs (map g (Us (fst e)))) l)).
      - subst. assert (0 <= zs (map (fun e => zs (map g (Us (fst e)))) l))%Z; [|lia]. apply zs_nonneg. intros y Hy. apply in_map_iff in Hy. destruct Hy as [e' [<- Hi]]. apply Hz. right; auto.
      - specialize (IH (fun e H => Hz e (or_intror H)) e H). specialize (Hz a (or_introl eq_refl)). lia. }
    destruct (cell_exact l (fun e => p (ix_of w (fst e)) (snd e)) A (fun d => zs (map g (Us d)))) with (a := gen c) (x := g c) as [F' E']; auto.
    - intros e Hi. destruct (Hd e Hi) as [_ [D [_ [Hk [_ P]]]]]. split; [apply fin_at with (h := h); auto; [apply D|lia]|].
      split; [exact (proj1 (HS _ _ D Hk P))|]. destruct (HUs e Hi) as [_ Q]. destruct Q as [Q1 Q2]; [specialize (Hle e Hi); lia|]. auto.
    - unfold accf in F', E'. rewrite EA, EU. auto.
  Qed.
End B.
