(** D-infinity directions on the flat mask. *)
From Coq Require Import ZArith Reals List Bool Permutation Lra Lia Psatz.
From Verif Require Import Base Res BFS RasterSpec RasterFacts FlowModel FlowSpec FlowProofs FlatsModel FlatsSpec FlatsProofs FlatsProofs2 FlatsProofs3
  TAModel TAProofs DinfModel DinfSpec DinfProofs DinfProofs2 DinfProofs3 DinfFlatsModel DinfFlatsSpec.
Import ListNotations.
Open Scope R_scope.

Lemma firstM_find {I A} (is : list I) (p : I -> res (option A)) (f : I -> option A) :
  (forall i, In i is -> p i = Ok (f i)) ->
  (exists i a, In i is /\ f i = Some a /\ firstM is p = Ok (Some a)) \/
  ((forall i, In i is -> f i = None) /\ firstM is p = Ok None).
Proof.
  induction is as [|i is IH]; intros H; [right; split; [intros _ []|reflexivity]|].
  cbn [firstM]. rewrite (H i (or_introl eq_refl)). cbn [bind]. destruct (f i) as [a|] eqn:F.
  - left. exists i, a. split; [left; reflexivity|]. auto.
  - destruct IH as [[j [a [J [Fj E]]]]|[N E]]; [intros j J; apply H; right; exact J| |].
    + left. exists j, a. split; [right; exact J|]. auto.
    + right. split; [|exact E]. intros j [<-|J]; auto.
Qed.

(** direction of a D8 neighbour *)
Definition code (n : nat) : Z := nth n [-1; 4; 3; 2; 1; 0; 7; 6; 5]%Z 0%Z.
Lemma code_ok n : (1 <= n <= 8)%nat -> rd d8_to_dinf (Z.of_nat n) = Ok (IZR (code n) * PI / 4) /\
  (0 <= code n < 8)%Z /\ compass (code n) = (dx D8 n, dy D8 n).
Proof.
  intros H. assert (C : In n [1;2;3;4;5;6;7;8]%nat) by (cbn; lia). clear H.
  cbn in C. repeat (destruct C as [<-|C]); [..|destruct C];
    (split; [|split; [vm_compute; split; congruence|reflexivity]]); try reflexivity.
  change (rd d8_to_dinf (Z.of_nat 5)) with (@Ok R 0). change (code 5) with 0%Z. f_equal. lra.
Qed.

Section cell.
  Variables (w h : Z) (mask groups : grid Z) (x y : Z).
  Hypothesis inner : forall i j, (-1 <= i <= 1)%Z -> (-1 <= j <= 1)%Z -> in_raster w h (x + i) (y + j).
  Notation M := (fun a b : Z => IZR (mask a b)).
  Definition grp (o : Z * Z) : Prop := groups (x + fst o)%Z (y + snd o)%Z = groups x y.
  Definition Gd (n : Z) : Prop := grp (off1 n) /\ grp (off2 n).
  Definition gdb (n : Z) : bool :=
    ((groups (x + fst (off1 n)) (y + snd (off1 n)) =? groups x y) && (groups (x + fst (off2 n)) (y + snd (off2 n)) =? groups x y))%Z.
  Lemma gdb_iff n : gdb n = true <-> Gd n.
  Proof. unfold gdb, Gd, grp. rewrite andb_true_iff, !Z.eqb_eq. reflexivity. Qed.

  Lemma masked_pure n nm sm rm : (0 <= n < 8)%Z ->
    masked_facet_step w h mask groups x y n (nm, sm, rm) =
    Ok (if gdb n then if Rgt_dec (snd (Fc M x y n)) sm then (n, snd (Fc M x y n), fst (Fc M x y n)) else (nm, sm, rm) else (nm, sm, rm)).
  Proof.
    intros Hn. unfold masked_facet_step.
    assert (T : rd dx_e1 n = Ok (fst (off1 n)) /\ rd dy_e1 n = Ok (snd (off1 n)) /\
                rd dx_e2 n = Ok (fst (off2 n)) /\ rd dy_e2 n = Ok (snd (off2 n))).
    { each Hn; repeat split; reflexivity. }
    destruct T as [-> [-> [-> ->]]]. cbn [bind].
    assert (B : (-1 <= fst (off1 n) <= 1 /\ -1 <= snd (off1 n) <= 1 /\ -1 <= fst (off2 n) <= 1 /\ -1 <= snd (off2 n) <= 1)%Z).
    { each Hn; offs; lia. }
    destruct B as [B1 [B2 [B3 B4]]].
    assert (H0 := inner 0 0 ltac:(lia) ltac:(lia)). rewrite !Z.add_0_r in H0.
    rewrite !(gat_ok w h _ x y H0), !(gat_ok w h _ _ _ (inner _ _ B1 B2)), !(gat_ok w h _ _ _ (inner _ _ B3 B4)). cbn [bind].
    unfold gdb. destruct (groups (x + fst (off1 n)) (y + snd (off1 n)) =? groups x y)%Z; cbn [negb andb]; [|reflexivity].
    destruct (groups (x + fst (off2 n)) (y + snd (off2 n)) =? groups x y)%Z; cbn [negb]; [|reflexivity].
    unfold Fc, e1of, e2of. destruct (facet _ _ _) as [r s]. cbn [fst snd]. destruct (Rgt_dec s sm); reflexivity.
  Qed.

  Definition minv (k : nat) (st : Z * R * R) : Prop :=
    let '(nm, sm, rm) := st in
    (forall n, (0 <= n < Z.of_nat k)%Z -> Gd n -> snd (Fc M x y n) <= sm) /\
    ((nm = (-1)%Z /\ sm = 0) \/ ((0 <= nm < Z.of_nat k)%Z /\ 0 < sm /\ Gd nm /\ Fc M x y nm = (rm, sm))).
  Lemma mloop k : (k <= 8)%nat ->
    exists st, forM (zrange 0 k) (masked_facet_step w h mask groups x y) ((-1)%Z, 0, 0) = Ok st /\ minv k st.
  Proof.
    induction k as [|k IH]; intros Hk.
    - exists ((-1)%Z, 0, 0). split; [reflexivity|]. unfold minv. split; [intros; lia|]. left. split; reflexivity.
    - destruct IH as [[[nm sm] rm] [E [H1 H2]]]; [lia|].
      assert (Z : zrange 0 (S k) = zrange 0 k ++ [Z.of_nat k]).
      { replace (S k) with (k + 1)%nat by lia. rewrite zrange_app. reflexivity. }
      rewrite Z, forM_app, E. cbn [bind forM]. rewrite masked_pure by lia. cbn [bind].
      eexists. split; [reflexivity|]. destruct (gdb (Z.of_nat k)) eqn:GE.
      + apply gdb_iff in GE. destruct (Fc M x y (Z.of_nat k)) as [r s] eqn:EF. cbn [fst snd].
        destruct (Rgt_dec s sm) as [G|G]; unfold minv.
        * split.
          -- intros n Hn Gn. destruct (Z.eq_dec n (Z.of_nat k)) as [->|]; [rewrite EF; cbn [snd]; lra|]. specialize (H1 n ltac:(lia) Gn). lra.
          -- right. split; [lia|]. split; [destruct H2 as [[_ ->]|[_ [P _]]]; lra|]. auto.
        * split.
          -- intros n Hn Gn. destruct (Z.eq_dec n (Z.of_nat k)) as [->|]; [rewrite EF; cbn [snd]; lra|]. apply H1; [lia|exact Gn].
          -- destruct H2 as [H2|[A B]]; [left; exact H2|right]. split; [lia|]. exact B.
      + unfold minv. split.
        * intros n Hn Gn. destruct (Z.eq_dec n (Z.of_nat k)) as [->|]; [apply gdb_iff in Gn; congruence|]. apply H1; [lia|exact Gn].
        * destruct H2 as [H2|[A B]]; [left; exact H2|right]. split; [lia|]. exact B.
  Qed.

  (** the neighbour in compass direction [k] is in the group and has a smaller increment *)
  Definition lower (k : Z) : Prop := grp (compass k) /\ (mask (x + fst (compass k)) (y + snd (compass k)) < mask x y)%Z.

  Lemma masked_dir : exists th, dinf_masked_FlowDir w h mask groups x y = Ok th /\
    ((exists n r s, (0 <= n < 8)%Z /\ 0 < s /\ Gd n /\ Fc M x y n = (r, s) /\ th = angle n r /\
        forall m, (0 <= m < 8)%Z -> Gd m -> snd (Fc M x y m) <= s) \/
     ((forall m, (0 <= m < 8)%Z -> Gd m -> snd (Fc M x y m) <= 0) /\
      ((exists k, (0 <= k < 8)%Z /\ th = IZR k * PI / 4 /\ lower k) \/ (th = 0 /\ forall k, ~ lower k)))).
  Proof.
    unfold dinf_masked_FlowDir. destruct (mloop 8 ltac:(lia)) as [[[nm sm] rm] [E [I1 I2]]].
    change [0; 1; 2; 3; 4; 5; 6; 7]%Z with (zrange 0 8). rewrite E. cbn [bind].
    destruct I2 as [[-> ->]|[B [P [G F]]]].
    - cbn [Z.eqb negb].
      assert (I1' : forall m, (0 <= m < 8)%Z -> Gd m -> snd (Fc M x y m) <= 0) by (intros m Hm Gm; apply I1; [lia|exact Gm]).
      assert (H0 := inner 0 0 ltac:(lia) ltac:(lia)). rewrite !Z.add_0_r in H0.
      assert (DB : forall n, In n (dirs D8) -> (1 <= n <= 8)%nat /\ (-1 <= dx D8 n <= 1)%Z /\ (-1 <= dy D8 n <= 1)%Z).
      { intros n Hn. cbn in Hn. destruct Hn as [<-|[<-|[<-|[<-|[<-|[<-|[<-|[<-|[]]]]]]]]]; cbn; lia. }
      match goal with |- context [firstM (dirs D8) ?p] => destruct (firstM_find (dirs D8) p (fun n =>
        if (groups (x + dx D8 n) (y + dy D8 n) =? groups x y)%Z then
          if (mask (x + dx D8 n) (y + dy D8 n) <? mask x y)%Z then Some n else None else None)) as [[n [a [In_n [Fn En]]]]|[N En]] end.
      { intros n Hn. destruct (DB n Hn) as [_ [D1 D2]].
        rewrite !(gat_ok w h _ x y H0), !(gat_ok w h _ _ _ (inner _ _ D1 D2)). cbn [bind].
        destruct (groups (x + dx D8 n) (y + dy D8 n) =? groups x y)%Z; reflexivity. }
      + rewrite En. cbn [bind]. destruct (DB n In_n) as [Hn _].
        destruct (Z.eqb_spec (groups (x + dx D8 n)%Z (y + dy D8 n)%Z) (groups x y)) as [Q|]; [|discriminate].
        destruct (Z.ltb_spec (mask (x + dx D8 n)%Z (y + dy D8 n)%Z) (mask x y)) as [L|]; [|discriminate].
        injection Fn as <-. destruct (code_ok n Hn) as [-> [C1 C2]].
        exists (IZR (code n) * PI / 4). split; [reflexivity|]. right. split; [exact I1'|]. left. exists (code n). split; [exact C1|].
        split; [reflexivity|]. unfold lower, grp. rewrite C2. cbn [fst snd]. split; assumption.
      + rewrite En. cbn [bind]. exists 0. split; [reflexivity|]. right. split; [exact I1'|]. right. split; [reflexivity|].
        intros k [K1 K2].
        assert (X : exists n, In n (dirs D8) /\ compass k = (dx D8 n, dy D8 n)).
        { unfold compass. assert (R := Z.mod_pos_bound k 8 ltac:(lia)). revert R. generalize (k mod 8)%Z. intros j R.
          assert (J : (j = 0 \/ j = 1 \/ j = 2 \/ j = 3 \/ j = 4 \/ j = 5 \/ j = 6 \/ j = 7)%Z) by lia.
          destruct J as [->|[->|[->|[->|[->|[->|[->| ->]]]]]]];
            [exists 5%nat|exists 4%nat|exists 3%nat|exists 2%nat|exists 1%nat|exists 8%nat|exists 7%nat|exists 6%nat]; (split; [cbn; tauto|reflexivity]). }
        destruct X as [n [In_n Ec]]. specialize (N n In_n). unfold grp in K1. rewrite Ec in K1, K2. cbn [fst snd] in K1, K2.
        rewrite K1, Z.eqb_refl in N. destruct (Z.ltb_spec (mask (x + dx D8 n)%Z (y + dy D8 n)%Z) (mask x y)); [discriminate|lia].
    - destruct (Z.eqb_spec nm (-1)) as [->|_]; [lia|]. cbn [negb].
      assert (T : rd af nm = Ok (afn nm) /\ rd ac nm = Ok (acn nm)).
      { assert (B' : (0 <= nm < 8)%Z) by lia. clear - B'. each B'; split; reflexivity. }
      destruct T as [-> ->]. cbn [bind]. eexists. split; [reflexivity|]. left. exists nm, rm, sm.
      split; [lia|]. split; [exact P|]. split; [exact G|]. split; [exact F|]. split; [reflexivity|].
      intros m Hm. apply I1. lia.
  Qed.

  (** what receives water is in the group and has a smaller increment *)
  Lemma masked_share th k s : dinf_masked_FlowDir w h mask groups x y = Ok th -> (exists k, lower k) ->
    share th k s -> lower k.
  Proof.
    intros E [k0 L0] Hs. destruct masked_dir as [th' [E' H]]. rewrite E in E'. injection E' as <-.
    destruct H as [[n [r [s0 [Hn [S0 [[G1 G2] [F [-> _]]]]]]]]|[_ [[k' [K [-> L]]]|[_ N]]]].
    - destruct (facet_ok _ _ _ _ _ F) as [Hr _]. destruct (facet_down _ _ _ _ _ F S0) as [D1 D2].
      unfold lower. destruct (share_facet n r k s Hn Hr Hs) as [[-> L]|[-> L]];
        [split; [exact G1|apply lt_IZR; exact (D1 L)]|split; [exact G2|apply lt_IZR; exact (D2 L)]].
    - apply share_int in Hs. destruct Hs as [-> _]. exact L.
    - exfalso. exact (N k0 L0).
  Qed.
  Lemma masked_none th : dinf_masked_FlowDir w h mask groups x y = Ok th -> (forall k, ~ lower k) -> th = 0.
  Proof.
    intros E N. destruct masked_dir as [th' [E' H]]. rewrite E in E'. injection E' as <-.
    destruct H as [[n [r [s0 [Hn [S0 [[G1 G2] [F [-> _]]]]]]]]|[_ [[k' [K [-> L]]]|[-> _]]]]; [|exfalso; exact (N _ L)|reflexivity].
    exfalso. destruct (facet_down _ _ _ _ _ F S0) as [D1 D2].
    assert (C : exists k, compass k = off1 n) by (clear - Hn; each Hn; offs; [exists 0%Z|exists 2%Z|exists 2%Z|exists 4%Z|exists 4%Z|exists 6%Z|exists 6%Z|exists 0%Z]; reflexivity).
    assert (C' : exists k, compass k = off2 n) by (clear - Hn; each Hn; offs; [exists 1%Z|exists 1%Z|exists 3%Z|exists 3%Z|exists 5%Z|exists 5%Z|exists 7%Z|exists 7%Z]; reflexivity).
    destruct C as [k Ek], C' as [k' Ek']. assert (P := PI_RGT_0).
    destruct (Rlt_le_dec r (PI / 4)) as [L|L].
    - apply (N k). unfold lower. rewrite Ek. split; [exact G1|apply lt_IZR; exact (D1 L)].
    - apply (N k'). unfold lower. rewrite Ek'. split; [exact G2|apply lt_IZR; apply D2; lra].
  Qed.
  Lemma masked_range th : dinf_masked_FlowDir w h mask groups x y = Ok th -> 0 <= th <= 2 * PI.
  Proof.
    intros E. destruct masked_dir as [th' [E' H]]. rewrite E in E'. injection E' as <-. assert (P := PI_RGT_0).
    destruct H as [[n [r [s0 [Hn [S0 [G [F [-> _]]]]]]]]|[_ [[k' [K [-> L]]]|[-> _]]]]; [| |lra].
    - destruct (facet_ok _ _ _ _ _ F) as [Hr _]. unfold angle. clear - Hn Hr P. each Hn; offa; lra.
    - assert (K0 : 0 <= IZR k') by (apply IZR_le; lia). assert (K8 : IZR k' <= 8) by (apply IZR_le; lia). nra.
  Qed.
  Lemma masked_steep th : dinf_masked_FlowDir w h mask groups x y = Ok th ->
    let P := fun q : Z * Z => groups (fst q) (snd q) = groups x y in
    (exists s, 0 < s /\ steepest_within P M (x, y) th s) \/
    (no_descent_within P M (x, y) /\ ((exists k, (0 <= k < 8)%Z /\ th = IZR k * PI / 4 /\ lower k) \/ (th = 0 /\ forall k, ~ lower k))).
  Proof.
    intros E P. destruct masked_dir as [th' [E' H]]. rewrite E in E'. injection E' as <-.
    destruct H as [[n [r [s [Hn [Hs [Gn [F [-> HM]]]]]]]]|[N H]]; [left|right].
    - exists s. split; [exact Hs|]. destruct (facet_ok _ _ _ _ _ F) as [Hr [Es Hmax]]. destruct (pi4_trig r Hr) as [T1 T2].
      split; cbn [fst snd].
      + exists (off1 n), (off2 n), (cos r - sin r), (sin r). split; [split; [apply triangle_of; exact Hn|exact Gn]|].
        split; [exact T2|]. split; [exact T1|]. rewrite (dist_one n r Hn). split; [lra|].
        split.
        * unfold heading. rewrite (dist_one n r Hn). destruct (angle_trig n r Hn) as [A B]. split; lra.
        * rewrite drop_eq. rewrite Es. ring.
      + intros p q u v [T Gq] Hu Hv. destruct (triangle_facet p q T) as [m [Hm [-> ->]]].
        assert (D := drop_le M x y m u v Hm Hu Hv). eapply Rle_trans; [exact D|].
        apply Rmult_le_compat_r; [unfold dist; apply sqrt_pos|]. apply Rmax_lub; [apply HM; [exact Hm|exact Gq]|lra].
    - split; [|exact H]. intros p q u v [T Gq] Hu Hv. destruct (triangle_facet p q T) as [m [Hm [-> ->]]].
      assert (D := drop_le M x y m u v Hm Hu Hv). rewrite Rmax_right in D by (apply N; [exact Hm|exact Gq]). cbn [fst snd]. lra.
  Qed.
End cell.
