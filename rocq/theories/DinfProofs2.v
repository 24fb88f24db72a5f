(** D-infinity flow directions: the steepest descent. *)
From Coq Require Import ZArith Reals List Bool Permutation Lra Lia Psatz.
From Verif Require Import Base Res RasterSpec RasterFacts FlowModel FlowSpec FlowProofs TAModel TAProofs DinfModel DinfSpec DinfProofs.
Import ListNotations.
Open Scope R_scope.

Definition afn (n : Z) : R := nth (Z.to_nat n) af 0.
Definition acn (n : Z) : R := nth (Z.to_nat n) ac 0.
Definition angle (n : Z) (r : R) : R := afn n * r + acn n * PI / 2.
Ltac offa := repeat match goal with
  | |- context [afn ?k] => let v := eval vm_compute in (Z.to_nat k) in change (afn k) with (nth v af 0)
  | |- context [acn ?k] => let v := eval vm_compute in (Z.to_nat k) in change (acn k) with (nth v ac 0)
  end; cbn [nth af ac].

Ltac nats := repeat match goal with
  | |- context [Z.to_nat ?k] => let v := eval vm_compute in (Z.to_nat k) in change (Z.to_nat k) with v
  end; cbv iota; cbn [nth].
Lemma trig_even r (k : Z) : cos (IZR k * PI / 2 + r) = cos (IZR k * PI / 2) * cos r - sin (IZR k * PI / 2) * sin r.
Proof. apply cos_plus. Qed.
Lemma quarter k : In k [0; 1; 2; 3; 4]%Z ->
  cos (IZR k * PI / 2) = IZR (nth (Z.to_nat k) [1; 0; -1; 0; 1] 0)%Z /\ sin (IZR k * PI / 2) = IZR (nth (Z.to_nat k) [0; 1; 0; -1; 0] 0)%Z.
Proof.
  intros H. cbn in H. destruct H as [<-|[<-|[<-|[<-|[<-|[]]]]]]; nats.
  - replace (0 * PI / 2) with 0 by field. rewrite cos_0, sin_0. split; reflexivity.
  - replace (1 * PI / 2) with (PI / 2) by field. rewrite cos_PI2, sin_PI2. split; reflexivity.
  - replace (2 * PI / 2) with PI by field. rewrite cos_PI, sin_PI. split; reflexivity.
  - replace (3 * PI / 2) with (3 * (PI / 2)) by field. rewrite cos_3PI2, sin_3PI2. split; reflexivity.
  - replace (4 * PI / 2) with (2 * PI) by field. rewrite cos_2PI, sin_2PI. split; reflexivity.
Qed.
Lemma angle_trig n r : (0 <= n < 8)%Z ->
  cos (angle n r) = (cos r - sin r) * IZR (fst (off1 n)) + sin r * IZR (fst (off2 n)) /\
  - sin (angle n r) = (cos r - sin r) * IZR (snd (off1 n)) + sin r * IZR (snd (off2 n)).
Proof.
  intros H. unfold angle. 
  assert (G : exists k, In k [0; 1; 2; 3; 4]%Z /\ acn n = IZR k /\
     ((afn n = 1 /\ 
       (cos r * IZR (nth (Z.to_nat k) [1; 0; -1; 0; 1] 0)%Z - sin r * IZR (nth (Z.to_nat k) [0; 1; 0; -1; 0] 0)%Z = (cos r - sin r) * IZR (fst (off1 n)) + sin r * IZR (fst (off2 n))) /\
       (- (sin r * IZR (nth (Z.to_nat k) [1; 0; -1; 0; 1] 0)%Z + cos r * IZR (nth (Z.to_nat k) [0; 1; 0; -1; 0] 0)%Z) = (cos r - sin r) * IZR (snd (off1 n)) + sin r * IZR (snd (off2 n)))) \/
      (afn n = -1 /\ 
       (cos r * IZR (nth (Z.to_nat k) [1; 0; -1; 0; 1] 0)%Z + sin r * IZR (nth (Z.to_nat k) [0; 1; 0; -1; 0] 0)%Z = (cos r - sin r) * IZR (fst (off1 n)) + sin r * IZR (fst (off2 n))) /\
       (- (- sin r * IZR (nth (Z.to_nat k) [1; 0; -1; 0; 1] 0)%Z + cos r * IZR (nth (Z.to_nat k) [0; 1; 0; -1; 0] 0)%Z) = (cos r - sin r) * IZR (snd (off1 n)) + sin r * IZR (snd (off2 n)))))).
  { assert (K : forall (k : Z) (P : Z -> Prop), P k -> exists k, P k) by (intros; eexists; eassumption).
    each H; offs; offa;
    [ apply (K 0%Z) | apply (K 1%Z) | apply (K 1%Z) | apply (K 2%Z) | apply (K 2%Z) | apply (K 3%Z) | apply (K 3%Z) | apply (K 4%Z) ];
    (split; [cbn; tauto|]); (split; [reflexivity|]); nats;
    first [ left; split; [reflexivity|split; ring] | right; split; [reflexivity|split; ring] ]. }
  destruct G as [k [Hk [Ea [[Ef [G1 G2]]|[Ef [G1 G2]]]]]]; destruct (quarter k Hk) as [Q1 Q2]; rewrite Ea, Ef.
  - rewrite Rmult_1_l, cos_plus, sin_plus, Q1, Q2. split; lra.
  - replace (-1 * r) with (- r) by ring. rewrite cos_plus, sin_plus, cos_neg, sin_neg, Q1, Q2. split; lra.
Qed.

Lemma pi4_trig r : 0 <= r <= PI / 4 -> 0 <= sin r /\ 0 <= cos r - sin r.
Proof.
  intros H. assert (P := PI_RGT_0). split; [apply sin_ge_0; lra|].
  assert (K : 0 <= sin (PI / 4 - r)) by (apply sin_ge_0; lra).
  rewrite sin_minus, cos_pi4, sin_pi4 in K. assert (S := sqrt2_pos).
  assert (E : 1 / sqrt 2 * cos r - 1 / sqrt 2 * sin r = (cos r - sin r) / sqrt 2) by (field; lra). rewrite E in K.
  apply (Rmult_le_compat_r (sqrt 2)) in K; [|lra]. rewrite Rmult_0_l in K.
  replace ((cos r - sin r) / sqrt 2 * sqrt 2) with (cos r - sin r) in K by (field; lra). exact K.
Qed.
Lemma dist_one n r : (0 <= n < 8)%Z -> dist (off1 n) (off2 n) (cos r - sin r) (sin r) = 1.
Proof.
  intros H. rewrite dist_eq by exact H. replace (cos r - sin r + sin r) with (cos r) by ring.
  assert (K := sin2_cos2 r). unfold Rsqr in K. rewrite Rplus_comm, K. apply sqrt_1.
Qed.

Section cell2.
  Variables (w h : Z) (e : grid R) (x y : Z).
  Hypothesis inner : forall i j, (-1 <= i <= 1)%Z -> (-1 <= j <= 1)%Z -> in_raster w h (x + i) (y + j).
  Lemma notedge : isEdgeCell w h x y = false.
  Proof.
    assert (A := inner (-1) (-1) ltac:(lia) ltac:(lia)). assert (B := inner 1 1 ltac:(lia) ltac:(lia)).
    unfold in_raster in *. unfold isEdgeCell.
    rewrite !orb_false_iff, !Z.eqb_neq. lia.
  Qed.
  Lemma flowdir_inner : exists th, dinf_FlowDir w h e x y = Ok th /\
    ((th = 0 /\ forall n, (0 <= n < 8)%Z -> snd (Fc e x y n) <= 0) \/
     exists n r s, (0 <= n < 8)%Z /\ 0 < s /\ Fc e x y n = (r, s) /\ th = angle n r /\
       (forall m, (0 <= m < 8)%Z -> snd (Fc e x y m) <= s) /\ (forall m, (0 <= m < n)%Z -> snd (Fc e x y m) < s)).
  Proof.
    unfold dinf_FlowDir. rewrite notedge.
    destruct (floop w h e x y inner 8 ltac:(lia)) as [[[nm sm] rm] [E [I1 I2]]].
    change [0; 1; 2; 3; 4; 5; 6; 7]%Z with (zrange 0 8). rewrite E. cbn [bind].
    destruct I2 as [[-> ->]|[B [P [F L]]]].
    - cbn [Z.eqb]. exists 0. split; [reflexivity|]. left. split; [reflexivity|]. intros n Hn. apply I1. lia.
    - destruct (Z.eqb_spec nm (-1)) as [->|_]; [lia|].
      assert (T : rd af nm = Ok (afn nm) /\ rd ac nm = Ok (acn nm)).
      { assert (B' : (0 <= nm < 8)%Z) by lia. clear - B'. each B'; split; reflexivity. }
      destruct T as [-> ->]. cbn [bind]. eexists. split; [reflexivity|]. right. exists nm, rm, sm.
      split; [lia|]. split; [exact P|]. split; [exact F|]. split; [reflexivity|]. split; [|exact L].
      intros m Hm. apply I1. lia.
  Qed.

  Theorem dinf_inner : exists th, dinf_FlowDir w h e x y = Ok th /\
    ((th = 0 /\ no_descent e x y) \/ exists s, 0 < s /\ steepest e x y th s /\ 0 <= th < 2 * PI).
  Proof.
    destruct flowdir_inner as [th [E H]]. exists th. split; [exact E|].
    destruct H as [[-> H]|[n [r [s [Hn [Hs [F [-> [HM HL]]]]]]]]].
    - left. split; [reflexivity|]. intros p q u v T Hu Hv. destruct (triangle_facet p q T) as [n [Hn [-> ->]]].
      assert (D := drop_le e x y n u v Hn Hu Hv). rewrite Rmax_right in D by (apply H; exact Hn). lra.
    - right. exists s. split; [exact Hs|].
      destruct (facet_ok _ _ _ _ _ F) as [Hr [Es Hmax]]. destruct (pi4_trig r Hr) as [T1 T2].
      split; [split|].
      + exists (off1 n), (off2 n), (cos r - sin r), (sin r). split; [apply triangle_of; exact Hn|].
        split; [exact T2|]. split; [exact T1|]. rewrite (dist_one n r Hn). split; [lra|].
        split.
        * unfold heading. rewrite (dist_one n r Hn). destruct (angle_trig n r Hn) as [A B]. split; lra.
        * rewrite drop_eq. rewrite Es. ring.
      + intros p q u v T Hu Hv. destruct (triangle_facet p q T) as [m [Hm [-> ->]]].
        assert (D := drop_le e x y m u v Hm Hu Hv). eapply Rle_trans; [exact D|].
        apply Rmult_le_compat_r; [unfold dist; apply sqrt_pos|]. apply Rmax_lub; [apply HM; exact Hm|lra].
      + assert (P := PI_RGT_0).
        assert (Z7 : n = 7%Z -> 0 < r).
        { intros ->. destruct (Rle_lt_dec r 0) as [R0|R0]; [|exact R0]. exfalso. assert (r = 0) by lra. subst r.
          specialize (HL 0%Z ltac:(lia)). destruct (Fc e x y 0) as [r0 s0] eqn:F0. cbn [snd] in HL.
          destruct (facet_ok _ _ _ _ _ F0) as [_ [_ H0]]. specialize (H0 1 0 ltac:(lra) ltac:(lra)).
          replace (1 * 1 + 0 * 0) with 1 in H0 by ring. rewrite sqrt_1 in H0.
          rewrite cos_0, sin_0 in Es. change (e1of e x y 7) with (e1of e x y 0) in Es.
          assert (M : Rmax s0 0 < s) by (apply Rmax_lub_lt; lra). lra. }
        unfold angle. clear - Hn Hr P Z7. each Hn; offa; try lra. specialize (Z7 eq_refl). lra.
  Qed.
End cell2.
