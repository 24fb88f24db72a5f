(** C44: the order of the flood's queue and flat bottoms. C45: the radix heap. C46: its key encoders. *)
From Coq Require Import ZArith List Lia Bool Permutation.
From Verif Require Import Base Res RasterSpec FlowModel PropertiesFlow FlatsSpec DHModel DHSpec DHFlood DHTree DHAll DHLifo DHPlain PropertiesDH RadixModel RadixSpec RadixProofs.
Open Scope Z_scope.

(** ** C45 *)
(** Every history of calls on a new pair_radix_heap gives the answers of a priority queue that returns the most recently
    pushed of the items with the lowest key, as long as no key below a key already looked at is pushed and an empty heap
    is not looked into; the first such call is undefined (a failing assertion). *)
Theorem C45_radix_heap : forall (V : Type) digits (os : list (op V)),
  Forall (fun o => match o with Push k _ => 0 <= k < 2 ^ Z.of_nat digits | _ => True end) os ->
  (exists us s, run digits os (heap_empty digits) = Ok us /\ served ([], 0) os us s) \/
  (run digits os (heap_empty digits) = Undef /\
   exists os1 o os2 us s, os = os1 ++ o :: os2 /\ served ([], 0) os1 us s /\ misuse s o).
Proof.
  intros V digits os F. apply (run_ok digits os (heap_empty digits) []); [apply R_empty|].
  eapply Forall_impl; [|exact F]. intros [k v| | | | | |]; cbn; auto. unfold key_max. lia.
Qed.
Print Assumptions C45_radix_heap.
Example C45_run : run 32 [Push 7 1; Push 3 2; Push 9 3; Push 3 4; Top; Pop; Top; Pop; Push 7 5; Push 8 6; Min; TopValues; Extract; Pop; Top; Pop; Clear; Push 0 9; Top] (heap_empty 32) =
  Ok [Nothing; Nothing; Nothing; Nothing; Item 3 4; Nothing; Item 3 2; Nothing; Nothing; Nothing; Key 7; Items [(7, 1); (7, 5)]; Items [(7, 1); (7, 5)]; Nothing;
      Item 9 3; Nothing; Nothing; Nothing; Item 0 9].
Proof. vm_compute. reflexivity. Qed.
Example C45_low_push : run 32 [Push 7 tt; Pop; Push 6 tt] (heap_empty 32) = Undef.
Proof. vm_compute. reflexivity. Qed.

(** The answers are determined: what [served] allows is a function of the history. *)
Theorem C45_answers_unique : forall (V : Type) (os : list (op V)) s us us' s1 s2, served s os us s1 -> served s os us' s2 -> us = us' /\ s1 = s2.
Proof.
  intros V os.
  assert (NU : forall (q : list (Z * V)) x y q1 q2, newest_lowest q x q1 -> newest_lowest q y q2 -> x = y /\ q1 = q2).
  { intros q x y q1 q2 [a [b [E [-> [M N]]]]] [a' [b' [E' [-> [M' N']]]]].
    assert (IX : In x q) by (rewrite E; apply in_or_app; right; left; auto). assert (IY : In y q) by (rewrite E'; apply in_or_app; right; left; auto).
    assert (K : fst x = fst y) by (specialize (M y IY); specialize (M' x IX); lia). clear M M' IX IY. rewrite E in E'. clear E q.
    revert a' N' E'. induction a as [|z a IH]; intros [|z' a'] N' E'; cbn [app] in E'.
    - injection E' as -> ->. auto.
    - injection E' as -> _. exfalso. specialize (N' z' (or_introl eq_refl)). lia.
    - injection E' as -> _. exfalso. specialize (N y (or_introl eq_refl)). lia.
    - injection E' as -> E'. destruct (IH (fun u Hu => N u (or_intror Hu)) a' (fun u Hu => N' u (or_intror Hu)) E') as [X Y]. split; [exact X|cbn; f_equal; exact Y]. }
  assert (GU : forall (q : list (Z * V)) l l' q1 q2, lowest_group q l q1 -> lowest_group q l' q2 -> l = l' /\ q1 = q2).
  { intros q l l' q1 q2 [z [A [B [C D]]]] [z' [A' [B' [C' D']]]]. assert (z = z'); [|subst z'; split; congruence].
    assert (EX : forall z l, l = rev (filter (fun y : Z * V => fst y =? z) q) -> l <> [] -> exists y, In y q /\ fst y = z).
    { clear. intros z l E N. subst l. destruct (filter (fun y : Z * V => fst y =? z) q) as [|y r] eqn:F; [cbn in N; congruence|].
      assert (I : In y (filter (fun y : Z * V => fst y =? z) q)) by (rewrite F; left; auto). apply filter_In in I. destruct I as [I1 I2]. apply Z.eqb_eq in I2. eauto. }
    destruct (EX z l A C) as [y [Y1 Y2]]. destruct (EX z' l' A' C') as [y' [Y1' Y2']]. specialize (D y' Y1'). specialize (D' y Y1). lia. }
  induction os as [|o os IH]; intros s us us' s1 s2 A B; inversion A; subst; inversion B; subst; [auto|].
  match goal with X : serve s o ?u ?m, Y : serve s o ?u' ?m' |- _ => assert (E : u = u' /\ m = m') end.
  { match goal with X : serve s o _ _, Y : serve s o _ _ |- _ => inversion X; subst; inversion Y; subst end; auto;
    repeat match goal with P : newest_lowest ?q ?x ?q1, Q : newest_lowest ?q ?y ?q2 |- _ => destruct (NU q x y q1 q2 P Q) as [? ?]; subst; clear Q end; auto;
    match goal with P : lowest_group ?q ?x ?q1, Q : lowest_group ?q ?y ?q2 |- _ => destruct (GU q x y q1 q2 P Q) as [? ?]; subst end; auto. }
  destruct E as [-> ->]. match goal with X : served ?m os _ _, Y : served ?m os _ _ |- _ => destruct (IH _ _ _ _ _ X Y) as [-> ->] end. auto.
Qed.
Print Assumptions C45_answers_unique.

(** radix_heap (without values) does not reset the minimum of bucket 0: min() can return a key that is no longer there. *)
Theorem C45_radix_heap_min_refuted : exists (ks : list Z) h1 h2 h3,
  forM ks (fun k h => push 32 k tt h) (heap_empty 32) = Ok h1 /\ pop1 32 h1 = Ok h2 /\ top1 32 h2 = Ok (5, h3) /\
  min1 32 h3 = Ok 1.
Proof.
  exists [1; 5]. eexists. eexists. eexists. split; [reflexivity|]. split; [vm_compute; reflexivity|]. split; vm_compute; reflexivity.
Qed.
Print Assumptions C45_radix_heap_min_refuted.

(** ** C44 *)
(** [most_recent_first] makes the queue of the model of GetDepressionHierarchy such a priority queue. *)
Theorem C44_queue : forall (q : list (Z * cellt)) x q' i,
  pq_pop key_gt (most_recent_first i) q = Some (x, q') <-> newest_lowest q x q'.
Proof.
  assert (F : forall (q : list (Z * cellt)) x q', pq_pop key_gt 0 q = Some (x, q') -> newest_lowest q x q').
  { intros q x q' E. apply pq_pop_first in E. destruct E as [a [b [-> [-> [M N]]]]]. exists a, b. split; auto. split; auto.
    assert (G : forall u v : Z * cellt, key_gt u v = false -> fst u <= fst v) by (intros u v X; unfold key_gt in X; rewrite Z.gtb_ltb in X; apply Z.ltb_ge in X; exact X).
    split; [intros y Hy; apply G, M, Hy|]. intros y Hy. destruct (N y Hy) as [u [U1 U2]]. apply M, G in U1. unfold key_gt in U2. rewrite Z.gtb_ltb in U2. apply Z.ltb_lt in U2. lia. }
  intros q x q' i. unfold most_recent_first. split; [apply F|]. intros N.
  destruct (pq_pop key_gt 0 q) as [[y q2]|] eqn:E.
  - apply F in E. assert (S1 : @serve cellt (q, 0) Pop Nothing (q', fst x)) by (econstructor; eauto).
    assert (S2 : @serve cellt (q, 0) Pop Nothing (q2, fst y)) by (econstructor; eauto).
    assert (T1 : @serve cellt (q, 0) Top (Item (fst x) (snd x)) (q, fst x)) by (econstructor; eauto).
    assert (T2 : @serve cellt (q, 0) Top (Item (fst y) (snd y)) (q, fst y)) by (econstructor; eauto).
    assert (SV : forall o u m, @serve cellt (q, 0) o u m -> served (q, 0) [o] [u] m) by (intros; repeat econstructor; eauto).
    destruct (C45_answers_unique _ _ _ _ _ _ _ (SV _ _ _ S1) (SV _ _ _ S2)) as [_ A].
    destruct (C45_answers_unique _ _ _ _ _ _ _ (SV _ _ _ T1) (SV _ _ _ T2)) as [B _]. injection A as A1 A2. injection B as _ B. destruct x, y; cbn in *; congruence.
  - exfalso. apply pq_pop_none in E.
    + subst q. destruct N as [a [b [X _]]]. destruct a; discriminate X.
    + intros Hne. destruct (min_by_key (fst : Z * cellt -> Z) _ Hne) as [a [A B]]. exists a. split; auto.
Qed.
Print Assumptions C44_queue.

(** With that queue a flat bottom is one leaf depression: a cell at the lowest level of its watershed has no neighbour at or
    below its level in another watershed, except in the ocean's; and every depression that does not overflow directly into
    a watershed already linked to the ocean has a positive volume. *)
Theorem C44_flat_bottoms : forall t w h dem lab0 fd0 sorted parts lab fd deps,
  valid_labels w h lab0 -> has_coast t w h lab0 -> w * h < 2 ^ 31 -> (forall db, sorting_of db (sorted db)) -> each_cell_once w h parts ->
  GetDepressionHierarchy t w h dem most_recent_first sorted parts lab0 fd0 = Some (Ok (lab, fd, deps)) ->
  bottoms_apart t w h dem lab /\
  forall d r v, ix deps d = Some r -> d <> 0 -> d_ocean_parent r = false -> d_vol r = Some v -> 0 < v.
Proof.
  intros t w h dem lab0 fd0 sorted parts lab fd deps A B C D E G.
  assert (P := gdh_plain t w h dem lab0 fd0 sorted parts A C B lab fd deps G). split; [exact P|].
  exact (gdh_positive t w h dem lab0 fd0 sorted parts A C B D E most_recent_first lab fd deps G P).
Qed.
Print Assumptions C44_flat_bottoms.
(** a basin with a flat bottom of three cells: one leaf; with another order among equal elevations: two leaves that touch *)
Definition flat_dem : grid Z := of_rows [[0; 3; 1; 1; 1; 3]].
Definition flat_lab : grid Z := fun x y => if x =? 0 then 0 else 2 ^ 32 - 1.
Definition flat_run tb := match GetDepressionHierarchy D8 6 1 flat_dem tb ex_sort [cells 6 1] flat_lab (fun _ _ => 0) with
  | Some (Ok (lab, fd, deps)) => Some (map (fun x => lab x 0) (zrange 0 6), map d_vol deps) | _ => None end.
Example C44_one_leaf : flat_run most_recent_first = Some ([0; 0; 1; 1; 1; 1], [None; Some 6]).
Proof. vm_compute. reflexivity. Qed.
Theorem C44_other_queue_refuted : flat_run (fun i => if Nat.eqb i 2 then 2%nat else 0%nat) = Some ([0; 0; 2; 1; 1; 1], [None; Some 0; Some 0; Some 6]).
Proof. vm_compute. reflexivity. Qed.

(** ** C46 *)
(** The encoders translate keys into unsigned numbers of the same order and back. *)
Lemma lxor_top n a : 0 <= n -> 0 <= a < 2 ^ n -> Z.lxor a (2 ^ n) = a + 2 ^ n.
Proof.
  intros Hn Ha. symmetry. apply Z.add_nocarry_lxor. apply Z.bits_inj. intros k. rewrite Z.bits_0, Z.land_spec.
  destruct (Z_lt_ge_dec k 0); [rewrite Z.testbit_neg_r by lia; reflexivity|]. rewrite Z.pow2_bits_eqb by lia. destruct (Z.eqb_spec n k) as [->|]; [|apply andb_false_r].
  rewrite andb_true_r. destruct (Z.eq_dec a 0) as [->|]; [apply Z.bits_0|]. apply Z.bits_above_log2; [lia|]. apply Z.log2_lt_pow2; lia.
Qed.
Lemma lxor_top' n a : 0 <= n -> 2 ^ n <= a < 2 ^ (n + 1) -> Z.lxor a (2 ^ n) = a - 2 ^ n.
Proof.
  intros Hn Ha. rewrite Z.pow_add_r in Ha by lia. change (2 ^ 1) with 2 in Ha. assert (E : a = Z.lxor (a - 2 ^ n) (2 ^ n)) by (rewrite lxor_top by lia; lia).
  rewrite E at 1. rewrite Z.lxor_assoc, Z.lxor_nilpotent, Z.lxor_0_r. reflexivity.
Qed.
Lemma lxor_ones d a : 0 <= d -> 0 <= a < 2 ^ d -> Z.lxor a (2 ^ d - 1) = 2 ^ d - 1 - a.
Proof.
  intros Hd Ha. assert (L : Z.land a (2 ^ d - 1 - a) = 0 /\ Z.lxor a (2 ^ d - 1 - a) = 2 ^ d - 1).
  { assert (X : 2 ^ d - 1 - a = Z.ldiff (2 ^ d - 1) a).
    { replace (2 ^ d - 1) with (Z.ones d) by (rewrite Z.ones_equiv; lia). apply Z.sub_nocarry_ldiff. apply Z.bits_inj. intros k. rewrite Z.bits_0, Z.ldiff_spec.
      destruct (Z_lt_ge_dec k 0); [rewrite !Z.testbit_neg_r by lia; reflexivity|].
      destruct (Z_lt_ge_dec k d); [rewrite Z.ones_spec_low by lia; apply andb_false_r|].
      destruct (Z.eq_dec a 0) as [->|]; [rewrite Z.bits_0; reflexivity|]. rewrite Z.bits_above_log2; [reflexivity|lia|]. assert (Z.log2 a < d) by (apply Z.log2_lt_pow2; lia). lia. }
    rewrite X. split; apply Z.bits_inj; intros k; rewrite ?Z.land_spec, ?Z.lxor_spec, Z.ldiff_spec, ?Z.bits_0.
    - destruct (Z.testbit a k), (Z.testbit (2 ^ d - 1) k); reflexivity.
    - destruct (Z.testbit a k) eqn:E; cbn; [|destruct (Z.testbit (2 ^ d - 1) k); reflexivity]. rewrite andb_false_r. cbn.
      destruct (Z_lt_ge_dec k 0); [rewrite Z.testbit_neg_r in E by lia; discriminate E|]. destruct (Z_lt_ge_dec k d) as [L|G].
      + replace (2 ^ d - 1) with (Z.ones d) by (rewrite Z.ones_equiv; lia). rewrite Z.ones_spec_low by lia. reflexivity.
      + exfalso. destruct (Z.eq_dec a 0) as [->|]; [rewrite Z.bits_0 in E; discriminate E|]. rewrite Z.bits_above_log2 in E; [discriminate E|lia|]. assert (Z.log2 a < d) by (apply Z.log2_lt_pow2; lia). lia. }
  destruct L as [_ L]. rewrite <- L at 1. rewrite <- Z.lxor_assoc, Z.lxor_nilpotent. apply Z.lxor_0_l.
Qed.

Theorem C46_signed_keys : forall d x y, 1 <= d -> - 2 ^ (d - 1) <= x < 2 ^ (d - 1) -> - 2 ^ (d - 1) <= y < 2 ^ (d - 1) ->
  0 <= encode_signed d x < 2 ^ d /\ decode_signed d (encode_signed d x) = x /\ (encode_signed d x < encode_signed d y <-> x < y).
Proof.
  assert (P : forall d, 1 <= d -> 2 ^ d = 2 * 2 ^ (d - 1) /\ 0 < 2 ^ (d - 1)).
  { intros d Hd. split; [replace d with (1 + (d - 1)) at 1 by lia; rewrite Z.pow_add_r by lia; reflexivity|apply Z.pow_pos_nonneg; lia]. }
  assert (E : forall d x, 1 <= d -> - 2 ^ (d - 1) <= x < 2 ^ (d - 1) -> encode_signed d x = x + 2 ^ (d - 1)).
  { intros d x Hd Hx. destruct (P d Hd) as [P1 P2]. unfold encode_signed. destruct (Z_lt_ge_dec x 0).
    - replace (x mod 2 ^ d) with (x + 2 ^ d) by (apply Z.mod_unique with (-1); lia). rewrite lxor_top'; [lia|lia|]. replace (d - 1 + 1) with d by lia. lia.
    - rewrite Z.mod_small by lia. apply lxor_top; lia. }
  intros d x y Hd Hx Hy. destruct (P d Hd) as [P1 P2]. rewrite !E by auto. split; [lia|]. split; [|lia].
  unfold decode_signed, to_signed. destruct (Z_lt_ge_dec x 0).
  - rewrite lxor_top by lia. destruct (Z.ltb_spec (x + 2 ^ (d - 1) + 2 ^ (d - 1)) (2 ^ (d - 1))); lia.
  - rewrite lxor_top'; [|lia|replace (d - 1 + 1) with d by lia; lia]. destruct (Z.ltb_spec (x + 2 ^ (d - 1) - 2 ^ (d - 1)) (2 ^ (d - 1))); lia.
Qed.
Print Assumptions C46_signed_keys.

(** IEEE 754: the value of a bit pattern with [e] exponent and [m] mantissa bits, in units of the smallest positive number
    (float: e = 8, m = 23; double: e = 11, m = 52). Infinity counts as 2^(2^e-2+m) units, more than any number. *)
Definition magnitude (m u : Z) : Z := if u / 2 ^ m =? 0 then u mod 2 ^ m else (2 ^ m + u mod 2 ^ m) * 2 ^ (u / 2 ^ m - 1).
Definition float_value (e m raw : Z) : Z :=
  if raw <? 2 ^ (e + m) then magnitude m raw else - magnitude m (raw - 2 ^ (e + m)).
Definition is_nan (e m raw : Z) : Prop := raw mod 2 ^ (e + m) > (2 ^ e - 1) * 2 ^ m.
Definition pos_zero : Z := 0.
Definition neg_zero (e m : Z) : Z := 2 ^ (e + m).

Lemma magnitude_step m u : 0 <= m -> 0 <= u -> magnitude m u < magnitude m (u + 1).
Proof.
  intros Hm Hu. assert (P : 0 < 2 ^ m) by (apply Z.pow_pos_nonneg; lia). unfold magnitude.
  pose proof (Z.div_mod u (2 ^ m) ltac:(lia)) as D. pose proof (Z.mod_pos_bound u (2 ^ m) P) as B.
  assert (Q : 0 <= u / 2 ^ m) by (apply Z.div_pos; lia). set (E := u / 2 ^ m) in *. set (M := u mod 2 ^ m) in *.
  destruct (Z.eq_dec (M + 1) (2 ^ m)) as [Eq|Ne].
  - assert (E1 : (u + 1) / 2 ^ m = E + 1) by (symmetry; apply Z.div_unique with 0; lia). assert (M1 : (u + 1) mod 2 ^ m = 0) by (symmetry; apply Z.mod_unique with (E + 1); lia).
    rewrite E1, M1. destruct (Z.eqb_spec (E + 1) 0); [lia|]. destruct (Z.eqb_spec E 0) as [->|].
    + cbn. lia.
    + replace (E + 1 - 1) with (1 + (E - 1)) by lia. rewrite Z.pow_add_r by lia. assert (0 < 2 ^ (E - 1)) by (apply Z.pow_pos_nonneg; lia). change (2 ^ 1) with 2. nia.
  - assert (E1 : (u + 1) / 2 ^ m = E) by (symmetry; apply Z.div_unique with (M + 1); lia). assert (M1 : (u + 1) mod 2 ^ m = M + 1) by (symmetry; apply Z.mod_unique with E; lia).
    rewrite E1, M1. destruct (Z.eqb_spec E 0); [lia|]. assert (0 < 2 ^ (E - 1)) by (apply Z.pow_pos_nonneg; lia). nia.
Qed.
Lemma magnitude_mono m u v : 0 <= m -> 0 <= u < v -> magnitude m u < magnitude m v.
Proof.
  intros Hm H. replace v with (u + Z.of_nat (Z.to_nat (v - u))) by lia. assert (N : (0 < Z.to_nat (v - u))%nat) by lia. revert N. generalize (Z.to_nat (v - u)) as k.
  induction k as [|k IH]; intros N; [lia|]. rewrite Nat2Z.inj_succ. replace (u + Z.succ (Z.of_nat k)) with (u + Z.of_nat k + 1) by lia.
  pose proof (magnitude_step m (u + Z.of_nat k) Hm ltac:(lia)). destruct k as [|k]; [replace (u + Z.of_nat 0) with u in * by lia; lia|]. specialize (IH ltac:(lia)). lia.
Qed.
Lemma magnitude_0 m : 0 <= m -> magnitude m 0 = 0.
Proof. intros Hm. unfold magnitude. rewrite Z.div_0_l, Z.mod_0_l by (pose proof (Z.pow_pos_nonneg 2 m); lia). reflexivity. Qed.

Lemma encode_float_eq d raw : 1 <= d -> 0 <= raw < 2 ^ d -> encode_float d raw = if raw <? 2 ^ (d - 1) then raw + 2 ^ (d - 1) else 2 ^ d - 1 - raw.
Proof.
  intros Hd Hr. assert (P1 : 2 ^ d = 2 * 2 ^ (d - 1)) by (replace d with (1 + (d - 1)) at 1 by lia; rewrite Z.pow_add_r by lia; reflexivity).
  assert (P2 : 0 < 2 ^ (d - 1)) by (apply Z.pow_pos_nonneg; lia). unfold encode_float. rewrite Z.shiftr_div_pow2, Z.shiftl_1_l by lia.
  destruct (Z.ltb_spec raw (2 ^ (d - 1))).
  - rewrite Z.div_small, Z.opp_0, Z.mod_0_l, Z.lor_0_l by lia. apply lxor_top; lia.
  - replace (raw / 2 ^ (d - 1)) with 1 by (apply Z.div_unique with (raw - 2 ^ (d - 1)); lia).
    replace ((- (1)) mod 2 ^ d) with (2 ^ d - 1) by (apply Z.mod_unique with (-1); lia).
    replace (Z.lor (2 ^ d - 1) (2 ^ (d - 1))) with (2 ^ d - 1); [apply lxor_ones; lia|].
    symmetry. apply Z.bits_inj. intros k. rewrite Z.lor_spec. destruct (Z_lt_ge_dec k 0); [rewrite !Z.testbit_neg_r by lia; reflexivity|].
    rewrite Z.pow2_bits_eqb by lia. destruct (Z.eqb_spec (d - 1) k) as [<-|]; [|apply orb_false_r]. rewrite orb_true_r.
    replace (2 ^ d - 1) with (Z.ones d) by (rewrite Z.ones_equiv; lia). rewrite Z.ones_spec_low by lia. reflexivity.
Qed.

(** Floating point keys that are not NaN: the encoding increases with the value, and decoding gives the key back; only the two
    zeros are told apart, though they are equal. *)
Theorem C46_float_keys : forall e m x y, 1 <= e -> 1 <= m -> 0 <= x < 2 ^ (1 + e + m) -> 0 <= y < 2 ^ (1 + e + m) -> ~ is_nan e m x -> ~ is_nan e m y ->
  0 <= encode_float (1 + e + m) x < 2 ^ (1 + e + m) /\ decode_float (1 + e + m) (encode_float (1 + e + m) x) = x /\
  (encode_float (1 + e + m) x < encode_float (1 + e + m) y <-> float_value e m x < float_value e m y \/ x = neg_zero e m /\ y = pos_zero).
Proof.
  intros e m x y He Hm Hx Hy _ _. set (d := 1 + e + m) in *. assert (D1 : d - 1 = e + m) by (unfold d; lia).
  assert (P1 : 2 ^ d = 2 * 2 ^ (e + m)) by (unfold d; replace (1 + e + m) with (1 + (e + m)) by lia; rewrite Z.pow_add_r by lia; reflexivity).
  assert (P2 : 0 < 2 ^ (e + m)) by (apply Z.pow_pos_nonneg; lia).
  assert (ENC : forall z, 0 <= z < 2 ^ d -> encode_float d z = if z <? 2 ^ (e + m) then z + 2 ^ (e + m) else 2 ^ d - 1 - z).
  { intros z Hz. rewrite encode_float_eq by (unfold d in *; lia). rewrite D1. reflexivity. }
  assert (MG : forall u v, 0 <= u -> 0 <= v -> (magnitude m u < magnitude m v <-> u < v)).
  { intros u v Hu Hv. split; [|intros; apply magnitude_mono; lia]. intros L. destruct (Z_lt_ge_dec u v) as [|G]; auto. exfalso.
    destruct (Z.eq_dec u v) as [->|]; [lia|]. pose proof (magnitude_mono m v u ltac:(lia) ltac:(lia)). lia. }
  assert (M0 := magnitude_0 m ltac:(lia)).
  assert (MN : forall u, 0 <= u -> 0 <= magnitude m u) by (intros u Hu; destruct (Z.eq_dec u 0) as [->|]; [lia|]; pose proof (magnitude_mono m 0 u ltac:(lia) ltac:(lia)); lia).
  assert (MZ : forall u, 0 <= u -> magnitude m u = 0 -> u = 0) by (intros u Hu Z0; destruct (Z.eq_dec u 0); auto; pose proof (magnitude_mono m 0 u ltac:(lia) ltac:(lia)); lia).
  rewrite !ENC by auto. split; [destruct (Z.ltb_spec x (2 ^ (e + m))); lia|]. split.
  - unfold decode_float. rewrite Z.shiftr_div_pow2, Z.shiftl_1_l, D1 by lia. destruct (Z.ltb_spec x (2 ^ (e + m))).
    + replace ((x + 2 ^ (e + m)) / 2 ^ (e + m)) with 1 by (apply Z.div_unique with x; lia). rewrite Z.sub_diag, Z.mod_0_l, Z.lor_0_l by lia.
      rewrite lxor_top'; [lia|lia|]. replace (e + m + 1) with d by (unfold d; lia). lia.
    + rewrite (Z.div_small (2 ^ d - 1 - x)) by lia. replace ((0 - 1) mod 2 ^ d) with (2 ^ d - 1) by (apply Z.mod_unique with (-1); lia).
      replace (Z.lor (2 ^ d - 1) (2 ^ (e + m))) with (2 ^ d - 1); [rewrite lxor_ones by (unfold d in *; lia); lia|].
      symmetry. apply Z.bits_inj. intros k. rewrite Z.lor_spec. destruct (Z_lt_ge_dec k 0); [rewrite !Z.testbit_neg_r by lia; reflexivity|].
      rewrite Z.pow2_bits_eqb by lia. destruct (Z.eqb_spec (e + m) k) as [<-|]; [|apply orb_false_r]. rewrite orb_true_r.
      replace (2 ^ d - 1) with (Z.ones d) by (rewrite Z.ones_equiv; lia). rewrite Z.ones_spec_low by (unfold d; lia). reflexivity.
  - unfold float_value, neg_zero, pos_zero. destruct (Z.ltb_spec x (2 ^ (e + m))) as [Lx|Lx], (Z.ltb_spec y (2 ^ (e + m))) as [Ly|Ly].
    + rewrite MG by lia. lia.
    + pose proof (MN x ltac:(lia)). pose proof (MN (y - 2 ^ (e + m)) ltac:(lia)). lia.
    + split; [intros _|lia]. pose proof (MN y ltac:(lia)). pose proof (MN (x - 2 ^ (e + m)) ltac:(lia)).
      destruct (Z.eq_dec (magnitude m y) 0) as [Z1|]; [|left; lia]. destruct (Z.eq_dec (magnitude m (x - 2 ^ (e + m))) 0) as [Z2|]; [|left; lia].
      right. apply MZ in Z1; [|lia]. apply MZ in Z2; lia.
    + assert (X := MG (y - 2 ^ (e + m)) (x - 2 ^ (e + m)) ltac:(lia) ltac:(lia)). lia.
Qed.
Print Assumptions C46_float_keys.
(** 1.0f, -2.0f and infinity *)
Example C46_floats : float_value 8 23 1065353216 = 2 ^ 149 /\ float_value 8 23 3221225472 = - 2 ^ 150 /\ ~ is_nan 8 23 2139095040 /\ is_nan 8 23 2143289344.
Proof. repeat split; try reflexivity; unfold is_nan; vm_compute; congruence. Qed.

(** So the heap refuses -0.0 after +0.0 has been looked at: a failing assertion, though the keys are equal. *)
Theorem C46_negative_zero_refuted : float_value 8 23 (neg_zero 8 23) = float_value 8 23 pos_zero /\
  run 32 [Push (encode_float 32 pos_zero) tt; Pop; Push (encode_float 32 (neg_zero 8 23)) tt] (heap_empty 32) = Undef.
Proof. split; vm_compute; reflexivity. Qed.
Print Assumptions C46_negative_zero_refuted.
