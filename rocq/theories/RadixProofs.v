(** The radix heap is a monotone priority queue that returns the newest of the lowest items. *)
From Coq Require Import ZArith List Lia Bool Permutation.
From Verif Require Import Base Res RadixModel RadixSpec.
Open Scope Z_scope.

(** ** Buckets *)
Lemma bucket0 x l : find_bucket x l = 0%nat <-> x = l.
Proof.
  unfold find_bucket. destruct (Z.eqb_spec x l); [tauto|]. pose proof (Z.log2_nonneg (Z.lxor x l)). split; [lia|tauto].
Qed.
Lemma lxor_pos x l : 0 <= x -> 0 <= l -> x <> l -> 0 < Z.lxor x l.
Proof.
  intros Hx Hl N. assert (0 <= Z.lxor x l) by (apply Z.lxor_nonneg; tauto). assert (Z.lxor x l <> 0); [|lia].
  intros E. apply Z.lxor_eq in E. congruence.
Qed.
Lemma bucketS x l i : 0 <= x -> 0 <= l -> find_bucket x l = S i <-> x <> l /\ Z.log2 (Z.lxor x l) = Z.of_nat i.
Proof.
  intros Hx Hl. unfold find_bucket. destruct (Z.eqb_spec x l); [split; [discriminate|tauto]|]. pose proof (Z.log2_nonneg (Z.lxor x l)).
  split; [intros; split; auto; lia|intros [_ E]; lia].
Qed.
Lemma log2_lxor_big a b : 0 < a -> 0 < b -> Z.log2 b < Z.log2 a -> Z.log2 (Z.lxor a b) = Z.log2 a.
Proof.
  intros Ha Hb L. apply Z.log2_bits_unique.
  - rewrite Z.lxor_spec, Z.bit_log2 by auto. rewrite (Z.bits_above_log2 b) by lia. reflexivity.
  - intros m Hm. rewrite Z.lxor_spec, !Z.bits_above_log2 by lia. reflexivity.
Qed.
Lemma log2_lxor_same a b : 0 < a -> 0 < b -> Z.log2 a = Z.log2 b -> Z.lxor a b = 0 \/ Z.log2 (Z.lxor a b) < Z.log2 a.
Proof.
  intros Ha Hb L. assert (0 <= Z.lxor a b) by (apply Z.lxor_nonneg; lia). destruct (Z.eq_dec (Z.lxor a b) 0) as [|N]; [auto|right].
  assert (Z.log2 (Z.lxor a b) <= Z.log2 a) by (pose proof (Z.log2_lxor a b); lia).
  assert (Z.log2 (Z.lxor a b) <> Z.log2 a); [|lia]. intros E.
  pose proof (Z.bit_log2 (Z.lxor a b) ltac:(lia)) as B. rewrite E, Z.lxor_spec, Z.bit_log2 in B by auto. rewrite L, Z.bit_log2 in B by auto. discriminate B.
Qed.
Lemma lxor_mid x l l' : Z.lxor x l' = Z.lxor (Z.lxor x l) (Z.lxor l' l).
Proof.
  rewrite (Z.lxor_comm l' l), Z.lxor_assoc, <- (Z.lxor_assoc l l l'), Z.lxor_nilpotent, Z.lxor_0_l. reflexivity.
Qed.

(** the other buckets do not notice the change of [last] *)
Lemma bucket_stable x l l' : 0 <= x -> 0 <= l -> 0 <= l' -> (find_bucket l' l < find_bucket x l)%nat -> find_bucket x l' = find_bucket x l.
Proof.
  intros Hx Hl Hl' L. destruct (find_bucket x l) as [|j] eqn:Ej; [lia|]. apply bucketS in Ej; auto. destruct Ej as [Nx Ej].
  destruct (find_bucket l' l) as [|i] eqn:Ei; [apply bucket0 in Ei; subst l'; apply bucketS; auto|]. apply bucketS in Ei; auto. destruct Ei as [Nl Ei].
  apply bucketS; auto. assert (P1 := lxor_pos x l Hx Hl Nx). assert (P2 := lxor_pos l' l Hl' Hl Nl).
  assert (E : Z.log2 (Z.lxor x l') = Z.of_nat j) by (rewrite (lxor_mid x l l'), log2_lxor_big; auto; lia). split; [|exact E].
  intros ->. rewrite (lxor_mid l' l l'), Z.lxor_nilpotent in E. cbn in E. lia.
Qed.
(** an item of the bucket being redistributed goes to a lower one *)
Lemma bucket_lower x l l' : 0 <= x -> 0 <= l -> 0 <= l' -> find_bucket l' l = find_bucket x l -> x <> l -> (find_bucket x l' < find_bucket x l)%nat.
Proof.
  intros Hx Hl Hl' E Nx. destruct (find_bucket x l) as [|j] eqn:Ej; [apply bucket0 in Ej; contradiction|].
  apply bucketS in Ej; auto. apply bucketS in E; auto. destruct Ej as [_ Ej], E as [Nl E].
  assert (P1 := lxor_pos x l Hx Hl Nx). assert (P2 := lxor_pos l' l Hl' Hl Nl).
  destruct (log2_lxor_same _ _ P1 P2 ltac:(lia)) as [Z0|Lt].
  - rewrite <- lxor_mid in Z0. apply Z.lxor_eq in Z0. rewrite (proj2 (bucket0 x l') Z0). lia.
  - rewrite <- lxor_mid in Lt. unfold find_bucket. destruct (x =? l'); [lia|]. pose proof (Z.log2_nonneg (Z.lxor x l')). lia.
Qed.
(** lower buckets hold lower keys *)
Lemma bucket_order x y l : 0 <= l -> l <= x -> l <= y -> (find_bucket x l < find_bucket y l)%nat -> x < y.
Proof.
  intros Hl Hx Hy L. destruct (find_bucket y l) as [|m] eqn:Em; [lia|]. apply bucketS in Em; try lia. destruct Em as [Ny Em].
  assert (P := lxor_pos y l ltac:(lia) Hl Ny).
  assert (SX : Z.shiftr x (Z.of_nat m) = Z.shiftr l (Z.of_nat m)).
  { apply Z.lxor_eq. rewrite <- Z.shiftr_lxor. destruct (find_bucket x l) as [|k] eqn:Ek.
    - apply bucket0 in Ek. subst x. rewrite Z.lxor_nilpotent. apply Z.shiftr_0_l.
    - apply bucketS in Ek; try lia. destruct Ek as [Nx Ek]. apply Z.shiftr_eq_0; [apply Z.lxor_nonneg; lia|lia]. }
  assert (SY : Z.shiftr y (Z.of_nat m) <> Z.shiftr l (Z.of_nat m)).
  { intros E. assert (X : Z.shiftr (Z.lxor y l) (Z.of_nat m) = 0) by (rewrite Z.shiftr_lxor, E; apply Z.lxor_nilpotent).
    rewrite Z.shiftr_div_pow2 in X by lia. rewrite <- Em in X. pose proof (Z.log2_spec _ P).
    assert (0 < 2 ^ Z.log2 (Z.lxor y l)) by (apply Z.pow_pos_nonneg; [lia|apply Z.log2_nonneg]).
    pose proof (Z.div_str_pos (Z.lxor y l) (2 ^ Z.log2 (Z.lxor y l)) ltac:(lia)). lia. }
  assert (Z.shiftr l (Z.of_nat m) <= Z.shiftr y (Z.of_nat m)) by (rewrite !Z.shiftr_div_pow2 by lia; apply Z.div_le_mono; [apply Z.pow_pos_nonneg; lia|lia]).
  destruct (Z_lt_ge_dec x y) as [|G]; auto. exfalso.
  assert (Z.shiftr y (Z.of_nat m) <= Z.shiftr x (Z.of_nat m)) by (rewrite !Z.shiftr_div_pow2 by lia; apply Z.div_le_mono; [apply Z.pow_pos_nonneg; lia|lia]). lia.
Qed.
Lemma bucket_bound d x l : 0 <= x < 2 ^ Z.of_nat d -> 0 <= l < 2 ^ Z.of_nat d -> (find_bucket x l <= d)%nat.
Proof.
  intros Hx Hl. unfold find_bucket. destruct (Z.eqb_spec x l); [lia|]. assert (P := lxor_pos x l ltac:(lia) ltac:(lia) n).
  assert (L : forall a, 0 <= a < 2 ^ Z.of_nat d -> a = 0 \/ Z.log2 a < Z.of_nat d).
  { intros a Ha. destruct (Z.eq_dec a 0); [auto|right]. apply Z.log2_lt_pow2; lia. }
  assert (Z.log2 (Z.lxor x l) < Z.of_nat d); [|lia].
  destruct (L x Hx) as [->|A]; [rewrite Z.lxor_0_l in *; destruct (L l Hl); lia|]. destruct (L l Hl) as [->|B]; [rewrite Z.lxor_0_r in *; lia|].
  pose proof (Z.log2_lxor x l ltac:(lia) ltac:(lia)). lia.
Qed.

(** ** Lists *)
Lemma filter_rev' {A} (P : A -> bool) l : filter P (rev l) = rev (filter P l).
Proof.
  induction l as [|a l IH]; cbn [rev filter]; [reflexivity|]. rewrite filter_app, IH. cbn [filter]. destruct (P a); cbn [rev]; [reflexivity|apply app_nil_r].
Qed.
Lemma filter_filter' {A} (P Q : A -> bool) l : filter P (filter Q l) = filter (fun a => Q a && P a) l.
Proof. induction l as [|a l IH]; cbn [filter]; [reflexivity|]. destruct (Q a); cbn [filter andb]; rewrite IH; reflexivity. Qed.
Lemma filter_none {A} (P : A -> bool) l : (forall a, In a l -> P a = false) -> filter P l = [].
Proof. induction l as [|a l IH]; intros H; cbn [filter]; [reflexivity|]. rewrite H by (left; auto). apply IH. intros b Hb. apply H. right; auto. Qed.
Lemma filter_head {A} (P : A -> bool) l x r : filter P l = x :: r -> exists a b, l = a ++ x :: b /\ P x = true /\ (forall y, In y a -> P y = false) /\ filter P b = r.
Proof.
  induction l as [|y l IH]; cbn [filter]; [discriminate|]. destruct (P y) eqn:E.
  - intros K. injection K as -> <-. exists [], l. cbn. split; auto. split; auto. split; [intros z []|auto].
  - intros K. destruct (IH K) as [a [b [-> [A1 [A2 A3]]]]]. exists (y :: a), b. cbn. split; auto. split; auto. split; [intros z [<-|Hz]; auto|auto].
Qed.

Section Proofs.
  Context {V : Type}.
  Variable digits : nat.
  Notation MAX := (key_max digits).
  Notation heap := (heap V).
  Notation item := (Z * V)%type.

  Lemma max_pos : 0 <= MAX.
  Proof. unfold key_max. pose proof (Z.pow_pos_nonneg 2 (Z.of_nat digits) ltac:(lia) ltac:(lia)). lia. Qed.

  Definition lowest (l : list item) : Z := fold_right Z.min MAX (map fst l).
  Definition inb (last : Z) (b : nat) (x : item) : bool := Nat.eqb (find_bucket (fst x) last) b.
  Definition nonempty {A} (l : list A) : bool := match l with [] => false | _ => true end.

  Lemma lowest_le l : lowest l <= MAX.
  Proof. unfold lowest. induction l as [|a l IH]; cbn [map fold_right]; lia. Qed.
  Lemma lowest_app l l' : lowest (l ++ l') = Z.min (lowest l) (lowest l').
  Proof.
    induction l as [|a l IH]; cbn [app].
    - pose proof (lowest_le l'). unfold lowest at 2. cbn [map fold_right]. lia.
    - change (lowest (a :: l ++ l')) with (Z.min (fst a) (lowest (l ++ l'))). change (lowest (a :: l)) with (Z.min (fst a) (lowest l)). rewrite IH. lia.
  Qed.
  Lemma lowest_in l x : In x l -> lowest l <= fst x.
  Proof.
    induction l as [|a l IH]; intros H; [destruct H|]. change (lowest (a :: l)) with (Z.min (fst a) (lowest l)). destruct H as [->|H]; [lia|]. specialize (IH H). lia.
  Qed.
  Lemma lowest_att l : l <> [] -> (forall x, In x l -> fst x <= MAX) -> exists x, In x l /\ lowest l = fst x.
  Proof.
    induction l as [|a l IH]; intros N H; [congruence|]. change (lowest (a :: l)) with (Z.min (fst a) (lowest l)).
    destruct l as [|b l]; [exists a; split; [left; auto|]; specialize (H a (or_introl eq_refl)); unfold lowest; cbn; lia|].
    destruct IH as [x [X1 X2]]; [discriminate|intros x Hx; apply H; right; auto|].
    destruct (Z_le_gt_dec (fst a) (lowest (b :: l))); [exists a; split; [left; auto|lia]|exists x; split; [right; auto|lia]].
  Qed.

  Record R (h : heap) (q : list item) : Prop := {
    r_size : h_size h = Z.of_nat (length q);
    r_last : 0 <= h_last h <= MAX;
    r_keys : forall x, In x q -> h_last h <= fst x <= MAX;
    r_bucket : forall b, h_buckets h b = rev (filter (inb (h_last h) b) q);
    r_flags : forall b, (b < digits)%nat -> Z.testbit (h_flags h) (Z.of_nat b) = nonempty (h_buckets h (S b));
    r_min : forall b, h_min h (S b) = lowest (h_buckets h (S b));
    r_min0 : h_min h 0%nat = MAX \/ h_min h 0%nat = h_last h;
    r_some0 : h_buckets h 0%nat <> [] -> h_min h 0%nat = h_last h }.

  Lemma R_empty : R (heap_empty digits) [].
  Proof. pose proof max_pos. constructor; cbn; auto; try lia; try tauto. intros b Hb. apply Z.bits_0. Qed.

  Lemma flag_spec b c : (b < digits)%nat -> Z.testbit (flag_bit c) (Z.of_nat b) = Nat.eqb c (S b).
  Proof.
    intros Hb. destruct c as [|c]; cbn [flag_bit]; [rewrite Z.bits_0; reflexivity|]. rewrite Z.shiftl_1_l, Z.pow2_bits_eqb by lia.
    cbn [Nat.eqb]. destruct (Nat.eqb_spec c b); [subst; apply Z.eqb_refl|apply Z.eqb_neq; lia].
  Qed.

  (** appending the items of a list to their buckets *)
  Lemma puts_ok l : forall h, 0 <= h_last h <= MAX -> (forall x, In x l -> 0 <= fst x <= MAX) -> (forall b, h_min h b <= MAX) ->
    exists h', forM l (fun xv h => put digits (fst xv) (snd xv) h) h = Ok h' /\ h_size h' = h_size h /\ h_last h' = h_last h /\
      (forall b, h_buckets h' b = h_buckets h b ++ filter (inb (h_last h) b) l) /\
      (forall b, h_min h' b = Z.min (h_min h b) (lowest (filter (inb (h_last h) b) l))) /\
      (forall b, (b < digits)%nat -> Z.testbit (h_flags h') (Z.of_nat b) = Z.testbit (h_flags h) (Z.of_nat b) || nonempty (filter (inb (h_last h) (S b)) l)).
  Proof.
    induction l as [|[x v] l IH]; intros h HL HK HM.
    - exists h. cbn [forM filter]. split; auto. split; auto. split; auto. split; [intros; symmetry; apply app_nil_r|]. split; [|intros; symmetry; apply orb_false_r].
      intros b. specialize (HM b). unfold lowest. cbn. lia.
    - cbn [forM fst snd]. unfold put at 1. specialize (HK (x, v) (or_introl eq_refl)) as Hx. cbn [fst] in Hx.
      assert (BB : (find_bucket x (h_last h) <= digits)%nat) by (apply bucket_bound; unfold key_max in *; lia).
      destruct (Nat.ltb_spec digits (find_bucket x (h_last h))); [lia|]. cbn [bind]. set (k := find_bucket x (h_last h)) in *.
      set (h1 := mkH _ _ _ _ _). destruct (IH h1) as [h' [E [S1 [S2 [S3 [S4 S5]]]]]]; auto.
      { intros y Hy. apply HK. right; auto. }
      { intros b. unfold h1, fset. cbn [h_min]. destruct (Nat.eqb b k); [pose proof (HM k); lia|apply HM]. }
      exists h'. split; [exact E|]. split; [exact S1|]. split; [exact S2|].
      assert (KB : forall b, inb (h_last h) b (x, v) = Nat.eqb k b) by reflexivity.
      split; [|split].
      + intros b. rewrite S3. change (h_last h1) with (h_last h). unfold h1. cbn [h_buckets]. unfold fset. cbn [filter]. rewrite KB.
        destruct (Nat.eqb_spec b k) as [->|N]; [rewrite Nat.eqb_refl, <- app_assoc; reflexivity|].
        destruct (Nat.eqb_spec k b); [congruence|reflexivity].
      + intros b. rewrite S4. change (h_last h1) with (h_last h). unfold h1. cbn [h_min]. unfold fset. cbn [filter]. rewrite KB.
        destruct (Nat.eqb_spec b k) as [->|N]; [rewrite Nat.eqb_refl; change (lowest ((x, v) :: ?l)) with (Z.min x (lowest l)); lia|].
        destruct (Nat.eqb_spec k b); [congruence|reflexivity].
      + intros b Hb. rewrite S5 by auto. change (h_last h1) with (h_last h). unfold h1. cbn [h_flags]. unfold set_non_empty. rewrite Z.lor_spec, flag_spec by auto.
        cbn [filter]. rewrite KB. destruct (Nat.eqb k (S b)); cbn [nonempty]; rewrite ?orb_true_r, ?orb_false_r; reflexivity.
  Qed.

  Lemma push_ok h q x v : R h q -> h_last h <= x <= MAX -> exists h', push digits x v h = Ok h' /\ R h' ((x, v) :: q) /\ h_last h' = h_last h.
  Proof.
    intros H Hx. unfold push. destruct (Z.ltb_spec x (h_last h)); [lia|]. set (h0 := mkH _ _ _ _ _). pose proof (r_last _ _ H) as HL.
    destruct (puts_ok [(x, v)] h0) as [h' [E [S1 [S2 [S3 [S4 S5]]]]]]; auto.
    { intros y [<-|[]]. cbn [fst]. lia. }
    { intros [|b]; unfold h0; cbn [h_min]; [destruct (r_min0 _ _ H); lia|rewrite (r_min _ _ H); apply lowest_le]. }
    change (h_last h0) with (h_last h) in *. cbn [forM fst snd] in E. destruct (put digits x v h0) as [h1| |] eqn:EP; cbn [bind] in E; try discriminate E.
    injection E as ->. exists h'. split; auto. split; [|exact S2].
    constructor.
    - rewrite S1. unfold h0. cbn [h_size length]. rewrite (r_size _ _ H). lia.
    - lia.
    - rewrite S2. intros y [<-|Hy]; [exact Hx|apply (r_keys _ _ H); auto].
    - intros b. rewrite S3, S2. unfold h0. cbn [h_buckets filter]. rewrite (r_bucket _ _ H). destruct (inb (h_last h) b (x, v)); cbn [rev]; [reflexivity|apply app_nil_r].
    - intros b Hb. rewrite S5, S3 by auto. unfold h0. cbn [h_flags h_buckets]. rewrite (r_flags _ _ H) by auto.
      destruct (h_buckets h (S b)); reflexivity.
    - intros b. rewrite S4, S3, lowest_app. unfold h0. cbn [h_min h_buckets]. rewrite (r_min _ _ H). reflexivity.
    - rewrite S4, S2. unfold h0. cbn [h_min filter]. unfold inb. cbn [fst]. destruct (Nat.eqb_spec (find_bucket x (h_last h)) 0) as [E0|E0].
      + apply bucket0 in E0. subst x. change (lowest [(h_last h, v)]) with (Z.min (h_last h) MAX). destruct (r_min0 _ _ H) as [-> | ->]; right; lia.
      + unfold lowest. cbn [map fold_right]. destruct (r_min0 _ _ H) as [-> | ->]; [left|right]; lia.
    - rewrite S3, S4, S2. unfold h0. cbn [h_min h_buckets filter]. unfold inb. cbn [fst]. destruct (Nat.eqb_spec (find_bucket x (h_last h)) 0) as [E0|E0].
      + intros _. apply bucket0 in E0. subst x. change (lowest [(h_last h, v)]) with (Z.min (h_last h) MAX). destruct (r_min0 _ _ H) as [-> | ->]; lia.
      + rewrite app_nil_r. intros NB. rewrite (r_some0 _ _ H NB). unfold lowest. cbn [map fold_right]. lia.
  Qed.

  Lemma ffs_spec flags : forall fuel i, 
    (exists j, (i <= j < i + fuel)%nat /\ Z.testbit flags (Z.of_nat j) = true /\ ffs_from fuel i flags = S j /\ (forall k, (i <= k < j)%nat -> Z.testbit flags (Z.of_nat k) = false)) \/
    (ffs_from fuel i flags = 0%nat /\ forall k, (i <= k < i + fuel)%nat -> Z.testbit flags (Z.of_nat k) = false).
  Proof.
    induction fuel as [|f IH]; intros i; cbn [ffs_from]; [right; split; [reflexivity|intros; lia]|].
    destruct (Z.testbit flags (Z.of_nat i)) eqn:E.
    - left. exists i. split; [lia|]. split; auto. split; auto. intros; lia.
    - destruct (IH (S i)) as [[j [A [B [C D]]]]|[A B]].
      + left. exists j. split; [lia|]. split; auto. split; auto. intros k Hk. destruct (Nat.eq_dec k i) as [->|]; auto. apply D. lia.
      + right. split; auto. intros k Hk. destruct (Nat.eq_dec k i) as [->|]; auto. apply B. lia.
  Qed.

  Lemma in_bucket h q x : R h q -> In x q -> In x (h_buckets h (find_bucket (fst x) (h_last h))).
  Proof. intros H Hx. rewrite (r_bucket _ _ H). apply in_rev. rewrite rev_involutive. apply filter_In. split; auto. unfold inb. apply Nat.eqb_refl. Qed.
  Lemma of_bucket h q x b : R h q -> In x (h_buckets h b) -> In x q /\ find_bucket (fst x) (h_last h) = b.
  Proof. intros H Hx. rewrite (r_bucket _ _ H) in Hx. apply in_rev in Hx. apply filter_In in Hx. destruct Hx as [A B]. apply Nat.eqb_eq in B. auto. Qed.

  (** the lowest non-empty bucket *)
  Lemma first_bucket h q : R h q -> q <> [] -> h_buckets h 0%nat = [] ->
    exists i, ffs digits (h_flags h) = S i /\ (i < digits)%nat /\ h_buckets h (S i) <> [] /\ forall b, (b < S i)%nat -> h_buckets h b = [].
  Proof.
    intros H NE E0. unfold ffs. destruct (ffs_spec (h_flags h) digits 0) as [[i [A [B [C D]]]]|[A B]].
    - exists i. split; auto. split; [lia|]. rewrite (r_flags _ _ H) in B by lia. split; [destruct (h_buckets h (S i)); [discriminate|congruence]|].
      intros [|b] Hb; [exact E0|]. specialize (D b ltac:(lia)). rewrite (r_flags _ _ H) in D by lia. destruct (h_buckets h (S b)); [auto|discriminate D].
    - exfalso. destruct q as [|x q]; [congruence|]. pose proof (in_bucket _ _ x H (or_introl eq_refl)) as I. pose proof (r_keys _ _ H x (or_introl eq_refl)) as K.
      pose proof (r_last _ _ H). assert (BB : (find_bucket (fst x) (h_last h) <= digits)%nat) by (apply bucket_bound; unfold key_max in *; lia).
      destruct (find_bucket (fst x) (h_last h)) as [|b] eqn:Eb; [rewrite E0 in I; destruct I|]. specialize (B b ltac:(lia)). rewrite (r_flags _ _ H) in B by lia.
      destruct (h_buckets h (S b)); [destruct I|discriminate B].
  Qed.

  Definition is_min (z : Z) (q : list item) : Prop := (exists x, In x q /\ fst x = z) /\ forall y, In y q -> z <= fst y.

  Lemma pull_ok h q : R h q -> q <> [] -> exists h', pull digits h = Ok h' /\ R h' q /\ h_buckets h' 0%nat <> [] /\ is_min (h_last h') q.
  Proof.
    intros H NE. unfold pull. assert (SZ : 0 < h_size h) by (rewrite (r_size _ _ H); destruct q; [congruence|cbn [length]; lia]).
    destruct (Z.leb_spec (h_size h) 0); [lia|].
    destruct (h_buckets h 0%nat) as [|x0 l0] eqn:E0.
    2: { exists h. split; auto. split; auto. split; [rewrite E0; discriminate|]. split.
         - destruct (of_bucket h q x0 0 H) as [A B]; [rewrite E0; left; auto|]. apply bucket0 in B. eauto.
         - intros y Hy. apply (r_keys _ _ H); auto. }
    destruct (first_bucket h q H NE E0) as [i [EF [Hi [NB LB]]]]. rewrite EF. cbn [Nat.eqb].
    set (m0 := fset (h_min h) 0 MAX). assert (M0 : m0 (S i) = h_min h (S i)) by reflexivity. rewrite M0, (r_min _ _ H).
    pose proof (r_last _ _ H) as HL.
    assert (KB : forall x, In x (h_buckets h (S i)) -> In x q /\ find_bucket (fst x) (h_last h) = S i /\ h_last h <= fst x <= MAX).
    { intros x Hx. destruct (of_bucket _ _ _ _ H Hx). split; auto. split; auto. apply (r_keys _ _ H); auto. }
    destruct (lowest_att (h_buckets h (S i)) NB) as [xm [Xi Xl]]; [intros x Hx; apply KB; auto|].
    set (L := lowest (h_buckets h (S i))) in *. destruct (KB xm Xi) as [Xq [Xb Xk]]. rewrite <- Xl in Xb, Xk.
    set (h0 := mkH _ _ _ _ _).
    destruct (puts_ok (h_buckets h (S i)) h0) as [h1 [E [S1 [S2 [S3 [S4 S5]]]]]].
    { unfold h0. cbn [h_last]. lia. }
    { intros x Hx. apply KB in Hx. lia. }
    { unfold h0, m0. cbn [h_min]. intros b. unfold fset. destruct b as [|b]; cbn [Nat.eqb]; [lia|]. rewrite (r_min _ _ H). apply lowest_le. }
    rewrite E. cbn [bind]. change (h_last h0) with L in *.
    assert (LOW : forall x, In x (h_buckets h (S i)) -> (find_bucket (fst x) L < S i)%nat).
    { intros x Hx. destruct (KB x Hx) as [_ [B1 B2]]. rewrite <- B1. apply bucket_lower; try lia. intros Ex. rewrite (proj2 (bucket0 _ _) Ex) in B1. discriminate B1. }
    assert (GE : forall x, In x q -> (S i <= find_bucket (fst x) (h_last h))%nat).
    { intros x Hx. destruct (le_lt_dec (S i) (find_bucket (fst x) (h_last h))) as [|Lt]; auto. exfalso. pose proof (in_bucket _ _ x H Hx) as I. rewrite LB in I by auto. destruct I. }
    assert (MIN : is_min L q).
    { split; [exists xm; auto|]. intros y Hy. pose proof (GE y Hy) as G. pose proof (r_keys _ _ H y Hy) as Ky.
      destruct (Nat.eq_dec (find_bucket (fst y) (h_last h)) (S i)) as [Eq|Ne].
      - apply lowest_in. rewrite <- Eq. exact (in_bucket h q y H Hy).
      - assert (L < fst y); [|lia]. apply (bucket_order L (fst y) (h_last h)); lia. }
    assert (UP : forall x, In x q -> find_bucket (fst x) (h_last h) <> S i -> find_bucket (fst x) L = find_bucket (fst x) (h_last h)).
    { intros x Hx N. pose proof (GE x Hx). pose proof (r_keys _ _ H x Hx). apply bucket_stable; lia. }
    set (h' := mkH _ _ _ _ _).
    assert (BK : forall b, h_buckets h' b = rev (filter (inb L b) q)).
    { intros b. unfold h'. cbn [h_buckets]. unfold fset. destruct (Nat.eqb_spec b (S i)) as [->|Nb].
      - rewrite filter_none; [reflexivity|]. intros x Hx. unfold inb. apply Nat.eqb_neq. intros Eb.
        destruct (Nat.eq_dec (find_bucket (fst x) (h_last h)) (S i)) as [Eq|Ne].
        + pose proof (in_bucket _ _ x H Hx) as I. rewrite Eq in I. apply LOW in I. lia.
        + rewrite UP in Eb by auto. contradiction.
      - rewrite S3. unfold h0. cbn [h_buckets]. rewrite !(r_bucket _ _ H), filter_rev', <- rev_app_distr. f_equal.
        rewrite filter_filter'. destruct (le_lt_dec b (S i)) as [Lb|Lb].
        + assert (X : filter (inb (h_last h) b) q = []).
          { apply filter_none. intros x Hx. unfold inb. apply Nat.eqb_neq. pose proof (GE x Hx). lia. }
          rewrite X, app_nil_r. apply filter_ext_in. intros x Hx. unfold inb. destruct (Nat.eqb_spec (find_bucket (fst x) (h_last h)) (S i)) as [Eq|Ne]; cbn [andb]; [reflexivity|].
          rewrite (UP x Hx Ne). symmetry. apply Nat.eqb_neq. pose proof (GE x Hx). lia.
        + rewrite filter_none; [cbn [app]; apply filter_ext_in|].
          * intros x Hx. unfold inb. destruct (Nat.eq_dec (find_bucket (fst x) (h_last h)) (S i)) as [Eq|Ne]; [|rewrite UP; auto].
            pose proof (in_bucket _ _ x H Hx) as I. rewrite Eq in I. apply LOW in I. rewrite Eq. destruct (Nat.eqb_spec (S i) b), (Nat.eqb_spec (find_bucket (fst x) L) b); auto; lia.
          * intros x Hx. unfold inb. destruct (Nat.eqb_spec (find_bucket (fst x) (h_last h)) (S i)) as [Eq|Ne]; cbn [andb]; [|reflexivity].
            pose proof (in_bucket _ _ x H Hx) as I. rewrite Eq in I. apply LOW in I. apply Nat.eqb_neq. lia. }
    assert (MIN0 : h_min h' 0%nat = h_last h').
    { unfold h'. cbn [h_min h_last]. unfold fset. cbn [Nat.eqb]. rewrite S4, S2. unfold h0, m0. cbn [h_min]. unfold fset. cbn [Nat.eqb].
        set (F := filter (inb L 0) (h_buckets h (S i))). assert (IN : In xm F) by (apply filter_In; split; auto; unfold inb; apply Nat.eqb_eq, bucket0; auto).
        pose proof (lowest_in F xm IN). pose proof (lowest_le F). destruct (lowest_att F) as [y [Y1 Y2]]; [intros X; rewrite X in IN; destruct IN|intros x Hx; apply filter_In in Hx; apply KB; tauto|].
        apply filter_In in Y1. destruct Y1 as [_ Y1]. unfold inb in Y1. apply Nat.eqb_eq, bucket0 in Y1. lia. }
    exists h'. split; [reflexivity|]. split; [|split].
    - constructor.
      + unfold h'. cbn [h_size]. rewrite S1. apply (r_size _ _ H).
      + unfold h'. cbn [h_last]. rewrite S2. lia.
      + unfold h'. cbn [h_last]. rewrite S2. intros x Hx. split; [apply MIN; auto|apply (r_keys _ _ H); auto].
      + intros b. rewrite BK. unfold h'. cbn [h_last]. rewrite S2. reflexivity.
      + intros b Hb. unfold h'. cbn [h_flags h_buckets]. unfold set_empty. rewrite Z.ldiff_spec, flag_spec, S5 by auto. unfold fset.
        destruct (Nat.eqb_spec (S b) (S i)) as [Eq|Ne].
        * injection Eq as ->. cbn [Nat.eqb]. rewrite Nat.eqb_refl. cbn. apply andb_false_r.
        * destruct (Nat.eqb_spec (S i) (S b)); [lia|]. cbn [negb]. rewrite andb_true_r, S3. unfold h0. cbn [h_flags h_buckets]. rewrite (r_flags _ _ H) by auto.
          destruct (h_buckets h (S b)); reflexivity.
      + intros b. unfold h'. cbn [h_min h_buckets]. unfold fset. destruct (Nat.eqb_spec (S b) (S i)) as [Eq|Ne]; [reflexivity|].
        rewrite S4, S3, lowest_app. unfold h0, m0. cbn [h_min h_buckets]. unfold fset. cbn [Nat.eqb]. rewrite (r_min _ _ H). reflexivity.
      + right. exact MIN0.
      + intros _. exact MIN0.
    - rewrite BK. intros X. assert (I : In xm (rev (filter (inb L 0) q))); [|rewrite X in I; destruct I].
      apply in_rev. rewrite rev_involutive. apply filter_In. split; auto. unfold inb. apply Nat.eqb_eq, bucket0. auto.
    - unfold h'. cbn [h_last]. rewrite S2. exact MIN.
  Qed.

  Lemma newest_of h q : R h q -> h_buckets h 0%nat <> [] -> exists x r q', rev (h_buckets h 0%nat) = x :: r /\ fst x = h_last h /\ newest_lowest q x q' /\
    R (mkH (h_size h - 1) (h_last h) (fset (h_buckets h) 0 (rev r)) (h_min h) (h_flags h)) q'.
  Proof.
    intros H NB. rewrite (r_bucket _ _ H 0%nat) in *. rewrite rev_involutive in *.
    destruct (filter (inb (h_last h) 0) q) as [|x r] eqn:E; [cbn in NB; congruence|].
    destruct (filter_head _ _ _ _ E) as [a [b [Q [Px [Pa Pb]]]]]. unfold inb in Px. apply Nat.eqb_eq, bucket0 in Px.
    exists x, r, (a ++ b). split; auto. split; auto. split.
    - exists a, b. split; auto. split; auto. split; [intros y Hy; rewrite Px; apply (r_keys _ _ H); auto|].
      intros y Hy. assert (h_last h <= fst y) by (apply (r_keys _ _ H); rewrite Q; apply in_or_app; auto). specialize (Pa y Hy). unfold inb in Pa. apply Nat.eqb_neq in Pa.
      assert (fst y <> h_last h) by (intros X; apply Pa, bucket0, X). lia.
    - assert (IN : forall y, In y (a ++ b) -> In y q) by (intros y Hy; rewrite Q; apply in_app_or in Hy; apply in_or_app; cbn; tauto).
      constructor; cbn [h_size h_last h_buckets h_min h_flags].
      + rewrite (r_size _ _ H), Q, !app_length. cbn [length]. lia.
      + apply (r_last _ _ H).
      + intros y Hy. apply (r_keys _ _ H); auto.
      + intros c. unfold fset. rewrite filter_app. destruct (Nat.eqb_spec c 0) as [->|N].
        * rewrite Pb, (filter_none _ a Pa). reflexivity.
        * rewrite (r_bucket _ _ H), Q, filter_app. cbn [filter]. unfold inb at 2. rewrite (proj2 (bucket0 _ _) Px). destruct c; [congruence|reflexivity].
      + intros c Hc. rewrite (r_flags _ _ H) by auto. reflexivity.
      + intros c. rewrite (r_min _ _ H). reflexivity.
      + apply (r_min0 _ _ H).
      + intros _. apply (r_some0 _ _ H). rewrite (r_bucket _ _ H), E. cbn [rev]. destruct (rev r); discriminate.
  Qed.
  Lemma group_of h q : R h q -> h_buckets h 0%nat <> [] -> exists q', lowest_group q (h_buckets h 0%nat) q' /\
    R (mkH (h_size h - Z.of_nat (length (h_buckets h 0%nat))) (h_last h) (fset (h_buckets h) 0 []) (h_min h) (h_flags h)) q'.
  Proof.
    intros H NB. set (P := fun y : item => fst y =? h_last h).
    assert (PE : forall y, inb (h_last h) 0 y = P y).
    { intros y. unfold inb, P. destruct (Z.eqb_spec (fst y) (h_last h)) as [E|E]; [apply Nat.eqb_eq, bucket0, E|apply Nat.eqb_neq; intros X; apply bucket0 in X; contradiction]. }
    assert (B0 : h_buckets h 0%nat = rev (filter P q)) by (rewrite (r_bucket _ _ H); f_equal; apply filter_ext, PE).
    exists (filter (fun y => negb (P y)) q). split.
    - exists (h_last h). split; auto. split; auto. split; auto. intros y Hy. apply (r_keys _ _ H); auto.
    - constructor; cbn [h_size h_last h_buckets h_min h_flags].
      + rewrite (r_size _ _ H), B0, rev_length. assert (X : length q = (length (filter P q) + length (filter (fun y => negb (P y)) q))%nat); [|lia].
        clear. induction q as [|a q IH]; cbn [filter length]; [reflexivity|]. destruct (P a); cbn [negb length]; lia.
      + apply (r_last _ _ H).
      + intros y Hy. apply filter_In in Hy. apply (r_keys _ _ H); tauto.
      + intros c. unfold fset. destruct (Nat.eqb_spec c 0) as [->|N].
        * rewrite filter_none; [reflexivity|]. intros y Hy. apply filter_In in Hy. rewrite PE. destruct (P y); [destruct Hy; discriminate|reflexivity].
        * rewrite (r_bucket _ _ H), filter_filter'. f_equal. apply filter_ext. intros y. rewrite <- PE. unfold inb.
          destruct (Nat.eqb_spec (find_bucket (fst y) (h_last h)) c), (Nat.eqb_spec (find_bucket (fst y) (h_last h)) 0); cbn; auto; lia.
      + intros c Hc. rewrite (r_flags _ _ H) by auto. reflexivity.
      + intros c. rewrite (r_min _ _ H). reflexivity.
      + apply (r_min0 _ _ H).
      + unfold fset. cbn [Nat.eqb]. congruence.
  Qed.
  Lemma newest_exists (q : list item) : q <> [] -> exists x q', newest_lowest q x q'.
  Proof.
    intros NE. induction q as [|a q IH]; [congruence|]. destruct q as [|b q].
    - exists a, []. exists [], []. split; auto. split; auto. split; [intros y [<-|[]]; lia|intros y []].
    - destruct IH as [x [q' [l [r [A [B [C D]]]]]]]; [discriminate|]. destruct (Z_le_gt_dec (fst a) (fst x)) as [L|G].
      + exists a, (b :: q). exists [], (b :: q). split; auto. split; auto. split; [|intros y []]. intros y [<-|Hy]; [lia|]. specialize (C y Hy). lia.
      + exists x, (a :: q'). exists (a :: l), r. split; [cbn; f_equal; auto|]. split; [cbn; f_equal; auto|]. split; [intros y [<-|Hy]; [lia|auto]|intros y [<-|Hy]; [lia|auto]].
  Qed.
  Lemma min_ok h q x q' : R h q -> newest_lowest q x q' -> min_key digits h = Ok (fst x).
  Proof.
    intros H [a [b [Q [_ [MN _]]]]]. assert (NE : q <> []) by (rewrite Q; destruct a; discriminate). assert (Xq : In x q) by (rewrite Q; apply in_or_app; right; left; auto).
    unfold min_key. assert (SZ : 0 < h_size h) by (rewrite (r_size _ _ H); destruct q; [congruence|cbn [length]; lia]).
    destruct (Z.leb_spec (h_size h) 0); [lia|]. pose proof (r_last _ _ H) as HL.
    destruct (h_buckets h 0%nat) as [|x0 l0] eqn:E0.
    - destruct (first_bucket h q H NE E0) as [i [EF [Hi [NB LB]]]]. rewrite EF, (r_min _ _ H).
      destruct (lowest_att (h_buckets h (S i)) NB) as [y [Y1 Y2]]; [intros y Hy; destruct (of_bucket _ _ _ _ H Hy); apply (r_keys _ _ H); auto|].
      destruct (of_bucket _ _ _ _ H Y1) as [Yq Yb]. assert (E : lowest (h_buckets h (S i)) = fst x).
      { pose proof (MN y Yq). assert (lowest (h_buckets h (S i)) <= fst x); [|lia].
        pose proof (in_bucket h q x H Xq) as I. destruct (Nat.eq_dec (find_bucket (fst x) (h_last h)) (S i)) as [E|N]; [rewrite E in I; apply lowest_in; auto|].
        rewrite Y2. pose proof (r_keys _ _ H y Yq). pose proof (r_keys _ _ H x Xq).
        destruct (le_lt_dec (find_bucket (fst x) (h_last h)) (S i)) as [Le|Gt]; [rewrite LB in I by lia; destruct I|].
        assert (fst y < fst x); [|lia]. apply (bucket_order _ _ (h_last h)); lia. }
      rewrite E. pose proof (r_keys _ _ H x Xq). destruct (Z.ltb_spec (fst x) (h_last h)); [lia|reflexivity].
    - assert (I0 : In x0 q /\ find_bucket (fst x0) (h_last h) = 0%nat) by (apply (of_bucket h q x0 0 H); rewrite E0; left; auto). destruct I0 as [I0 B0]. apply bucket0 in B0.
      pose proof (MN x0 I0). pose proof (r_keys _ _ H x Xq).
      rewrite (r_some0 _ _ H) by (rewrite E0; discriminate). rewrite Z.ltb_irrefl. f_equal. lia.
  Qed.

  (** ** Histories *)
  Definition apply_op (o : op V) (h : heap) : res (out V * heap) :=
    match o with
    | Push k v => do h1 <- push digits k v h; Ok (Nothing, h1)
    | Top => do r <- top_key digits h; do r2 <- top_value digits (snd r); Ok (Item (fst r) (fst r2), snd r2)
    | Pop => do h1 <- pop digits h; Ok (Nothing, h1)
    | Min => do k <- min_key digits h; Ok (Key k, h)
    | TopValues => do r <- top_values digits h; Ok (Items (fst r), snd r)
    | Extract => do r <- extract_top_values digits h; Ok (Items (fst r), snd r)
    | Clear => Ok (Nothing, heap_empty digits)
    end.
  Fixpoint run (os : list (op V)) (h : heap) : res (list (out V)) :=
    match os with
    | [] => Ok []
    | o :: os' => do r <- apply_op o h; do us <- run os' (snd r); Ok (fst r :: us)
    end.

  Definition fits (o : op V) : Prop := match o with Push k _ => 0 <= k <= MAX | _ => True end.

  Lemma pull_stays (h : heap) : h_buckets h 0%nat <> [] -> 0 < h_size h -> pull digits h = Ok h.
  Proof. intros N S. unfold pull. destruct (Z.leb_spec (h_size h) 0); [lia|]. destruct (h_buckets h 0%nat); [congruence|reflexivity]. Qed.
  Lemma size_pos h q : R h q -> q <> [] -> 0 < h_size h.
  Proof. intros H N. rewrite (r_size _ _ H). destruct q; [congruence|cbn [length]; lia]. Qed.
  Lemma pull_empty h : R h [] -> pull digits h = Undef.
  Proof. intros H. unfold pull. rewrite (r_size _ _ H). reflexivity. Qed.

  Lemma apply_ok o h q : R h q -> fits o -> ~ misuse (q, h_last h) o -> exists u h' q', apply_op o h = Ok (u, h') /\ R h' q' /\ serve (q, h_last h) o u (q', h_last h').
  Proof.
    intros H F NM.
    assert (DEC : q = [] \/ q <> []) by (destruct q; [left; auto|right; discriminate]).
    assert (NE : q <> [] -> exists h1 x r q', pull digits h = Ok h1 /\ R h1 q /\ pull digits h1 = Ok h1 /\ rev (h_buckets h1 0%nat) = x :: r /\ fst x = h_last h1 /\ newest_lowest q x q' /\
       R (mkH (h_size h1 - 1) (h_last h1) (fset (h_buckets h1) 0 (rev r)) (h_min h1) (h_flags h1)) q' /\ h_buckets h1 0%nat <> []).
    { intros N. destruct (pull_ok h q H N) as [h1 [E [R1 [B1 _]]]]. destruct (newest_of h1 q R1 B1) as [x [r [q' [X1 [X2 [X3 X4]]]]]].
      exists h1, x, r, q'. split; auto. split; auto. split; [apply pull_stays; auto; eapply size_pos; eauto|]. auto 10. }
    destruct o as [k v| | | | | |]; cbn [misuse fst snd] in NM; cbn [fits] in F; cbn [apply_op].
    - destruct (push_ok h q k v H) as [h1 [E [R1 E1]]]; [lia|]. rewrite E. exists Nothing, h1, ((k, v) :: q). split; auto. split; auto. rewrite E1. constructor. lia.
    - destruct (NE NM) as [h1 [x [r [q' [P1 [R1 [P2 [X1 [X2 [X3 _]]]]]]]]]]. unfold top_key, top_value. rewrite P1. cbn [bind fst snd]. rewrite P2. cbn [bind]. rewrite X1. cbn [bind fst snd].
      exists (Item (h_last h1) (snd x)), h1, q. split; auto. split; auto. rewrite <- X2. econstructor; eauto.
    - destruct (NE NM) as [h1 [x [r [q' [P1 [R1 [P2 [X1 [X2 [X3 [X4 _]]]]]]]]]]]. unfold pop. rewrite P1. cbn [bind]. rewrite X1. cbn [bind fst snd].
      eexists Nothing, _, q'. split; [reflexivity|]. split; [exact X4|]. cbn [h_last]. rewrite <- X2. econstructor; eauto.
    - destruct (newest_exists q NM) as [x [q' X]]. rewrite (min_ok h q x q' H X). cbn [bind]. exists (Key (fst x)), h, q. split; auto. split; auto. econstructor; eauto.
    - destruct (NE NM) as [h1 [x [r [q' [P1 [R1 [P2 [X1 [X2 [X3 [X4 X5]]]]]]]]]]]. unfold top_values. rewrite P1. cbn [bind fst snd].
      destruct (group_of h1 q R1 X5) as [q2 [G _]]. eexists (Items _), h1, q. split; [reflexivity|]. split; auto. rewrite <- X2. econstructor; eauto.
    - destruct (NE NM) as [h1 [x [r [q' [P1 [R1 [P2 [X1 [X2 [X3 [X4 X5]]]]]]]]]]]. unfold extract_top_values. rewrite P1. cbn [bind fst snd].
      destruct (group_of h1 q R1 X5) as [q2 [G R2]]. eexists (Items _), _, q2. split; [reflexivity|]. split; [exact R2|]. cbn [h_last]. rewrite <- X2. econstructor; eauto.
    - exists Nothing, (heap_empty digits), []. split; auto. split; [apply R_empty|constructor].
  Qed.
  Lemma apply_misuse o h q : R h q -> misuse (q, h_last h) o -> apply_op o h = Undef.
  Proof.
    intros H M. assert (PE : q = [] -> pull digits h = Undef) by (intros ->; apply pull_empty; auto).
    destruct o; cbn [misuse fst snd] in M; cbn [apply_op]; unfold top_key, top_value, pop, top_values, extract_top_values; try (rewrite (PE M); reflexivity); [|subst q|destruct M].
    - unfold push. destruct (Z.ltb_spec k (h_last h)); [reflexivity|lia].
    - unfold min_key. rewrite (r_size _ _ H). reflexivity.
  Qed.
  Lemma misuse_dec (s : list item * Z) (o : op V) : misuse s o \/ ~ misuse s o.
  Proof. destruct o; cbn [misuse]; try (destruct (fst s); [left; reflexivity|right; discriminate]); [lia|tauto]. Qed.

  Lemma run_ok : forall os h q, R h q -> Forall fits os ->
    (exists us s', run os h = Ok us /\ served (q, h_last h) os us s') \/
    (run os h = Undef /\ exists os1 o os2 us s', os = os1 ++ o :: os2 /\ served (q, h_last h) os1 us s' /\ misuse s' o).
  Proof.
    induction os as [|o os IH]; intros h q H F.
    - left. exists [], (q, h_last h). split; [reflexivity|constructor].
    - inversion F as [|? ? F1 F2]; subst. cbn [run]. destruct (misuse_dec (q, h_last h) o) as [M|M].
      + right. rewrite (apply_misuse o h q H M). split; [reflexivity|]. exists [], o, os, [], (q, h_last h). split; auto. split; [constructor|auto].
      + destruct (apply_ok o h q H F1 M) as [u [h' [q' [E [R' S]]]]]. rewrite E. cbn [bind fst snd].
        destruct (IH h' q' R' F2) as [[us [s' [E' S']]]|[E' [os1 [o' [os2 [us [s' [A [B C]]]]]]]]]; rewrite E'; cbn [bind].
        * left. exists (u :: us), s'. split; auto. econstructor; eauto.
        * right. split; auto. exists (o :: os1), o', os2, (u :: us), s'. split; [rewrite A; reflexivity|]. split; [econstructor; eauto|auto].
  Qed.
End Proofs.
