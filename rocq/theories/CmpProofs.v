From Coq Require Import ZArith List Lia Bool Sorted.
From Verif Require Import Base CmpModel CmpSpec.
Open Scope Z_scope.

Lemma cell_ops a b :
  (cell_lt a b = true <-> ecompare a b = Lt) /\ (cell_gt a b = true <-> ecompare a b = Gt) /\
  (cell_eq a b = true <-> ecompare a b = Eq) /\ (cell_ne a b = true <-> ecompare a b <> Eq) /\
  (cell_le a b = true <-> ecompare a b <> Gt) /\ (cell_ge a b = true <-> ecompare a b <> Lt).
Proof.
  destruct a as [x|], b as [y|]; cbn; unfold flt, fgt, fle, fge, feq, fne, flift; cbn.
  - rewrite Z.gtb_ltb, Z.geb_leb. 
    destruct (Z.compare_spec x y); destruct (Z.ltb_spec x y), (Z.ltb_spec y x), (Z.leb_spec x y), (Z.leb_spec y x), (Z.eqb_spec x y);
      try lia; cbn; intuition congruence.
  - intuition congruence.
  - intuition congruence.
  - intuition congruence.
Qed.

Lemma ecompare_antisym a b : ecompare b a = CompOpp (ecompare a b).
Proof. destruct a, b; cbn; auto. apply Z.compare_antisym. Qed.
Lemma ecompare_trans a b c r : ecompare a b = r -> ecompare b c = r -> ecompare a c = r.
Proof.
  destruct a as [x|], b as [y|], c as [z|]; cbn; try congruence.
  destruct r; rewrite ?Z.compare_eq_iff, ?Z.compare_lt_iff, ?Z.compare_gt_iff; lia.
Qed.

(** The queue comparators are the strict lexicographic order on (elevation, number). *)
Lemma low_gt_spec a b : low_gt a b = true <->
  ecompare (zk_z a) (zk_z b) = Gt \/ (ecompare (zk_z a) (zk_z b) = Eq /\ zk_k a > zk_k b).
Proof.
  unfold low_gt. destruct (zk_z a) as [x|], (zk_z b) as [y|]; cbn; unfold fgt, feq, flift;
    rewrite ?orb_false_r, ?orb_true_iff, ?andb_true_iff, ?Z.gtb_ltb, ?Z.ltb_lt, ?Z.eqb_eq, ?Z.compare_gt_iff, ?Z.compare_eq_iff; intuition (try congruence; try lia).
Qed.
Lemma high_gt_spec a b : high_gt a b = true <->
  ecompare (zk_z a) (zk_z b) = Gt \/ (ecompare (zk_z a) (zk_z b) = Eq /\ zk_k a < zk_k b).
Proof.
  unfold high_gt. destruct (zk_z a) as [x|], (zk_z b) as [y|]; cbn; unfold fgt, feq, flift;
    rewrite ?orb_false_r, ?orb_true_iff, ?andb_true_iff, ?Z.gtb_ltb, ?Z.ltb_lt, ?Z.eqb_eq, ?Z.compare_gt_iff, ?Z.compare_eq_iff; intuition (try congruence; try lia).
Qed.

Lemma gt_total gt : gt = low_gt \/ gt = high_gt ->
  (forall a b, gt a b = false \/ gt b a = false) /\
  (forall a b c, gt a b = false -> gt b c = false -> gt a c = false) /\
  (forall a b, gt a b = false -> gt b a = false -> zk_k a = zk_k b).
Proof.
  assert (NF : forall b : bool, b = false <-> ~ b = true) by (intros []; intuition congruence).
  intros [-> | ->].
  - repeat split; intros *; rewrite ?NF, ?low_gt_spec.
    + rewrite (ecompare_antisym (zk_z a)). destruct (ecompare (zk_z a) (zk_z b)); cbn; [|left; intuition congruence|right; intuition congruence].
      destruct (Z_le_gt_dec (zk_k a) (zk_k b)); [left|right]; intros [H|[_ H]]; try congruence; lia.
    + intros H1 H2. destruct (ecompare (zk_z a) (zk_z c)) eqn:E.
      * intros [H|[_ H]]; [congruence|].
        destruct (ecompare (zk_z a) (zk_z b)) eqn:E1; [|apply H2; left|apply H1; auto].
        -- assert (E2 : ecompare (zk_z b) (zk_z c) = Eq). { eapply ecompare_trans; [|exact E]. rewrite (ecompare_antisym (zk_z a)), E1. auto. }
           rewrite E2 in H2. destruct (Z_le_gt_dec (zk_k a) (zk_k b)); [|apply H1; auto]. apply H2. right. split; auto. lia.
        -- destruct (ecompare (zk_z b) (zk_z c)) eqn:E2; auto.
           ++ exfalso. assert (ecompare (zk_z a) (zk_z b) = Eq). { eapply ecompare_trans; [exact E|]. rewrite (ecompare_antisym (zk_z b)), E2. auto. } congruence.
           ++ exfalso. assert (ecompare (zk_z a) (zk_z c) = Lt) by (eapply ecompare_trans; eauto). congruence.
      * intuition congruence.
      * intros _. destruct (ecompare (zk_z a) (zk_z b)) eqn:E1; [| |tauto].
        -- apply H2. left. destruct (ecompare (zk_z b) (zk_z c)) eqn:E2; auto.
           ++ assert (ecompare (zk_z a) (zk_z c) = Eq) by (eapply ecompare_trans; eauto). congruence.
           ++ assert (ecompare (zk_z a) (zk_z b) = Gt). { eapply ecompare_trans; [exact E|]. rewrite (ecompare_antisym (zk_z b)), E2. auto. } congruence.
        -- apply H2. left. eapply ecompare_trans; [|exact E]. rewrite (ecompare_antisym (zk_z a)), E1. auto.
    + rewrite (ecompare_antisym (zk_z a)). intros H1 H2. destruct (ecompare (zk_z a) (zk_z b)); cbn in *; try tauto.
      destruct (Z.lt_trichotomy (zk_k a) (zk_k b)) as [|[|]]; auto; [exfalso; apply H2|exfalso; apply H1]; right; split; auto; lia.
  - repeat split; intros *; rewrite ?NF, ?high_gt_spec.
    + rewrite (ecompare_antisym (zk_z a)). destruct (ecompare (zk_z a) (zk_z b)); cbn; [|left; intuition congruence|right; intuition congruence].
      destruct (Z_lt_ge_dec (zk_k a) (zk_k b)); [right|left]; intros [H|[_ H]]; try congruence; lia.
    + intros H1 H2. destruct (ecompare (zk_z a) (zk_z c)) eqn:E.
      * intros [H|[_ H]]; [congruence|].
        destruct (ecompare (zk_z a) (zk_z b)) eqn:E1; [|apply H2; left|apply H1; auto].
        -- assert (E2 : ecompare (zk_z b) (zk_z c) = Eq). { eapply ecompare_trans; [|exact E]. rewrite (ecompare_antisym (zk_z a)), E1. auto. }
           rewrite E2 in H2. destruct (Z_lt_ge_dec (zk_k a) (zk_k b)); [apply H1; auto|]. apply H2. right. split; auto. lia.
        -- destruct (ecompare (zk_z b) (zk_z c)) eqn:E2; auto.
           ++ exfalso. assert (ecompare (zk_z a) (zk_z b) = Eq). { eapply ecompare_trans; [exact E|]. rewrite (ecompare_antisym (zk_z b)), E2. auto. } congruence.
           ++ exfalso. assert (ecompare (zk_z a) (zk_z c) = Lt) by (eapply ecompare_trans; eauto). congruence.
      * intuition congruence.
      * intros _. destruct (ecompare (zk_z a) (zk_z b)) eqn:E1; [| |tauto].
        -- apply H2. left. destruct (ecompare (zk_z b) (zk_z c)) eqn:E2; auto.
           ++ assert (ecompare (zk_z a) (zk_z c) = Eq) by (eapply ecompare_trans; eauto). congruence.
           ++ assert (ecompare (zk_z a) (zk_z b) = Gt). { eapply ecompare_trans; [exact E|]. rewrite (ecompare_antisym (zk_z b)), E2. auto. } congruence.
        -- apply H2. left. eapply ecompare_trans; [|exact E]. rewrite (ecompare_antisym (zk_z a)), E1. auto.
    + rewrite (ecompare_antisym (zk_z a)). intros H1 H2. destruct (ecompare (zk_z a) (zk_z b)); cbn in *; try tauto.
      destruct (Z.lt_trichotomy (zk_k a) (zk_k b)) as [|[|]]; auto; [exfalso; apply H1|exfalso; apply H2]; right; split; auto; lia.
Qed.

Definition strip (a : zk) : entry := (zk_x a, zk_y a, zk_z a).
Definition klt (a b : zk) : Prop := zk_k a < zk_k b.

Lemma take_first_strip l : take_first snd (map strip l) = option_map (fun p => (strip (fst p), map strip (snd p))) (take_first zk_z l).
Proof.
  induction l as [|a l IH]; cbn; auto. rewrite IH. destruct (take_first zk_z l) as [[m r]|]; cbn; auto.
  destruct (lower (zk_z m) (zk_z a)); auto.
Qed.
Lemma take_last_strip l : take_last snd (map strip l) = option_map (fun p => (strip (fst p), map strip (snd p))) (take_last zk_z l).
Proof.
  induction l as [|a l IH]; cbn; auto. rewrite IH. destruct (take_last zk_z l) as [[m r]|]; cbn; auto.
  destruct (lower (zk_z a) (zk_z m)); auto.
Qed.

Lemma lower_true a b : lower a b = true <-> ecompare a b = Lt.
Proof. unfold lower. destruct (ecompare a b); intuition congruence. Qed.
Lemma lower_false a b : lower a b = false <-> ecompare a b <> Lt.
Proof. unfold lower. destruct (ecompare a b); intuition congruence. Qed.

(** In a list sorted by number, [take_first] finds the [low_gt]-minimum. *)
Lemma take_first_min l : StronglySorted klt l ->
  match take_first zk_z l with
  | None => l = []
  | Some (m, r) => Permutation l (m :: r) /\ StronglySorted klt r /\ (forall b, In b l -> low_gt m b = false) /\ In m l
  end.
Proof.
  induction 1 as [|a l HS IH HA]; cbn; auto.
  destruct (take_first zk_z l) as [[m r]|].
  - destruct IH as (HP & HSr & Hm & Hin). rewrite Forall_forall in HA.
    destruct (lower (zk_z m) (zk_z a)) eqn:EL.
    + apply lower_true in EL. split; [eapply perm_trans; [apply perm_skip, HP|apply perm_swap]|].
      split; [|split].
      * constructor; auto. apply Forall_forall. intros b Hb. apply HA. eapply Permutation_in; [apply Permutation_sym, HP|right; auto].
      * intros b [<-|Hb]; auto. apply not_true_is_false. rewrite low_gt_spec. intuition congruence.
      * auto.
    + apply lower_false in EL. split; [auto|]. split; [auto|]. split; [|auto].
      assert (Ham : low_gt a m = false).
      { apply not_true_is_false. rewrite low_gt_spec. rewrite (ecompare_antisym (zk_z m)).
        destruct (ecompare (zk_z m) (zk_z a)); cbn; [|tauto|intuition congruence].
        intros [|[_ H]]; [congruence|]. specialize (HA m Hin). unfold klt in HA. lia. }
      destruct (gt_total low_gt (or_introl eq_refl)) as (T1 & T2 & _).
      intros b [<-|Hb]; [destruct (T1 a a); auto|]. eapply T2; eauto.
  - subst l. split; [auto|]. split; [constructor|]. split; [|auto].
    intros b [<-|[]]. destruct (gt_total low_gt (or_introl eq_refl)) as (T1 & _). destruct (T1 a a); auto.
Qed.
Lemma take_last_min l : StronglySorted klt l ->
  match take_last zk_z l with
  | None => l = []
  | Some (m, r) => Permutation l (m :: r) /\ StronglySorted klt r /\ (forall b, In b l -> high_gt m b = false) /\ In m l
  end.
Proof.
  induction 1 as [|a l HS IH HA]; cbn; auto.
  destruct (take_last zk_z l) as [[m r]|].
  - destruct IH as (HP & HSr & Hm & Hin). rewrite Forall_forall in HA.
    destruct (lower (zk_z a) (zk_z m)) eqn:EL.
    + apply lower_true in EL. split; [auto|]. split; [auto|]. split; [|auto].
      assert (Ham : high_gt a m = false) by (apply not_true_is_false; rewrite high_gt_spec; intuition congruence).
      destruct (gt_total high_gt (or_intror eq_refl)) as (T1 & T2 & _).
      intros b [<-|Hb]; [destruct (T1 a a); auto|]. eapply T2; eauto.
    + apply lower_false in EL. split; [eapply perm_trans; [apply perm_skip, HP|apply perm_swap]|].
      split; [|split].
      * constructor; auto. apply Forall_forall. intros b Hb. apply HA. eapply Permutation_in; [apply Permutation_sym, HP|right; auto].
      * intros b [<-|Hb]; auto. apply not_true_is_false. rewrite high_gt_spec, (ecompare_antisym (zk_z a)).
        specialize (HA m Hin). unfold klt in HA. destruct (ecompare (zk_z a) (zk_z m)); cbn; intros [|[]]; try congruence; lia.
      * auto.
  - subst l. split; [auto|]. split; [constructor|]. split; [|auto].
    intros b [<-|[]]. destruct (gt_total high_gt (or_intror eq_refl)) as (T1 & _). destruct (T1 a a); auto.
Qed.

Definition pushes (l : list qop) : Z := Z.of_nat (length (filter (fun o => match o with QPush _ _ _ => true | _ => false end) l)).

Lemma to_int_small c : 0 <= c < 2 ^ 31 -> to_int c = c.
Proof. intros H. unfold to_int. rewrite Z.mod_small by lia. destruct (Z.ltb_spec c (2 ^ 31)); lia. Qed.

Lemma StronglySorted_snoc l a : StronglySorted klt l -> Forall (fun b => klt b a) l -> StronglySorted klt (l ++ [a]).
Proof.
  induction 1 as [|b l HS IH HA]; intros HF; cbn; [repeat constructor|].
  inversion HF; subst. constructor; auto. apply Forall_app. split; auto.
Qed.
Lemma sorted_unique l a b : StronglySorted klt l -> In a l -> In b l -> zk_k a = zk_k b -> a = b.
Proof.
  induction 1 as [|c l HS IH HA]; intros Ha Hb E; [contradiction|]. rewrite Forall_forall in HA. unfold klt in HA.
  destruct Ha as [<-|Ha], Hb as [<-|Hb]; auto.
  - specialize (HA b Hb). lia.
  - specialize (HA a Ha). lia.
Qed.

Lemma qrun_gen gt take takeE :
  (gt = low_gt \/ gt = high_gt) ->
  (forall l, StronglySorted klt l -> match take l with
    | None => l = [] | Some (m, r) => Permutation l (m :: r) /\ StronglySorted klt r /\ (forall b, In b l -> gt m b = false) /\ In m l end) ->
  (forall l, takeE (map strip l) = option_map (fun p => (strip (fst p), map strip (snd p))) (take l)) ->
  forall tb l i q al, pushes l + q_count q < 2 ^ 31 -> 0 <= q_count q ->
    Permutation (q_bag q) al -> StronglySorted klt al -> Forall (fun a => zk_k a <= q_count q) al ->
    qrun gt tb l i q = srun takeE l (map strip al).
Proof.
  intros Hgt Htake HtE tb. destruct (gt_total gt Hgt) as (T1 & T2 & T3).
  induction l as [|o l IH]; intros i q al HB H0 HP HS HF; [reflexivity|].
  destruct o as [x y z|]; cbn [qrun srun].
  - unfold kq_emplace. assert (HP1 : pushes (QPush x y z :: l) = pushes l + 1) by (unfold pushes; cbn [filter length]; lia).
    assert (0 <= pushes l) by (unfold pushes; lia).
    rewrite Z.mod_small by lia. rewrite to_int_small by lia.
    rewrite (IH _ _ (al ++ [mkZk x y z (q_count q + 1)])); cbn [q_count q_bag].
    + rewrite map_app. reflexivity.
    + lia.
    + lia.
    + eapply perm_trans; [apply perm_skip, HP|]. apply Permutation_cons_append.
    + apply StronglySorted_snoc; auto. eapply Forall_impl; [|exact HF]. unfold klt; cbn; intros; lia.
    + apply Forall_app. split; [eapply Forall_impl; [|exact HF]; cbn; intros; lia|]. repeat constructor; cbn; lia.
  - unfold kq_pop. rewrite HtE. specialize (Htake al HS).
    assert (HP1 : pushes (QPop :: l) = pushes l) by reflexivity.
    destruct (pq_pop gt (tb i) (q_bag q)) as [[a b]|] eqn:Epop.
    + apply pq_pop_some in Epop as [Hpa Hma].
      assert (Haq : In a (q_bag q)) by (eapply Permutation_in; [apply Permutation_sym, Hpa|left; auto]).
      assert (Ha : In a al) by (eapply Permutation_in; eauto).
      destruct (take al) as [[m r]|] eqn:Et; [|subst al; contradiction].
      destruct Htake as (HPm & HSr & Hmm & Hin).
      assert (a = m).
      { apply (sorted_unique al); auto. apply T3; [|apply Hmm; auto]. apply Hma.
        eapply Permutation_in; [apply Permutation_sym, HP|auto]. }
      subst m. cbn [option_map fst snd]. f_equal. apply IH; cbn [q_count q_bag]; try lia; auto.
      * apply Permutation_cons_inv with a. eapply perm_trans; [apply Permutation_sym, Hpa|]. exact (perm_trans HP HPm).
      * rewrite Forall_forall in *. intros c Hc. apply HF. eapply Permutation_in; [apply Permutation_sym, HPm|right; auto].
    + apply pq_pop_none in Epop; [|intros Hne; apply min_total; auto].
      rewrite Epop in HP. apply Permutation_nil in HP. subst al.
      destruct (take []) as [[m r]|]; [destruct Htake as (_ & _ & _ & [])|]. cbn [option_map].
      f_equal. apply (IH (S i) q []); auto. rewrite Epop; auto.
Qed.

Theorem low_queue_stable tb l : pushes l < 2 ^ 31 -> qrun low_gt tb l 0 kq_empty = srun (take_first snd) l [].
Proof.
  intros H. apply (qrun_gen low_gt (take_first zk_z) (take_first snd)) with (al := []); cbn; auto; try lia.
  - apply take_first_min.
  - apply take_first_strip.
  - constructor.
Qed.
Theorem high_queue_stable tb l : pushes l < 2 ^ 31 -> qrun high_gt tb l 0 kq_empty = srun (take_last snd) l [].
Proof.
  intros H. apply (qrun_gen high_gt (take_last zk_z) (take_last snd)) with (al := []); cbn; auto; try lia.
  - apply take_last_min.
  - apply take_last_strip.
  - constructor.
Qed.

(** After 2^31-1 insertions the int insertion number overflows: of two equal cells the later is popped first. *)
Theorem counter_overflow x y z bag : 
  let q := kq_emplace x y z (kq_emplace x y z (mkQ bag (2 ^ 31 - 2))) in
  match q_bag q with
  | second :: first :: _ => low_gt first second = true /\ low_gt second first = false
  | _ => False
  end.
Proof.
  cbn -[Z.modulo Z.pow]. unfold kq_emplace. cbn [q_count q_bag].
  change ((2 ^ 31 - 2 + 1) mod 2 ^ 64) with 2147483647. change ((2147483647 + 1) mod 2 ^ 64) with 2147483648.
  change (to_int 2147483647) with 2147483647. change (to_int 2147483648) with (-2147483648).
  unfold low_gt; destruct z as [z|]; cbn; unfold fgt, feq, flift; cbn; rewrite ?Z.eqb_refl, ?orb_true_r, ?Z.gtb_ltb, ?Z.ltb_irrefl; auto.
Qed.
