(** Results of C++ calls and counting loops over a mutable state. *)
From Coq Require Import ZArith List Lia Bool.
From Verif Require Import Base.
Open Scope Z_scope.

(** Normal return, C++ exception, or undefined behaviour (access outside an allocation, signed
    overflow, failed precondition of an operator). *)
Inductive res (A : Type) := Ok (a : A) | Thrown | Undef.
Arguments Ok {A}. Arguments Thrown {A}. Arguments Undef {A}.

Definition bind {A B} (m : res A) (f : A -> res B) : res B :=
  match m with Ok a => f a | Thrown => Thrown | Undef => Undef end.
Notation "'do' x <- m ; f" := (bind m (fun x => f)) (at level 200, x name, m at level 100, f at level 200).

(** [for(i : is) body], stopping at the first exception or undefined access *)
Fixpoint forM {I S} (is : list I) (body : I -> S -> res S) (s : S) : res S :=
  match is with [] => Ok s | i :: is' => do s' <- body i s; forM is' body s' end.

(** Element access of a raw array: [p[i]] is undefined outside the allocation. *)
Definition rd {A} (l : list A) (i : Z) : res A :=
  if (0 <=? i) && (i <? Z.of_nat (length l))
  then match nth_error l (Z.to_nat i) with Some a => Ok a | None => Undef end else Undef.
Fixpoint upd_nth {A} (n : nat) (v : A) (l : list A) : list A :=
  match n, l with
  | _, [] => []
  | O, _ :: l' => v :: l'
  | S k, a :: l' => a :: upd_nth k v l'
  end.
Definition wr {A} (l : list A) (i : Z) (v : A) : res (list A) :=
  if (0 <=? i) && (i <? Z.of_nat (length l)) then Ok (upd_nth (Z.to_nat i) v l) else Undef.
(** std::swap(p[i],p[j]) *)
Definition swp {A} (l : list A) (i j : Z) : res (list A) :=
  do a <- rd l i; do b <- rd l j; do l1 <- wr l i b; wr l1 j a.

(** Specification-level view of an array: element [i] if it exists. *)
Definition ix {A} (l : list A) (i : Z) : option A := if i <? 0 then None else nth_error l (Z.to_nat i).

(** 32-bit conversions: to uint32_t, and to int32_t (two's complement) *)
Definition w32 (z : Z) : Z := z mod 2 ^ 32.
Definition s32 (z : Z) : Z := let m := z mod 2 ^ 32 in if m <? 2 ^ 31 then m else m - 2 ^ 32.

(** ** Facts *)
Lemma w32_id z : 0 <= z < 2 ^ 32 -> w32 z = z.
Proof. intros H. unfold w32. apply Z.mod_small. exact H. Qed.

Lemma s32_id z : - 2 ^ 31 <= z < 2 ^ 31 -> s32 z = z.
Proof.
  intros H. unfold s32. change (2^31) with 2147483648 in *. change (2^32) with 4294967296 in *.
  destruct (Z_lt_ge_dec z 0).
  - rewrite <- (Z.mod_unique z 4294967296 (-1) (z + 4294967296)); try lia.
    destruct (Z.ltb_spec (z + 4294967296) 2147483648); lia.
  - rewrite Z.mod_small by lia. destruct (Z.ltb_spec z 2147483648); lia.
Qed.

Lemma s32_high z : 2 ^ 31 <= z < 2 ^ 32 -> s32 z = z - 2 ^ 32.
Proof.
  intros H. unfold s32. change (2^31) with 2147483648 in *. change (2^32) with 4294967296 in *.
  rewrite Z.mod_small by lia. destruct (Z.ltb_spec z 2147483648); lia.
Qed.

Lemma s32_w32 z : s32 (w32 z) = s32 z.
Proof. unfold s32, w32. rewrite Z.mod_mod by (vm_compute; discriminate). reflexivity. Qed.

Lemma ix_some_iff {A} (l : list A) i : (exists a, ix l i = Some a) <-> 0 <= i < Z.of_nat (length l).
Proof.
  unfold ix. destruct (Z.ltb_spec i 0).
  - split; [intros [a E]; discriminate|lia].
  - split.
    + intros [a E]. assert (Z.to_nat i < length l)%nat by (apply nth_error_Some; congruence). lia.
    + intros Hi. destruct (nth_error l (Z.to_nat i)) eqn:E; eauto.
      apply nth_error_None in E. lia.
Qed.

Lemma rd_Ok {A} (l : list A) i a : rd l i = Ok a <-> ix l i = Some a.
Proof.
  unfold rd, ix. destruct (Z.leb_spec 0 i); destruct (Z.ltb_spec i 0); try lia; cbn [andb].
  - destruct (Z.ltb_spec i (Z.of_nat (length l))).
    + destruct (nth_error l (Z.to_nat i)) eqn:E; split; intros X; inversion X; auto.
    + assert (nth_error l (Z.to_nat i) = None) by (apply nth_error_None; lia).
      rewrite H2. split; discriminate.
  - split; discriminate.
Qed.

Lemma rd_in {A} (l : list A) i : 0 <= i < Z.of_nat (length l) -> exists a, rd l i = Ok a /\ ix l i = Some a.
Proof. intros H. apply ix_some_iff in H. destruct H as [a H]. exists a. rewrite rd_Ok. auto. Qed.

Lemma rd_out {A} (l : list A) i : ~ 0 <= i < Z.of_nat (length l) -> rd l i = Undef.
Proof.
  intros H. unfold rd. destruct (Z.leb_spec 0 i); destruct (Z.ltb_spec i (Z.of_nat (length l))); cbn [andb]; auto; lia.
Qed.

Lemma upd_nth_length {A} n (v : A) l : length (upd_nth n v l) = length l.
Proof. revert n; induction l as [|a l IH]; intros [|n]; simpl; auto. Qed.

Lemma upd_nth_error {A} n (v : A) l m :
  nth_error (upd_nth n v l) m = if Nat.eqb m n then (if Nat.ltb n (length l) then Some v else None) else nth_error l m.
Proof.
  revert n m; induction l as [|a l IH]; intros [|n] [|m]; cbn [upd_nth nth_error Nat.eqb length Nat.ltb Nat.leb]; auto.
  - destruct (Nat.eqb m n); auto.
  - rewrite IH. destruct (Nat.eqb m n); auto.
Qed.

Lemma wr_in {A} (l : list A) i v : 0 <= i < Z.of_nat (length l) ->
  exists l', wr l i v = Ok l' /\ length l' = length l /\ forall j, ix l' j = if j =? i then Some v else ix l j.
Proof.
  intros H. exists (upd_nth (Z.to_nat i) v l). unfold wr.
  destruct (Z.leb_spec 0 i); destruct (Z.ltb_spec i (Z.of_nat (length l))); cbn [andb]; try lia.
  split; [reflexivity|]. split; [apply upd_nth_length|].
  intros j. unfold ix. destruct (Z.ltb_spec j 0).
  - destruct (Z.eqb_spec j i); [lia|reflexivity].
  - rewrite upd_nth_error. destruct (Z.eqb_spec j i) as [->|Hn].
    + rewrite Nat.eqb_refl. destruct (Nat.ltb_spec (Z.to_nat i) (length l)); [reflexivity|lia].
    + destruct (Nat.eqb_spec (Z.to_nat j) (Z.to_nat i)); [lia|reflexivity].
Qed.

Lemma swp_in {A} (l : list A) i j : 0 <= i < Z.of_nat (length l) -> 0 <= j < Z.of_nat (length l) ->
  exists l', swp l i j = Ok l' /\ length l' = length l /\
    forall k, ix l' k = if k =? j then ix l i else if k =? i then ix l j else ix l k.
Proof.
  intros Hi Hj. destruct (rd_in l i Hi) as [a [Ra Ia]]. destruct (rd_in l j Hj) as [b [Rb Ib]].
  destruct (wr_in l i b Hi) as [l1 [W1 [L1 X1]]]. assert (Hj' : 0 <= j < Z.of_nat (length l1)) by (rewrite L1; auto).
  destruct (wr_in l1 j a Hj') as [l2 [W2 [L2 X2]]].
  exists l2. unfold swp. rewrite Ra. cbn [bind]. rewrite Rb. cbn [bind]. rewrite W1. cbn [bind].
  split; [exact W2|]. split; [congruence|]. intros k. rewrite X2, X1, Ia, Ib. reflexivity.
Qed.

Lemma ix_ext {A} (l l' : list A) : length l = length l' -> (forall i, 0 <= i < Z.of_nat (length l) -> ix l i = ix l' i) -> l = l'.
Proof.
  intros HL H. revert l' HL H. induction l as [|a l IH]; intros [|b l'] HL H; try discriminate; auto.
  f_equal.
  - specialize (H 0). cbn in H. assert (E : Some a = Some b) by (apply H; lia). inversion E; auto.
  - apply IH; [simpl in HL; lia|]. intros i Hi. specialize (H (i + 1)).
    unfold ix in *. destruct (Z.ltb_spec i 0); [lia|]. destruct (Z.ltb_spec (i + 1) 0); [lia|].
    replace (Z.to_nat (i + 1)) with (S (Z.to_nat i)) in H by lia. apply H. cbn [length]. lia.
Qed.

Lemma forM_app {I S} (a b : list I) (body : I -> S -> res S) s :
  forM (a ++ b) body s = bind (forM a body s) (forM b body).
Proof. revert s; induction a as [|i a IH]; intros s; cbn [forM app bind]; auto. destruct (body i s); cbn [bind]; auto. Qed.

(** Loop rule: [P done s] holds after the iterations in [done]. *)
Lemma forM_inv {I S} (P : list I -> S -> Prop) (body : I -> S -> res S) (is : list I) :
  (forall done i rest s, is = done ++ i :: rest -> P done s -> exists s', body i s = Ok s' /\ P (done ++ [i]) s') ->
  forall s, P [] s -> exists s', forM is body s = Ok s' /\ P is s'.
Proof.
  intros Hstep. assert (G : forall rest done s, is = done ++ rest -> P done s -> exists s', forM rest body s = Ok s' /\ P is s').
  { induction rest as [|i rest IH]; intros done s E HP; cbn [forM].
    - exists s. rewrite app_nil_r in E. subst. auto.
    - destruct (Hstep _ _ _ _ E HP) as [s1 [E1 HP1]]. rewrite E1. cbn [bind].
      apply (IH (done ++ [i])); auto. rewrite <- app_assoc. exact E. }
  intros s HP. apply (G is []); auto.
Qed.

(** Writing the same value at a list of positions. *)
Lemma forM_writes {A I} (f : I -> Z) (v : A) (is : list I) (l : list A) :
  (forall i, In i is -> 0 <= f i < Z.of_nat (length l)) ->
  exists l', forM is (fun i l => wr l (f i) v) l = Ok l' /\ length l' = length l /\
    forall j, ix l' j = if existsb (fun i => f i =? j) is then Some v else ix l j.
Proof.
  revert l; induction is as [|i is IH]; intros l H; cbn [forM existsb].
  - exists l. auto.
  - destruct (wr_in l (f i) v (H i (or_introl eq_refl))) as [l1 [W [L X]]]. rewrite W. cbn [bind].
    destruct (IH l1) as [l2 [E [L2 X2]]]; [intros k Hk; rewrite L; apply H; right; auto|].
    exists l2. split; [exact E|]. split; [congruence|]. intros j. rewrite X2, X, Z.eqb_sym.
    destruct (existsb _ is); [rewrite orb_true_r; reflexivity|]. rewrite orb_false_r. reflexivity.
Qed.

Definition memZ (j : Z) (l : list Z) : bool := existsb (Z.eqb j) l.
Lemma memZ_iff j l : memZ j l = true <-> In j l.
Proof.
  unfold memZ. rewrite existsb_exists. split.
  - intros [x [H E]]. apply Z.eqb_eq in E. subst. auto.
  - intros H. exists j. split; auto. apply Z.eqb_refl.
Qed.
Lemma memZ_false j l : memZ j l = false <-> ~ In j l.
Proof. rewrite <- memZ_iff. destruct (memZ j l); split; intros; congruence. Qed.

(** Swapping each listed position with its image under an involution. *)
Lemma swaps_xor {A} (sg : Z -> Z) (is : list Z) : forall l : list A,
  (forall i, 0 <= i < Z.of_nat (length l) -> 0 <= sg i < Z.of_nat (length l) /\ sg (sg i) = i) ->
  NoDup is -> (forall i, In i is -> 0 <= i < Z.of_nat (length l)) ->
  exists l', forM is (fun i l => swp l i (sg i)) l = Ok l' /\ length l' = length l /\
    forall j, 0 <= j < Z.of_nat (length l) ->
      ix l' j = if xorb (memZ j is) (memZ (sg j) is) then ix l (sg j) else ix l j.
Proof.
  induction is as [|i is IH]; intros l Hs Hnd Hin; cbn [forM].
  - exists l. split; auto.
  - inversion Hnd as [|? ? Hni Hnd']; subst.
    assert (Hi := Hin i (or_introl eq_refl)). destruct (Hs i Hi) as [Hsi Hss].
    destruct (swp_in l i (sg i) Hi Hsi) as [l1 [W [L X]]]. rewrite W. cbn [bind].
    destruct (IH l1) as [l2 [E [L2 X2]]].
    { intros k Hk. rewrite L in *. auto. } { auto. } { intros k Hk. rewrite L. apply Hin. right; auto. }
    exists l2. split; [exact E|]. split; [congruence|]. intros j Hj. destruct (Hs j Hj) as [Hsj Hssj].
    rewrite X2 by (rewrite L; auto). rewrite !X.
    assert (Mi : memZ i is = false) by (apply memZ_false; auto).
    unfold memZ in *. cbn [existsb].
    destruct (Z.eqb_spec (sg j) (sg i)) as [E1|E1].
    + assert (j = i) by congruence. subst j. rewrite !Z.eqb_refl. rewrite Mi.
      destruct (Z.eqb_spec i (sg i)) as [E2|E2].
      * rewrite <- E2. rewrite Mi. rewrite !Z.eqb_refl. reflexivity.
      * destruct (Z.eqb_spec (sg i) i); [congruence|].
        destruct (existsb (Z.eqb (sg i)) is); reflexivity.
    + destruct (Z.eqb_spec j i) as [->|N1]; [congruence|].
      destruct (Z.eqb_spec (sg j) i) as [E3|E3].
      * assert (j = sg i) by congruence. subst j. rewrite Z.eqb_refl. rewrite E3, Mi.
        destruct (existsb (Z.eqb (sg i)) is); cbn [xorb orb]; reflexivity.
      * destruct (Z.eqb_spec j (sg i)) as [E4|E4]; [subst; congruence|]. cbn [orb]. reflexivity.
Qed.
