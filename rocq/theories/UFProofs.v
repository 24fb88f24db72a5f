From Coq Require Import ZArith List Lia Bool Relations.
From Verif Require Import Base UFModel UFSpec.
Open Scope Z_scope.

Definition inr (s : uf) (i : Z) : Prop := 0 <= i < u_size s.

(** [M] bounds the ranks. *)
Record Inv (M : Z) (s : uf) : Prop := {
  I_size : 0 <= u_size s < 2 ^ 32;
  I_par : forall i, inr s i -> inr s (u_parent s i);
  I_rank : forall i, inr s i -> u_parent s i <> i -> u_rank s i < u_rank s (u_parent s i);
  I_M : forall i, inr s i -> 0 <= u_rank s i <= M }.

Inductive root (s : uf) : Z -> Z -> Prop :=
| root_here r : inr s r -> u_parent s r = r -> root s r r
| root_step i r : inr s i -> u_parent s i <> i -> root s (u_parent s i) r -> root s i r.

Lemma root_fun s i r r' : root s i r -> root s i r' -> r = r'.
Proof.
  intros H. revert r'. induction H; intros r' H'; inversion H'; subst; auto; try congruence.
Qed.
Lemma root_in s i r : root s i r -> inr s i /\ inr s r /\ u_parent s r = r.
Proof. induction 1; intuition. Qed.

Lemma root_total M s i : Inv M s -> inr s i -> exists r, root s i r.
Proof.
  intros HI. remember (Z.to_nat (M - u_rank s i)) as k eqn:Hk. revert i Hk.
  induction k as [k IH] using lt_wf_ind. intros i Hk Hi.
  destruct (Z.eq_dec (u_parent s i) i) as [E|E].
  - exists i. constructor; auto.
  - pose proof (I_rank _ _ HI i Hi E). pose proof (I_M _ _ HI i Hi).
    pose proof (I_par _ _ HI i Hi) as Hp. pose proof (I_M _ _ HI _ Hp).
    destruct (IH (Z.to_nat (M - u_rank s (u_parent s i))) ltac:(lia) _ eq_refl Hp) as [r Hr].
    exists r. constructor 2; auto.
Qed.

Lemma root_rank M s i r : Inv M s -> root s i r -> i = r \/ u_rank s i < u_rank s r.
Proof.
  intros HI H. induction H as [|i r Hi Hp _ IH]; auto.
  right. pose proof (I_rank _ _ HI i Hi Hp). destruct IH; [congruence|lia].
Qed.

Definition same_roots (s s' : uf) : Prop := forall i q, root s i q <-> root s' i q.

(** Path compression of one cell. *)
Lemma compress_ok M s n r : Inv M s -> root s n r ->
  let s' := mkU (u_size s) (u_rank s) (upd (u_parent s) n r) in Inv M s' /\ same_roots s s'.
Proof.
  intros HI Hr s'.
  assert (HI' : Inv M s').
  { destruct (root_in _ _ _ Hr) as (Hn & Hrr & Hrp).
    constructor; unfold s', inr in *; cbn; try apply HI.
    - intros i Hi. unfold upd. destruct (Z.eqb_spec i n); auto. apply (I_par _ _ HI); auto.
    - intros i Hi. unfold upd. destruct (Z.eqb_spec i n) as [->|].
      + intros Hne. destruct (root_rank _ _ _ _ HI Hr); [congruence|auto].
      + apply (I_rank _ _ HI); auto. }
  split; auto.
  assert (F : forall i q, root s i q -> root s' i q).
  { destruct (root_in _ _ _ Hr) as (Hn & Hrr & Hrp).
    assert (Hrr' : root s' r r).
    { constructor; [exact Hrr|]. unfold s'; cbn; unfold upd. destruct (Z.eqb_spec r n); auto. }
    induction 1 as [q Hq Hp|i q Hi Hp Hr2 IH].
    - constructor; [exact Hq|]. unfold s'; cbn; unfold upd. destruct (Z.eqb_spec q n) as [->|]; auto.
      apply (root_fun s n); auto. constructor; auto.
    - destruct (Z.eq_dec i n) as [->|Hne].
      + assert (q = r) by (eapply root_fun; [|exact Hr]; constructor 2; auto). subst q.
        destruct (Z.eq_dec n r) as [->|]; auto.
        constructor 2; [exact Hi| |]; unfold s'; cbn; unfold upd; rewrite Z.eqb_refl; auto.
      + constructor 2; [exact Hi| |]; unfold s'; cbn; unfold upd; destruct (Z.eqb_spec i n); try contradiction; auto. }
  intros i q. split; auto. intros H'.
  destruct (root_in _ _ _ H') as (Hi & _ & _).
  destruct (root_total _ _ i HI Hi) as [q' Hq']. rewrite (root_fun _ _ _ _ H' (F _ _ Hq')). auto.
Qed.

Lemma same_roots_trans a b c : same_roots a b -> same_roots b c -> same_roots a c.
Proof. intros H1 H2 i q. rewrite (H1 i q). apply H2. Qed.
Lemma same_roots_refl a : same_roots a a.
Proof. intros i q. tauto. Qed.

Lemma find_ok M f s n : Inv M s -> inr s n -> (Z.to_nat (M - u_rank s n) < f)%nat ->
  exists r s', findSet f n s = Ret r s' /\ root s n r /\ Inv M s' /\ same_roots s s' /\
    u_size s' = u_size s /\ u_rank s' = u_rank s.
Proof.
  intros HI. revert n. induction f as [|f IH]; intros n Hn Hf; [lia|].
  cbn [findSet]. destruct (Z.leb_spec (u_size s) n); [unfold inr in Hn; lia|].
  destruct (Z.eqb_spec (u_parent s n) n) as [E|E].
  - exists n, s. split; [auto|]. split; [constructor; auto|]. split; [auto|]. split; [apply same_roots_refl|auto].
  - pose proof (I_rank _ _ HI n Hn E). pose proof (I_par _ _ HI n Hn) as Hp.
    pose proof (I_M _ _ HI _ Hp). pose proof (I_M _ _ HI _ Hn).
    destruct (IH _ Hp ltac:(lia)) as (r & s' & -> & Hr & HI' & Hs & Hz & Hk).
    assert (Hrn : root s n r) by (constructor 2; auto).
    destruct (compress_ok M s' n r HI' (proj1 (Hs n r) Hrn)) as [HI2 Hs2].
    exists r. eexists. split; [reflexivity|]. split; [auto|]. split; [exact HI2|].
    split; [exact (same_roots_trans _ _ _ Hs Hs2)|]. cbn. auto.
Qed.

Lemma find_throw f s n : u_size s <= n -> findSet (S f) n s = Throw s.
Proof. intros H. cbn. destruct (Z.leb_spec (u_size s) n); auto; lia. Qed.

(** Linking root [a] under root [b] (possibly raising b's rank). *)
Lemma link_ok M s a b k : Inv M s -> root s a a -> root s b b -> a <> b -> u_rank s a < k -> u_rank s b <= k -> k <= M ->
  let s' := mkU (u_size s) (upd (u_rank s) b k) (upd (u_parent s) a b) in
  Inv M s' /\ forall i q, root s i q -> root s' i (if q =? a then b else q).
Proof.
  intros HI Ha Hb Hab Hk1 Hk2 HkM s'.
  destruct (root_in _ _ _ Ha) as (Hia & _ & Hpa). destruct (root_in _ _ _ Hb) as (Hib & _ & Hpb).
  assert (HI' : Inv M s').
  { constructor; unfold s', inr in *; cbn; try apply HI.
    - intros i Hi. unfold upd. destruct (Z.eqb_spec i a); auto. apply (I_par _ _ HI); auto.
    - intros i Hi. unfold upd. destruct (Z.eqb_spec i a) as [->|Hia2].
      + intros _. rewrite Z.eqb_refl. destruct (Z.eqb_spec a b); try contradiction; auto.
      + intros Hne. pose proof (I_rank _ _ HI i Hi Hne).
        destruct (Z.eqb_spec i b) as [->|]; [congruence|].
        destruct (Z.eqb_spec (u_parent s i) b) as [E|]; auto. rewrite E in *. lia.
    - intros i Hi. unfold upd. pose proof (I_M _ _ HI i Hi). pose proof (I_M _ _ HI a Hia). destruct (Z.eqb_spec i b); lia. }
  split; auto.
  assert (Hrb : root s' b b).
  { constructor; [exact Hib|]. unfold s'; cbn; unfold upd. destruct (Z.eqb_spec b a); auto. }
  assert (Hra : root s' a b).
  { constructor 2; [exact Hia| |]; unfold s'; cbn; unfold upd; rewrite Z.eqb_refl; auto. }
  induction 1 as [q Hq Hp|i q Hi Hp Hr2 IH].
  - destruct (Z.eqb_spec q a) as [->|]; auto. constructor; [exact Hq|].
    unfold s'; cbn; unfold upd. destruct (Z.eqb_spec q a); try contradiction; auto.
  - assert (i <> a) by congruence.
    constructor 2; [exact Hi| |]; unfold s'; cbn; unfold upd; destruct (Z.eqb_spec i a); try contradiction; auto.
Qed.

Lemma Inv_weaken M M' s : Inv M s -> M <= M' -> Inv M' s.
Proof. intros H HM. constructor; try apply H. intros i Hi. pose proof (I_M _ _ H i Hi). lia. Qed.

Lemma Inv_ext M s s' : u_size s' = u_size s -> (forall i, u_rank s' i = u_rank s i) ->
  (forall i, u_parent s' i = u_parent s i) -> Inv M s -> Inv M s'.
Proof.
  intros Hz Hr Hp H. constructor; unfold inr in *; intros; rewrite ?Hz, ?Hr, ?Hp in *; try apply H; auto.
Qed.
Lemma root_ext s s' : u_size s' = u_size s -> (forall i, u_parent s' i = u_parent s i) -> same_roots s s'.
Proof.
  intros Hz Hp. assert (forall s s', u_size s' = u_size s -> (forall i, u_parent s' i = u_parent s i) -> forall i q, root s i q -> root s' i q).
  { clear. intros s s' Hz Hp. induction 1.
    - constructor; unfold inr in *; rewrite ?Hz, ?Hp; auto.
    - constructor 2; unfold inr in *; rewrite ?Hz, ?Hp; auto. }
  split; [apply H|apply H]; auto.
Qed.

(** Creating sets. *)
Lemma checkSize_ok M s n : 0 <= M -> Inv M s -> valid_id n ->
  let s' := checkSize n s in
  Inv M s' /\ u_size s' = Z.max (u_size s) (n + 1) /\ (forall i q, root s i q -> root s' i q) /\
  (forall i, u_size s <= i < u_size s' -> root s' i i /\ u_rank s' i = 0) /\
  (forall i, inr s i -> u_rank s' i = u_rank s i).
Proof.
  intros HM HI [Hv1 Hv2]. cbv zeta. unfold checkSize. destruct (Z.ltb_spec n (u_size s)) as [Hlt|Hge].
  - repeat split; try apply HI; auto; try lia.
  - unfold u32. rewrite Z.mod_small by lia.
    assert (P1 : forall i, 0 <= i < u_size s -> (u_size s <=? i) && (i <? n + 1) = false)
      by (intros i Hi; destruct (Z.leb_spec (u_size s) i); cbn; auto; lia).
    assert (P2 : forall i, u_size s <= i < n + 1 -> (u_size s <=? i) && (i <? n + 1) = true)
      by (intros i Hi; destruct (Z.leb_spec (u_size s) i); [|lia]; destruct (Z.ltb_spec i (n + 1)); auto; lia).
    pose proof (I_size _ _ HI).
    assert (D : forall i, 0 <= i < n + 1 -> 0 <= i < u_size s \/ u_size s <= i < n + 1) by (intros; lia).
    split; [constructor|split; [|split; [|split]]]; unfold inr in *; cbn [u_size u_parent u_rank].
    + lia.
    + intros i H0. destruct (D i H0) as [Hi|Hi]; [rewrite P1 by auto|rewrite P2 by auto; lia].
      pose proof (I_par _ _ HI i Hi). unfold inr in *; lia.
    + intros i Hi. destruct (D i Hi) as [Hi'|Hi']; [rewrite P1 by auto|rewrite P2 by auto; lia].
      intros Hne. pose proof (I_par _ _ HI i Hi'). unfold inr in *.
      destruct (Z.ltb_spec i (u_size s)); [|lia]. destruct (Z.ltb_spec (u_parent s i) (u_size s)); [|lia].
      apply (I_rank _ _ HI); auto.
    + intros i Hi. destruct (Z.ltb_spec i (u_size s)); [|lia]. apply (I_M _ _ HI i); unfold inr; lia.
    + lia.
    + intros i q. induction 1 as [q Hq Hp|i q Hi Hp Hr2 IH]; unfold inr in *.
      * constructor; unfold inr; cbn; [lia|]. rewrite P1; auto.
      * constructor 2; unfold inr; cbn; [lia| |]; rewrite P1; auto.
    + intros i Hi. split.
      * apply root_here; unfold inr; cbn; [lia|]. rewrite P2; auto.
      * destruct (Z.ltb_spec i (u_size s)); auto; lia.
    + intros i Hi. destruct (Z.ltb_spec i (u_size s)); auto; lia.
Qed.

(** ** Refinement to the equivalence closure *)
Definition Abs (s : uf) (ps : list (Z * Z)) : Prop :=
  (forall a b, In (a, b) ps -> inr s a /\ inr s b) /\
  (forall a b ra rb, root s a ra -> root s b rb -> (ra = rb <-> joined ps a b)).

Lemma joined_refl ps a : joined ps a a. Proof. apply rst_refl. Qed.
Lemma joined_sym ps a b : joined ps a b -> joined ps b a. Proof. apply rst_sym. Qed.
Lemma joined_trans ps a b c : joined ps a b -> joined ps b c -> joined ps a c. Proof. apply rst_trans. Qed.
Lemma joined_incl ps ps' a b : (forall p, In p ps -> In p ps') -> joined ps a b -> joined ps' a b.
Proof. intros Hi H. induction H; [apply rst_step; auto|apply rst_refl|apply rst_sym; auto|eapply rst_trans; eauto]. Qed.
Lemma joined_in ps s a b : (forall a b, In (a, b) ps -> inr s a /\ inr s b) -> joined ps a b -> a = b \/ (inr s a /\ inr s b).
Proof.
  intros H HJ. induction HJ as [? ? HJ| | |]; auto; intuition; subst; auto.
Qed.

Lemma Abs_same s s' ps : u_size s' = u_size s -> same_roots s s' -> Abs s ps -> Abs s' ps.
Proof.
  intros Hz Hs [H1 H2]. split.
  - intros a b Hab. unfold inr. rewrite Hz. apply H1; auto.
  - intros a b ra rb Ha Hb. apply H2; apply Hs; auto.
Qed.

(** The joined-relation after adding a pair, in terms of old classes. *)
Lemma joined_cons ps a b x y : joined ((a, b) :: ps) x y <->
  joined ps x y \/ (joined ps x a /\ joined ps b y) \/ (joined ps x b /\ joined ps a y).
Proof.
  split.
  - induction 1 as [x y Hxy|x|x y H IH|x y z H1 IH1 H2 IH2].
    + destruct Hxy as [E|Hin].
      * inversion E; subst. right; left. split; apply joined_refl.
      * left. apply rst_step; auto.
    + left; apply joined_refl.
    + destruct IH as [IH|[[IH1 IH2]|[IH1 IH2]]].
      * left; apply joined_sym; auto.
      * right; right. split; apply joined_sym; auto.
      * right; left. split; apply joined_sym; auto.
    + assert (T := joined_trans ps). assert (S := joined_sym ps).
      destruct IH1 as [A|[[A1 A2]|[A1 A2]]], IH2 as [B|[[B1 B2]|[B1 B2]]];
        [left; eauto|right; left; split; eauto|right; right; split; eauto
        |right; left; split; eauto|right; left; split; eauto| left; eauto
        |right; right; split; eauto|left; eauto|right; right; split; eauto].
  - assert (I : forall u v, joined ps u v -> joined ((a, b) :: ps) u v)
      by (intros u v; apply joined_incl; cbn; auto).
    assert (E : joined ((a, b) :: ps) a b) by (apply rst_step; cbn; auto).
    intros [H|[[H1 H2]|[H1 H2]]]; auto.
    + eapply joined_trans; [apply I, H1|]. eapply joined_trans; [apply E|]. auto.
    + eapply joined_trans; [apply I, H1|]. eapply joined_trans; [apply joined_sym, E|]. auto.
Qed.

(** Joining the classes of [a] and [b], whose roots are [ra] and [rb], by pointing [rx] to [ry]. *)
Lemma Abs_link s s' ps a b ra rb rx ry M :
  Inv M s -> u_size s' = u_size s -> Abs s ps -> root s a ra -> root s b rb -> ra <> rb ->
  (rx = ra /\ ry = rb \/ rx = rb /\ ry = ra) ->
  (forall i q, root s i q -> root s' i (if q =? rx then ry else q)) ->
  Abs s' ((a, b) :: ps).
Proof.
  intros HI Hz [H1 H2] Ha Hb Hne Hxy F. split.
  - intros x y [E|Hin].
    + inversion E; subst. unfold inr. rewrite Hz. split; [apply (root_in _ _ _ Ha)|apply (root_in _ _ _ Hb)].
    + unfold inr. rewrite Hz. apply H1; auto.
  - intros x y qx qy Hx Hy.
    destruct (root_in _ _ _ Hx) as (Hix & _). destruct (root_in _ _ _ Hy) as (Hiy & _).
    unfold inr in Hix, Hiy. rewrite Hz in Hix, Hiy.
    destruct (root_total _ _ x HI Hix) as [px Hpx]. destruct (root_total _ _ y HI Hiy) as [py Hpy].
    rewrite (root_fun _ _ _ _ Hx (F _ _ Hpx)), (root_fun _ _ _ _ Hy (F _ _ Hpy)).
    rewrite joined_cons.
    rewrite <- (H2 x y px py), <- (H2 x a px ra), <- (H2 b y rb py), <- (H2 x b px rb), <- (H2 a y ra py) by auto.
    destruct (Z.eqb_spec px rx), (Z.eqb_spec py rx); subst; destruct Hxy as [[-> ->]|[-> ->]]; intuition congruence.
Qed.

Lemma joined_idem ps a b x y : joined ps a b -> (joined ((a, b) :: ps) x y <-> joined ps x y).
Proof.
  intros H. rewrite joined_cons. assert (T := joined_trans ps). assert (S := joined_sym ps).
  intuition eauto.
Qed.

Lemma Abs_grow s s' ps M : 
  Inv M s -> u_size s <= u_size s' -> (forall i q, root s i q -> root s' i q) ->
  (forall i, u_size s <= i < u_size s' -> root s' i i) -> Inv M s' -> Abs s ps -> Abs s' ps.
Proof.
  intros HI Hz F G HI' [H1 H2]. split.
  - intros a b Hab. destruct (H1 _ _ Hab). unfold inr in *. lia.
  - intros a b ra rb Ha Hb.
    assert (D : forall i q, root s' i q -> root s i q \/ (~ inr s i /\ q = i)).
    { intros i q Hq. destruct (root_in _ _ _ Hq) as (Hi & _). unfold inr in Hi.
      destruct (Z_lt_ge_dec i (u_size s)) as [Hl|Hg].
      - left. destruct (root_total _ _ i HI) as [q' Hq']; [unfold inr; lia|].
        rewrite (root_fun _ _ _ _ Hq (F _ _ Hq')). auto.
      - right. split; [unfold inr; lia|]. apply (root_fun s' i); auto. apply G; lia. }
    assert (JI : forall x y, joined ps x y -> x = y \/ (inr s x /\ inr s y)) by (intros x y; apply joined_in; auto).
    destruct (D _ _ Ha) as [Ha'|[Ha' ->]], (D _ _ Hb) as [Hb'|[Hb' ->]].
    + apply H2; auto.
    + split.
      * intros ->. destruct (root_in _ _ _ Ha') as (_ & Hr & _). contradiction.
      * intros HJ. destruct (JI _ _ HJ) as [->|[]]; [|contradiction]. destruct (root_in _ _ _ Ha') as (? & _). contradiction.
    + split.
      * intros <-. destruct (root_in _ _ _ Hb') as (_ & Hr & _). contradiction.
      * intros HJ. destruct (JI _ _ HJ) as [->|[]]; [|contradiction]. destruct (root_in _ _ _ Hb') as (? & _). contradiction.
    + split; [intros ->; apply joined_refl|]. intros HJ. destruct (JI _ _ HJ) as [|[]]; auto. contradiction.
Qed.

(** ** One step of a history *)
Definition bigM (f : nat) (M : Z) : Prop := 0 <= M /\ M + 1 < 2 ^ 32 /\ (Z.to_nat M < f)%nat.

Lemma union_ok M f a b s ps : bigM f M -> Inv M s -> Abs s ps -> 0 <= a -> 0 <= b ->
  exists o s', unionSet f a b s = o /\ state_of o = Some s' /\ Inv (M + 1) s' /\ u_size s' = u_size s /\
    Abs s' (if (a <? u_size s) && (b <? u_size s) then (a, b) :: ps else ps).
Proof.
  intros (HM0 & HM1 & Hf) HI HA Ha Hb. unfold unionSet.
  destruct (Z.ltb_spec a (u_size s)) as [Hla|Hga]; cbn [andb].
  2: { destruct f as [|f]; [lia|]. rewrite find_throw by lia. exists (Throw s), s.
       split; [reflexivity|]. split; [reflexivity|]. split; [eapply Inv_weaken; eauto; lia|]. auto. }
  assert (Hia : inr s a) by (unfold inr; lia).
  pose proof (I_M _ _ HI a Hia).
  destruct (find_ok M f s a HI Hia ltac:(lia)) as (ra & s1 & -> & Hra & HI1 & Hs1 & Hz1 & Hk1).
  destruct (Z.ltb_spec b (u_size s)) as [Hlb|Hgb].
  2: { destruct f as [|f]; [lia|]. rewrite find_throw by lia. exists (Throw s1), s1.
       split; [reflexivity|]. split; [reflexivity|]. split; [eapply Inv_weaken; eauto; lia|].
       split; auto. eapply Abs_same; eauto. }
  assert (Hib : inr s1 b) by (unfold inr; rewrite Hz1; lia).
  pose proof (I_M _ _ HI1 b Hib).
  destruct (find_ok M f s1 b HI1 Hib ltac:(lia)) as (rb & s2 & -> & Hrb & HI2 & Hs2 & Hz2 & Hk2).
  assert (HS : same_roots s s2) by (eapply same_roots_trans; eauto).
  assert (Hra2 : root s2 a ra) by (apply HS; auto).
  assert (Hrb2 : root s2 b rb) by (apply Hs2; auto).
  assert (Hz : u_size s2 = u_size s) by congruence.
  assert (HA2 : Abs s2 ps) by (eapply Abs_same; eauto).
  assert (Rra : root s2 ra ra) by (destruct (root_in _ _ _ Hra2) as (_ & ? & ?); constructor; auto).
  assert (Rrb : root s2 rb rb) by (destruct (root_in _ _ _ Hrb2) as (_ & ? & ?); constructor; auto).
  destruct (root_in _ _ _ Rra) as (Hira & _). destruct (root_in _ _ _ Rrb) as (Hirb & _).
  pose proof (I_M _ _ HI2 ra Hira). pose proof (I_M _ _ HI2 rb Hirb).
  pose proof (Inv_weaken _ (M + 1) _ HI2 ltac:(lia)) as HI3.
  destruct (Z.eqb_spec ra rb) as [E|Hne].
  { exists (Ret tt s2), s2. split; [reflexivity|]. split; [reflexivity|]. split; [auto|]. split; [auto|].
    split.
    - intros x y [Ex|Hin]; [inversion Ex; subst; split; [apply (root_in _ _ _ Hra2)|apply (root_in _ _ _ Hrb2)]|apply HA2; auto].
    - intros x y rx ry Hx Hy. rewrite joined_idem; [apply HA2; auto|]. apply (proj2 HA2 a b ra rb); auto. }
  destruct (Z.ltb_spec (u_rank s2 ra) (u_rank s2 rb)).
  { destruct (link_ok (M + 1) s2 ra rb (u_rank s2 rb) HI3 Rra Rrb Hne ltac:(lia) ltac:(lia) ltac:(lia)) as [HI4 F].
    eexists. eexists. split; [reflexivity|]. split; [reflexivity|].
    set (s4 := mkU (u_size s2) (upd (u_rank s2) rb (u_rank s2 rb)) (upd (u_parent s2) ra rb)) in *.
    set (s5 := mkU (u_size s2) (u_rank s2) (upd (u_parent s2) ra rb)).
    assert (R : same_roots s4 s5) by (apply root_ext; auto).
    split; [apply (Inv_ext _ s4); auto; intros i; cbn; unfold upd; destruct (Z.eqb_spec i rb); subst; auto|].
    split; [auto|].
    eapply (Abs_link s2 s5 ps a b ra rb ra rb); eauto. intros i q Hq. apply R, F; auto. }
  assert (Hne' : rb <> ra) by auto.
  destruct (Z.gtb_spec (u_rank s2 ra) (u_rank s2 rb)).
  { destruct (link_ok (M + 1) s2 rb ra (u_rank s2 ra) HI3 Rrb Rra Hne' ltac:(lia) ltac:(lia) ltac:(lia)) as [HI4 F].
    eexists. eexists. split; [reflexivity|]. split; [reflexivity|].
    set (s4 := mkU (u_size s2) (upd (u_rank s2) ra (u_rank s2 ra)) (upd (u_parent s2) rb ra)) in *.
    set (s5 := mkU (u_size s2) (u_rank s2) (upd (u_parent s2) rb ra)).
    assert (R : same_roots s4 s5) by (apply root_ext; auto).
    split; [apply (Inv_ext _ s4); auto; intros i; cbn; unfold upd; destruct (Z.eqb_spec i ra); subst; auto|].
    split; [auto|].
    eapply (Abs_link s2 s5 ps a b ra rb rb ra); eauto. intros i q Hq. apply R, F; auto. }
  { unfold u32. rewrite Z.mod_small by lia.
    destruct (link_ok (M + 1) s2 rb ra (u_rank s2 ra + 1) HI3 Rrb Rra Hne' ltac:(lia) ltac:(lia) ltac:(lia)) as [HI4 F].
    eexists. eexists. split; [reflexivity|]. split; [reflexivity|]. split; [exact HI4|]. split; [auto|].
    eapply (Abs_link s2 _ ps a b ra rb rb ra); eauto. }
Qed.

Lemma representative_root M s a : Inv M s -> 0 <= a -> representative s a -> u_size s <= a \/ root s a a.
Proof.
  intros HI Ha [H|H]; auto. cbn in H. destruct (Z.leb_spec (u_size s) a) as [|Hl]; [auto|].
  destruct (Z.eqb_spec (u_parent s a) a) as [E|E].
  - right. constructor; auto. unfold inr; lia.
  - discriminate.
Qed.

Lemma merge_ok M s a b ps : 0 <= M -> M + 1 < 2 ^ 32 -> Inv M s -> Abs s ps -> valid_id a -> valid_id b ->
  a <> b -> representative s a -> representative s b ->
  exists s', mergeAintoB a b s = Ret tt s' /\ Inv (M + 1) s' /\
    u_size s' = Z.max (u_size s) (Z.max (a + 1) (b + 1)) /\ Abs s' ((a, b) :: ps) /\ root s' b b.
Proof.
  intros HM0 HM1 HI HA Va Vb Hab Ra Rb. unfold mergeAintoB.
  destruct (checkSize_ok M s a HM0 HI Va) as (HI1 & Hz1 & F1 & N1 & K1).
  set (s1 := checkSize a s) in *.
  destruct (checkSize_ok M s1 b HM0 HI1 Vb) as (HI2 & Hz2 & F2 & N2 & K2).
  set (s2 := checkSize b s1) in *.
  assert (Hz : u_size s2 = Z.max (u_size s) (Z.max (a + 1) (b + 1))) by lia.
  assert (HA1 : Abs s1 ps) by (eapply Abs_grow; [exact HI|lia|auto|intros; apply N1; lia|auto|auto]).
  assert (HA2 : Abs s2 ps) by (eapply Abs_grow; [exact HI1|lia|auto|intros; apply N2; lia|auto|auto]).
  destruct Va as [Va1 Va2]. destruct Vb as [Vb1 Vb2].
  destruct (Z.leb_spec (u_size s2) a); [lia|]. destruct (Z.leb_spec (u_size s2) b); [lia|]. cbn [orb].
  assert (Rra : root s2 a a).
  { apply F2. destruct (representative_root _ _ a HI Va1 Ra); [apply N1; lia|auto]. }
  assert (Rrb : root s2 b b).
  { destruct (representative_root _ _ b HI Vb1 Rb); [|auto].
    destruct (Z_lt_ge_dec b (u_size s1)); [apply F2, N1; lia|apply N2; lia]. }
  destruct (root_in _ _ _ Rra) as (Hia & _). destruct (root_in _ _ _ Rrb) as (Hib & _).
  pose proof (I_M _ _ HI2 a Hia). pose proof (I_M _ _ HI2 b Hib).
  pose proof (Inv_weaken _ (M + 1) _ HI2 ltac:(lia)) as HI3.
  assert (B : forall s', (forall i q, root s2 i q -> root s' i (if q =? a then b else q)) -> root s' b b).
  { intros s' F. specialize (F b b Rrb). destruct (Z.eqb_spec b a); auto. }
  destruct (Z.eqb_spec (u_rank s2 a) (u_rank s2 b)).
  { unfold u32. rewrite Z.mod_small by lia.
    destruct (link_ok (M + 1) s2 a b (u_rank s2 b + 1) HI3 Rra Rrb Hab ltac:(lia) ltac:(lia) ltac:(lia)) as [HI4 F].
    eexists. split; [reflexivity|]. split; [exact HI4|]. split; [auto|]. split; [|apply B; auto].
    eapply (Abs_link s2 _ ps a b a b a b); eauto. }
  destruct (Z.gtb_spec (u_rank s2 a) (u_rank s2 b)).
  { unfold u32. rewrite Z.mod_small by lia.
    destruct (link_ok (M + 1) s2 a b (u_rank s2 a + 1) HI3 Rra Rrb Hab ltac:(lia) ltac:(lia) ltac:(lia)) as [HI4 F].
    eexists. split; [reflexivity|]. split; [exact HI4|]. split; [auto|]. split; [|apply B; auto].
    eapply (Abs_link s2 _ ps a b a b a b); eauto. }
  { destruct (link_ok (M + 1) s2 a b (u_rank s2 b) HI3 Rra Rrb Hab ltac:(lia) ltac:(lia) ltac:(lia)) as [HI4 F].
    eexists. split; [reflexivity|].
    set (s4 := mkU (u_size s2) (upd (u_rank s2) b (u_rank s2 b)) (upd (u_parent s2) a b)) in *.
    set (s5 := mkU (u_size s2) (u_rank s2) (upd (u_parent s2) a b)).
    assert (R : same_roots s4 s5) by (apply root_ext; auto).
    assert (F5 : forall i q, root s2 i q -> root s5 i (if q =? a then b else q)) by (intros; apply R, F; auto).
    split; [apply (Inv_ext _ s4); auto; intros i; cbn; unfold upd; destruct (Z.eqb_spec i b); subst; auto|].
    split; [auto|]. split; [|apply B; auto].
    eapply (Abs_link s2 s5 ps a b a b a b); eauto. }
Qed.

Lemma step_ok M f o s ps : bigM f M -> Inv M s -> Abs s ps -> valid_op o ->
  match o with Merge a b => a <> b /\ representative s a /\ representative s b | _ => True end ->
  exists s', step f o s = Some s' /\ Inv (M + 1) s' /\
    spec_run [o] (u_size s) ps = (u_size s', snd (spec_run [o] (u_size s) ps)) /\
    Abs s' (snd (spec_run [o] (u_size s) ps)).
Proof.
  intros HB HI HA HV HO. pose proof HB as (HM0 & HM1 & Hf). destruct o as [n|n|a b|a b|a b]; cbn [step spec_run snd valid_op] in *.
  - destruct (checkSize_ok M s n HM0 HI HV) as (HI1 & Hz1 & F1 & N1 & K1).
    eexists. split; [reflexivity|]. split; [eapply Inv_weaken; eauto; lia|]. split; [congruence|].
    eapply Abs_grow; [exact HI|lia|auto|intros; apply N1; lia|auto|auto].
  - destruct (Z_lt_ge_dec n (u_size s)) as [Hl|Hg].
    + assert (Hn : inr s n) by (destruct HV; unfold inr; lia). pose proof (I_M _ _ HI n Hn).
      destruct (find_ok M f s n HI Hn ltac:(lia)) as (r & s1 & -> & Hr & HI1 & Hs1 & Hz1 & Hk1).
      eexists. split; [reflexivity|]. split; [eapply Inv_weaken; eauto; lia|]. split; [congruence|]. eapply Abs_same; eauto.
    + destruct f as [|f]; [lia|]. rewrite find_throw by lia.
      eexists. split; [reflexivity|]. split; [eapply Inv_weaken; eauto; lia|]. auto.
  - destruct HV as [Va Vb].
    destruct (union_ok M f a b s ps HB HI HA (proj1 Va) (proj1 Vb)) as (? & s' & -> & -> & HI' & Hz & HA').
    exists s'. split; [auto|]. split; [auto|]. split; [congruence|auto].
  - destruct HV as [Va Vb]. unfold sameSet.
    destruct (Z_lt_ge_dec a (u_size s)) as [Hl|Hg].
    + assert (Hn : inr s a) by (destruct Va; unfold inr; lia). pose proof (I_M _ _ HI a Hn).
      destruct (find_ok M f s a HI Hn ltac:(lia)) as (r & s1 & -> & Hr & HI1 & Hs1 & Hz1 & Hk1).
      destruct (Z_lt_ge_dec b (u_size s)) as [Hlb|Hgb].
      * assert (Hnb : inr s1 b) by (destruct Vb; unfold inr; lia). pose proof (I_M _ _ HI1 b Hnb).
        destruct (find_ok M f s1 b HI1 Hnb ltac:(lia)) as (r2 & s2 & -> & Hr2 & HI2 & Hs2 & Hz2 & Hk2).
        eexists. split; [reflexivity|]. split; [eapply Inv_weaken; eauto; lia|]. split; [congruence|].
        eapply Abs_same; [| |exact HA]; [congruence|]. eapply same_roots_trans; eauto.
      * destruct f as [|f]; [lia|]. rewrite find_throw by lia.
        eexists. split; [reflexivity|]. split; [eapply Inv_weaken; eauto; lia|]. split; [congruence|]. eapply Abs_same; eauto.
    + destruct f as [|f]; [lia|]. rewrite find_throw by lia.
      eexists. split; [reflexivity|]. split; [eapply Inv_weaken; eauto; lia|]. auto.
  - destruct HO as (Hab & Ra & Rb). destruct HV as [Va Vb].
    destruct (merge_ok M s a b ps HM0 HM1 HI HA Va Vb Hab Ra Rb) as (s' & -> & HI' & Hz & HA' & _).
    exists s'. split; [reflexivity|]. split; [auto|]. split; [congruence|auto].
Qed.

Lemma spec_run_cons o l n ps : spec_run (o :: l) n ps = spec_run l (fst (spec_run [o] n ps)) (snd (spec_run [o] n ps)).
Proof. destruct o; reflexivity. Qed.

Lemma run_ok l : forall M f s ps, 0 <= M -> M + Z.of_nat (length l) + 1 < 2 ^ 32 -> (Z.to_nat M + length l < f)%nat ->
  Inv M s -> Abs s ps -> Forall valid_op l -> merges_ok f l s ->
  exists s', run f l s = Some s' /\ Inv (M + Z.of_nat (length l)) s' /\
    u_size s' = fst (spec_run l (u_size s) ps) /\ Abs s' (snd (spec_run l (u_size s) ps)).
Proof.
  induction l as [|o l IH]; intros M f s ps HM HM2 Hf HI HA HV HO.
  - exists s. cbn. rewrite Z.add_0_r. auto.
  - inversion HV; subst. destruct HO as [HO1 HO2]. cbn [length] in *.
    destruct (step_ok M f o s ps) as (s1 & E1 & HI1 & Hz1 & HA1); auto.
    { unfold bigM. lia. }
    rewrite E1 in HO2. cbn [run]. rewrite E1.
    destruct (IH (M + 1) f s1 (snd (spec_run [o] (u_size s) ps))) as (s' & E' & HI' & Hz' & HA'); auto; try lia.
    exists s'. rewrite spec_run_cons, Hz1. cbn [fst]. rewrite E'.
    split; [auto|]. split; [|auto]. eapply Inv_weaken; eauto. lia.
Qed.

Lemma Inv_new N : 0 <= N < 2 ^ 32 -> Inv 0 (uf_new N).
Proof. intros H. constructor; unfold inr; cbn; auto; try lia. Qed.
Lemma Abs_new N : Abs (uf_new N) [].
Proof.
  split; [intros a b []|]. intros a b ra rb Ha Hb.
  assert (forall i q, root (uf_new N) i q -> i = q) by (intros i q H; inversion H; subst; auto; cbn in *; congruence).
  apply H in Ha. apply H in Hb. subst. split; [intros ->; apply joined_refl|].
  intros HJ. induction HJ as [x y Hxy| | |]; try congruence; try (destruct Hxy); try (symmetry; auto; fail).
Qed.

(** What the queries answer in a state reached by a history. *)
Lemma queries_ok M f s ps a b : bigM f M -> Inv M s -> Abs s ps -> 0 <= a -> 0 <= b ->
  (a < u_size s -> b < u_size s -> exists r s', sameSet f a b s = Ret r s' /\ (r = true <-> joined ps a b)) /\
  (a < u_size s -> exists r s', findSet f a s = Ret r s' /\ joined ps a r /\ 0 <= r < u_size s /\ findSet 1 r s = Ret r s) /\
  (u_size s <= a -> findSet f a s = Throw s).
Proof.
  intros (HM0 & HM1 & Hf) HI HA Ha Hb. split; [|split].
  - intros Hla Hlb. unfold sameSet.
    assert (Hia : inr s a) by (unfold inr; lia). pose proof (I_M _ _ HI a Hia).
    destruct (find_ok M f s a HI Hia ltac:(lia)) as (ra & s1 & -> & Hra & HI1 & Hs1 & Hz1 & Hk1).
    assert (Hib : inr s1 b) by (unfold inr; lia). pose proof (I_M _ _ HI1 b Hib).
    destruct (find_ok M f s1 b HI1 Hib ltac:(lia)) as (rb & s2 & -> & Hrb & HI2 & Hs2 & Hz2 & Hk2).
    eexists. eexists. split; [reflexivity|]. rewrite Z.eqb_eq. apply HA; auto. apply Hs1; auto.
  - intros Hla. assert (Hia : inr s a) by (unfold inr; lia). pose proof (I_M _ _ HI a Hia).
    destruct (find_ok M f s a HI Hia ltac:(lia)) as (ra & s1 & -> & Hra & HI1 & Hs1 & Hz1 & Hk1).
    exists ra, s1. split; [reflexivity|]. destruct (root_in _ _ _ Hra) as (_ & Hi & Hp). split; [|split].
    + apply (proj2 HA a ra ra ra); auto. constructor; auto.
    + exact Hi.
    + cbn. unfold inr in Hi. destruct (Z.leb_spec (u_size s) ra); [lia|]. rewrite Hp, Z.eqb_refl. auto.
  - intros Hg. destruct f as [|f]; [lia|]. apply find_throw; lia.
Qed.

Theorem history_correct N l f : 0 <= N < 2 ^ 32 -> Forall valid_op l -> Z.of_nat (length l) + 1 < 2 ^ 32 ->
  (length l < f)%nat -> merges_ok f l (uf_new N) ->
  exists s, run f l (uf_new N) = Some s /\
    let (n, ps) := spec_run l N [] in
    u_size s = n /\
    forall a b, 0 <= a -> 0 <= b ->
      (a < n -> b < n -> exists r s', sameSet f a b s = Ret r s' /\ (r = true <-> joined ps a b)) /\
      (a < n -> exists r s', findSet f a s = Ret r s' /\ joined ps a r /\ 0 <= r < n /\ findSet 1 r s = Ret r s) /\
      (n <= a -> findSet f a s = Throw s).
Proof.
  intros HN HV HL Hf HO.
  destruct (run_ok l 0 f (uf_new N) []) as (s & E & HI & Hz & HA); auto; try lia.
  { apply Inv_new; auto. } { apply Abs_new. }
  exists s. split; auto. cbn [u_size uf_new] in *. destruct (spec_run l N []) as [n ps]. cbn [fst snd] in *. subst n.
  split; auto. intros a b Ha Hb. eapply queries_ok; eauto. unfold bigM. lia.
Qed.

Lemma merges_ok_nomerge f l : forall s, Forall no_merge l -> merges_ok f l s.
Proof.
  induction l as [|o l IH]; intros s H; cbn; auto. inversion H; subst.
  split; [destruct o; cbn in *; tauto|]. destruct (step f o s); auto.
Qed.

(** mergeAintoB in a reachable state. *)
Theorem merge_correct N l f s a b : 0 <= N < 2 ^ 32 -> Forall valid_op l -> Z.of_nat (length l) + 2 < 2 ^ 32 ->
  (length l + 1 < f)%nat -> merges_ok f l (uf_new N) -> run f l (uf_new N) = Some s ->
  valid_id a -> valid_id b -> a <> b -> representative s a -> representative s b ->
  exists s', mergeAintoB a b s = Ret tt s' /\
    (exists s2, findSet f a s' = Ret b s2) /\ findSet f b s' = Ret b s' /\
    forall x y, 0 <= x < u_size s' -> 0 <= y < u_size s' ->
      exists r s2, sameSet f x y s' = Ret r s2 /\ 
        (r = true <-> joined ((a, b) :: snd (spec_run l N [])) x y).
Proof.
  intros HN HV HL Hf HO E Va Vb Hab Ra Rb.
  destruct (run_ok l 0 f (uf_new N) []) as (s0 & E0 & HI & Hz & HA); auto; try lia.
  { apply Inv_new; auto. } { apply Abs_new. }
  rewrite E in E0. inversion E0; subst s0. cbn [u_size uf_new] in *.
  destruct (merge_ok (0 + Z.of_nat (length l)) s a b _ ltac:(lia) ltac:(lia) HI HA Va Vb Hab Ra Rb) as (s' & Em & HI' & Hz' & HA' & Hb).
  exists s'. split; auto.
  destruct Va as [Va1 Va2], Vb as [Vb1 Vb2].
  assert (Hia : inr s' a) by (unfold inr; lia). pose proof (I_M _ _ HI' a Hia).
  destruct (find_ok (0 + Z.of_nat (length l) + 1) f s' a HI' Hia ltac:(lia)) as (ra & s1 & -> & Hra & HI1 & Hs1 & Hz1 & Hk1).
  split.
  { exists s1. f_equal. apply (proj2 HA' a b ra b); auto. apply rst_step. cbn; auto. }
  split.
  { destruct f as [|f]; [lia|]. cbn. destruct (Z.leb_spec (u_size s') b); [lia|].
    destruct (root_in _ _ _ Hb) as (_ & _ & ->). rewrite Z.eqb_refl. auto. }
  intros x y Hx Hy.
  assert (HB : bigM f (0 + Z.of_nat (length l) + 1)) by (unfold bigM; lia).
  destruct (queries_ok _ f s' _ x y HB HI' HA' ltac:(lia) ltac:(lia)) as (Q & _). apply Q; lia.
Qed.

(** ** The cycle after violating the precondition *)
Definition bad : uf := match run 5 [Merge 0 1; Merge 1 0] (uf_new 2) with Some s => s | None => uf_new 0 end.
Lemma bad_loops f : findSet f 0 bad = Deep /\ findSet f 1 bad = Deep.
Proof.
  induction f as [|f [IH0 IH1]]; [split; reflexivity|].
  change (findSet (S f) 0 bad) with (match findSet f 1 bad with Ret r s' => Ret r (mkU (u_size s') (u_rank s') (upd (u_parent s') 0 r)) | o => o end).
  change (findSet (S f) 1 bad) with (match findSet f 0 bad with Ret r s' => Ret r (mkU (u_size s') (u_rank s') (upd (u_parent s') 1 r)) | o => o end).
  rewrite IH0, IH1. auto.
Qed.

(** ** Logarithmic depth when only unions are used *)
Definition cnt (s : uf) (ro : Z -> Z) (r : Z) : nat :=
  length (filter (fun i => ro i =? r) (zrange 0 (Z.to_nat (u_size s)))).
Definition LogInv (s : uf) : Prop :=
  exists ro, (forall i, inr s i -> root s i (ro i)) /\
    forall r, root s r r -> 2 ^ u_rank s r <= Z.of_nat (cnt s ro r).

Lemma filter_len_le {A} (f g : A -> bool) l : (forall x, In x l -> f x = true -> g x = true) ->
  (length (filter f l) <= length (filter g l))%nat.
Proof.
  induction l as [|a l IH]; cbn; intros H; auto.
  specialize (IH (fun x Hx => H x (or_intror Hx))).
  destruct (f a) eqn:E; [rewrite (H a (or_introl eq_refl) E); cbn; lia|]. destruct (g a); cbn; lia.
Qed.
Lemma filter_len_or {A} (f g h : A -> bool) l : (forall x, In x l -> f x = true -> h x = true) -> (forall x, In x l -> g x = true -> h x = true) ->
  (forall x, In x l -> f x = true -> g x = true -> False) ->
  (length (filter f l) + length (filter g l) <= length (filter h l))%nat.
Proof.
  induction l as [|a l IH]; cbn; intros H1 H2 H3; auto.
  specialize (IH (fun x Hx => H1 x (or_intror Hx)) (fun x Hx => H2 x (or_intror Hx)) (fun x Hx => H3 x (or_intror Hx))).
  specialize (H1 a (or_introl eq_refl)). specialize (H2 a (or_introl eq_refl)). specialize (H3 a (or_introl eq_refl)).
  destruct (f a), (g a), (h a); cbn; try lia; try (exfalso; auto; fail); try (discriminate (H1 eq_refl)); try (discriminate (H2 eq_refl)).
Qed.

Lemma cnt_le s ro r : 0 <= u_size s -> Z.of_nat (cnt s ro r) <= u_size s.
Proof.
  intros H. unfold cnt. pose proof (filter_len_le (fun i => ro i =? r) (fun _ => true) (zrange 0 (Z.to_nat (u_size s))) ltac:(auto)).
  assert (E : filter (fun _ : Z => true) (zrange 0 (Z.to_nat (u_size s))) = zrange 0 (Z.to_nat (u_size s))).
  { generalize (zrange 0 (Z.to_nat (u_size s))). induction l as [|? ? IHl]; cbn; f_equal; auto. }
  rewrite E, zrange_length in H0. lia.
Qed.

Lemma LogInv_rank M s : Inv M s -> LogInv s -> Inv (Z.log2 (u_size s)) s.
Proof.
  intros HI (ro & Hro & Hc). constructor; try apply HI.
  assert (R : forall r, root s r r -> 0 <= u_rank s r <= Z.log2 (u_size s)).
  { intros r Hr. destruct (root_in _ _ _ Hr) as (Hi & _). pose proof (I_M _ _ HI r Hi). split; [lia|].
    pose proof (Hc r Hr). pose proof (cnt_le s ro r ltac:(apply HI)).
    apply Z.log2_le_pow2; unfold inr in Hi; lia. }
  intros i Hi. pose proof (I_M _ _ HI i Hi). pose proof (Hro i Hi) as Hr.
  destruct (root_in _ _ _ Hr) as (_ & Hir & Hp).
  assert (Hrr : root s (ro i) (ro i)) by (constructor; auto).
  pose proof (R _ Hrr). destruct (root_rank _ _ _ _ HI Hr) as [E|]; [|lia]. rewrite E. lia.
Qed.

Lemma LogInv_same s s' : u_size s' = u_size s -> u_rank s' = u_rank s -> same_roots s s' -> LogInv s -> LogInv s'.
Proof.
  intros Hz Hk HS (ro & H1 & H2). exists ro. unfold inr, cnt in *. rewrite Hz, Hk. split.
  - intros i Hi. apply HS; auto.
  - intros r Hr. apply H2. apply HS; auto.
Qed.

Lemma LogInv_link M s s' a b k : Inv M s -> LogInv s -> root s a a -> root s b b -> a <> b -> u_size s' = u_size s ->
  (forall i q, root s i q -> root s' i (if q =? a then b else q)) ->
  (forall i, i <> b -> u_rank s' i = u_rank s i) -> u_rank s' b = k ->
  (k = u_rank s b \/ k = u_rank s b + 1 /\ u_rank s a = u_rank s b) -> LogInv s'.
Proof.
  intros HI (ro & H1 & H2) Ha Hb Hab Hz F K1 K2 HK.
  exists (fun i => if ro i =? a then b else ro i). split.
  { intros i Hi. apply F, H1. unfold inr in *; lia. }
  intros r Hr. destruct (root_in _ _ _ Hr) as (Hir & _). unfold inr in Hir. rewrite Hz in Hir.
  assert (Hrs : root s r r /\ r <> a).
  { pose proof (F r (ro r) (H1 r Hir)) as Fr. pose proof (root_fun _ _ _ _ Hr Fr) as E.
    pose proof (H1 r Hir) as Hq. destruct (Z.eqb_spec (ro r) a) as [Ea|Ena].
    - subst r. split; auto.
    - rewrite <- E in Hq. split; auto. congruence. }
  destruct Hrs as [Hrs Hra]. unfold cnt in *. rewrite Hz.
  destruct (Z.eq_dec r b) as [->|Hrb].
  - rewrite K2. pose proof (H2 a Ha). pose proof (H2 b Hb).
    pose proof (filter_len_or (fun i => ro i =? a) (fun i => ro i =? b) (fun i => (if ro i =? a then b else ro i) =? b)
       (zrange 0 (Z.to_nat (u_size s)))) as L.
    match type of L with _ -> _ -> _ -> ?G => assert (L' : G) end.
    { apply L; intros x _; cbv beta.
      - intros E. rewrite E. apply Z.eqb_refl.
      - intros E. destruct (ro x =? a); auto. apply Z.eqb_refl.
      - rewrite !Z.eqb_eq. intros E1 E2. congruence. }
    destruct HK as [->|[-> E]].
    + assert (0 < 2 ^ u_rank s a). { apply Z.pow_pos_nonneg; [lia|]. destruct (root_in _ _ _ Ha) as (Hi & _). apply (I_M _ _ HI a Hi). }
      lia.
    + destruct (root_in _ _ _ Hb) as (Hi & _). pose proof (I_M _ _ HI b Hi).
      rewrite Z.pow_add_r by lia. rewrite E in *. change (2 ^ 1) with 2. lia.
  - rewrite K1 by auto. eapply Z.le_trans; [apply (H2 r Hrs)|].
    apply inj_le, filter_len_le. intros x _. rewrite !Z.eqb_eq. intros E.
    destruct (Z.eqb_spec (ro x) a); congruence.
Qed.

Lemma LogInv_grow M s s' : 0 <= M -> Inv M s -> Inv M s' -> u_size s <= u_size s' -> (forall i q, root s i q -> root s' i q) ->
  (forall i, u_size s <= i < u_size s' -> root s' i i /\ u_rank s' i = 0) ->
  (forall i, inr s i -> u_rank s' i = u_rank s i) -> LogInv s -> LogInv s'.
Proof.
  intros HM HI HI' Hz F N K (ro & H1 & H2).
  exists (fun i => if i <? u_size s then ro i else i). split.
  { intros i Hi. unfold inr in Hi. destruct (Z.ltb_spec i (u_size s)).
    - apply F, H1. unfold inr; lia.
    - apply N. lia. }
  intros r Hr. destruct (root_in _ _ _ Hr) as (Hi & _). unfold inr in Hi. pose proof (I_size _ _ HI).
  assert (SP : zrange 0 (Z.to_nat (u_size s')) = zrange 0 (Z.to_nat (u_size s)) ++ zrange (u_size s) (Z.to_nat (u_size s' - u_size s))).
  { replace (Z.to_nat (u_size s')) with (Z.to_nat (u_size s) + Z.to_nat (u_size s' - u_size s))%nat by lia.
    rewrite zrange_app. do 2 f_equal. lia. }
  unfold cnt in *. rewrite SP, filter_app, app_length.
  destruct (Z_lt_ge_dec r (u_size s)) as [Hl|Hg].
  - assert (Hir : inr s r) by (unfold inr; lia). rewrite (K r Hir).
    assert (Hrs : root s r r).
    { destruct (root_total _ _ r HI Hir) as [q Hq]. rewrite (root_fun _ _ _ _ Hr (F _ _ Hq)) at 2. auto. }
    specialize (H2 r Hrs).
    pose proof (filter_len_le (fun i => ro i =? r) (fun i => (if i <? u_size s then ro i else i) =? r) (zrange 0 (Z.to_nat (u_size s)))).
    match type of H0 with _ -> ?G => assert (L : G) end.
    { apply H0. intros x Hx E. apply zrange_In in Hx. destruct (Z.ltb_spec x (u_size s)); auto. lia. }
    lia.
  - destruct (N r ltac:(lia)) as [_ ->]. change (2 ^ 0) with 1.
    assert (In r (filter (fun i => (if i <? u_size s then ro i else i) =? r) (zrange (u_size s) (Z.to_nat (u_size s' - u_size s))))).
    { apply filter_In. rewrite zrange_In. split; [lia|]. destruct (Z.ltb_spec r (u_size s)); [lia|]. apply Z.eqb_refl. }
    destruct (filter (fun i => (if i <? u_size s then ro i else i) =? r) (zrange (u_size s) (Z.to_nat (u_size s' - u_size s)))); [contradiction|].
    cbn [length]. lia.
Qed.

Lemma LogInv_new N : 0 <= N -> LogInv (uf_new N).
Proof.
  intros HN. exists (fun i => i). split.
  - intros i Hi. constructor; auto.
  - intros r Hr. destruct (root_in _ _ _ Hr) as (Hi & _). cbn [u_rank uf_new]. change (2 ^ 0) with 1.
    assert (In r (filter (fun i => i =? r) (zrange 0 (Z.to_nat (u_size (uf_new N)))))).
    { apply filter_In. rewrite zrange_In. split; [unfold inr in Hi; lia|apply Z.eqb_refl]. }
    unfold cnt. destruct (filter _ _); [contradiction|]. cbn [length]; lia.
Qed.

Lemma LogInv_union M f a b s s' : bigM f M -> Inv M s -> LogInv s -> 0 <= a -> 0 <= b ->
  state_of (unionSet f a b s) = Some s' -> LogInv s'.
Proof.
  intros (HM0 & HM1 & Hf) HI HL Ha Hb. unfold unionSet.
  destruct (Z_lt_ge_dec a (u_size s)) as [Hla|Hga].
  2: { destruct f as [|f]; [lia|]. rewrite find_throw by lia. intros E; inversion E; subst; auto. }
  assert (Hia : inr s a) by (unfold inr; lia).
  pose proof (I_M _ _ HI a Hia).
  destruct (find_ok M f s a HI Hia ltac:(lia)) as (ra & s1 & -> & Hra & HI1 & Hs1 & Hz1 & Hk1).
  assert (HL1 : LogInv s1) by (eapply LogInv_same; eauto).
  destruct (Z_lt_ge_dec b (u_size s)) as [Hlb|Hgb].
  2: { destruct f as [|f]; [lia|]. rewrite find_throw by lia. intros E; inversion E; subst; auto. }
  assert (Hib : inr s1 b) by (unfold inr; rewrite Hz1; lia).
  pose proof (I_M _ _ HI1 b Hib).
  destruct (find_ok M f s1 b HI1 Hib ltac:(lia)) as (rb & s2 & -> & Hrb & HI2 & Hs2 & Hz2 & Hk2).
  assert (HL2 : LogInv s2) by (eapply LogInv_same; eauto).
  assert (HS : same_roots s s2) by (eapply same_roots_trans; eauto).
  assert (Hra2 : root s2 a ra) by (apply HS; auto).
  assert (Hrb2 : root s2 b rb) by (apply Hs2; auto).
  assert (Rra : root s2 ra ra) by (destruct (root_in _ _ _ Hra2) as (_ & ? & ?); constructor; auto).
  assert (Rrb : root s2 rb rb) by (destruct (root_in _ _ _ Hrb2) as (_ & ? & ?); constructor; auto).
  destruct (root_in _ _ _ Rra) as (Hira & _). destruct (root_in _ _ _ Rrb) as (Hirb & _).
  pose proof (I_M _ _ HI2 ra Hira). pose proof (I_M _ _ HI2 rb Hirb).
  pose proof (Inv_weaken _ (M + 1) _ HI2 ltac:(lia)) as HI3.
  cbn [state_of]. intros E. apply (f_equal (fun o => match o with Some x => x | None => s' end)) in E. cbn beta iota in E. subst s'.
  destruct (Z.eqb_spec ra rb) as [E|Hne]; auto.
  assert (Hne' : rb <> ra) by auto.
  destruct (Z.ltb_spec (u_rank s2 ra) (u_rank s2 rb)).
  { destruct (link_ok (M + 1) s2 ra rb (u_rank s2 rb) HI3 Rra Rrb Hne ltac:(lia) ltac:(lia) ltac:(lia)) as [HI4 F].
    eapply (LogInv_link M s2 _ ra rb (u_rank s2 rb)); eauto.
    intros i q Hq. specialize (F i q Hq). revert F. apply root_ext; auto. }
  destruct (Z.gtb_spec (u_rank s2 ra) (u_rank s2 rb)).
  { destruct (link_ok (M + 1) s2 rb ra (u_rank s2 ra) HI3 Rrb Rra Hne' ltac:(lia) ltac:(lia) ltac:(lia)) as [HI4 F].
    eapply (LogInv_link M s2 _ rb ra (u_rank s2 ra)); eauto.
    intros i q Hq. specialize (F i q Hq). revert F. apply root_ext; auto. }
  { unfold u32. rewrite Z.mod_small by lia.
    destruct (link_ok (M + 1) s2 rb ra (u_rank s2 ra + 1) HI3 Rrb Rra Hne' ltac:(lia) ltac:(lia) ltac:(lia)) as [HI4 F].
    eapply (LogInv_link M s2 _ rb ra (u_rank s2 ra + 1)); eauto; cbn; unfold upd.
    - intros i Hi. destruct (Z.eqb_spec i ra); congruence.
    - rewrite Z.eqb_refl; auto.
    - right. lia. }
Qed.

Lemma log2_u32 n : 0 <= n < 2 ^ 32 -> 0 <= Z.log2 n <= 32.
Proof.
  intros H. split; [apply Z.log2_nonneg|]. change 32 with (Z.log2 (2 ^ 32)). apply Z.log2_le_mono. lia.
Qed.

Lemma log_step M f o s s' : bigM f M -> Inv M s -> LogInv s -> valid_op o -> no_merge o ->
  step f o s = Some s' -> LogInv s'.
Proof.
  intros HB HI HL HV HN E. pose proof HB as (HM0 & HM1 & Hf).
  destruct o as [n|n|a b|a b|a b]; cbn [step valid_op no_merge] in *.
  - cbn in E. inversion E; subst.
    destruct (checkSize_ok M s n HM0 HI HV) as (HI1 & Hz1 & F1 & N1 & K1).
    eapply (LogInv_grow M s); eauto. lia.
  - destruct (Z_lt_ge_dec n (u_size s)) as [Hl|Hg].
    + assert (Hn : inr s n) by (destruct HV; unfold inr; lia). pose proof (I_M _ _ HI n Hn).
      destruct (find_ok M f s n HI Hn ltac:(lia)) as (r & s1 & Er & Hr & HI1 & Hs1 & Hz1 & Hk1).
      rewrite Er in E. inversion E; subst. eapply LogInv_same; eauto.
    + destruct f as [|f]; [lia|]. rewrite find_throw in E by lia. inversion E; subst; auto.
  - destruct HV as [[Va _] [Vb _]]. exact (LogInv_union M f a b s s' HB HI HL Va Vb E).
  - destruct HV as [Va Vb]. unfold sameSet in E.
    destruct (Z_lt_ge_dec a (u_size s)) as [Hl|Hg].
    + assert (Hn : inr s a) by (destruct Va; unfold inr; lia). pose proof (I_M _ _ HI a Hn).
      destruct (find_ok M f s a HI Hn ltac:(lia)) as (r & s1 & Er & Hr & HI1 & Hs1 & Hz1 & Hk1).
      rewrite Er in E. assert (HL1 : LogInv s1) by (eapply LogInv_same; eauto).
      destruct (Z_lt_ge_dec b (u_size s)) as [Hlb|Hgb].
      * assert (Hnb : inr s1 b) by (destruct Vb; unfold inr; lia). pose proof (I_M _ _ HI1 b Hnb).
        destruct (find_ok M f s1 b HI1 Hnb ltac:(lia)) as (r2 & s2 & Er2 & Hr2 & HI2 & Hs2 & Hz2 & Hk2).
        rewrite Er2 in E. inversion E; subst. eapply LogInv_same; eauto.
      * destruct f as [|f]; [lia|]. rewrite (find_throw f s1) in E by lia. inversion E; subst; auto.
    + destruct f as [|f]; [lia|]. rewrite find_throw in E by lia. inversion E; subst; auto.
  - contradiction.
Qed.

Lemma log_run l : forall s ps f, (34 <= f)%nat -> Inv (Z.log2 (u_size s)) s -> LogInv s -> Abs s ps -> Forall valid_op l -> Forall no_merge l ->
  exists s', run f l s = Some s' /\ Inv (Z.log2 (u_size s')) s' /\ u_size s' = fst (spec_run l (u_size s) ps).
Proof.
  induction l as [|o l IH]; intros s ps f Hf HI HL HA HV HN.
  { exists s. auto. }
  inversion HV; inversion HN; subst.
  pose proof (log2_u32 (u_size s) (I_size _ _ HI)) as HB32.
  assert (HB : bigM f (Z.log2 (u_size s))) by (unfold bigM; change (2 ^ 32) with 4294967296; lia).
  destruct (step_ok _ f o s ps HB HI HA) as (s1 & E1 & HI1 & Hz1 & HA1); auto.
  { destruct o; cbn in *; tauto. }
  pose proof (log_step _ f o s s1 HB HI HL ltac:(auto) ltac:(auto) E1) as HL1.
  destruct (IH s1 _ f Hf (LogInv_rank _ _ HI1 HL1) HL1 HA1) as (s' & E' & HI' & Hz'); auto.
  exists s'. cbn [run]. rewrite E1. split; [auto|]. split; [auto|].
  rewrite spec_run_cons, Hz1. auto.
Qed.

Theorem log_depth N l f a : 0 <= N < 2 ^ 32 -> Forall valid_op l -> Forall no_merge l -> (34 <= f)%nat ->
  exists s, run f l (uf_new N) = Some s /\ u_size s = fst (spec_run l N []) /\ (0 <= a < u_size s -> exists r s', findSet (S (Z.to_nat (Z.log2 (u_size s)))) a s = Ret r s').
Proof.
  intros HN HV HM Hf.
  destruct (log_run l (uf_new N) [] f) as (s & E & HI & Hz); auto.
  - apply (LogInv_rank 0); [apply Inv_new; auto|apply LogInv_new; lia].
  - apply LogInv_new; lia.
  - apply Abs_new.
  - exists s. split; [auto|]. split; [auto|]. intros Ha. pose proof (I_M _ _ HI a Ha).
    destruct (find_ok _ (S (Z.to_nat (Z.log2 (u_size s)))) s a HI Ha) as (r & s' & Er & _); [lia|]. eauto.
Qed.

(** makeSet(2^32-1) *)
Lemma makeSet_wraps s : 0 <= u_size s < 2 ^ 32 -> exists s', makeSet (2 ^ 32 - 1) s = Ret tt s' /\ u_size s' = 0.
Proof.
  intros H. eexists. split; [reflexivity|]. unfold checkSize.
  destruct (Z.ltb_spec (2 ^ 32 - 1) (u_size s)); [lia|]. reflexivity.
Qed.
