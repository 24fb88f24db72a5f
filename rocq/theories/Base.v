(** Shared vocabulary: neighbour tables, rasters as functions, and the priority queue.
    Models include/richdem/common/constants.hpp and the addressing predicates of Array2D.hpp. *)
From Coq Require Export ZArith List Lia Bool Permutation.
Export ListNotations.
Open Scope Z_scope.

(** constants.hpp:97-100  enum class Topology { D8, D4 } *)
Inductive topology := D8 | D4.

(** constants.hpp:44-45  d8x / d8y *)
Definition d8x : list Z := [0; -1; -1; 0; 1; 1; 1; 0; -1].
Definition d8y : list Z := [0; 0; -1; -1; -1; 0; 1; 1; 1].
(** constants.hpp:53-54  d4x / d4y *)
Definition d4x : list Z := [0; -1; 0; 1; 0].
Definition d4y : list Z := [0; 0; -1; 0; 1].
(** constants.hpp:65,67  d8_inverse / d4_inverse *)
Definition d8_inverse : list nat := [0; 5; 6; 7; 8; 1; 2; 3; 4]%nat.
Definition d4_inverse : list nat := [0; 3; 4; 1; 2]%nat.
(** constants.hpp:47  n8_diag *)
Definition n8_diag : list bool := [false; false; true; false; true; false; true; false; true].
(** constants.hpp:73  d8_arcgis *)
Definition d8_arcgis : list Z := [0; 16; 32; 64; 128; 1; 2; 4; 8].

(** constants.hpp:102-144  get_dx_for_topology, get_dy_for_topology, get_nmax_for_topology,
    get_dinverse_for_topology. Out-of-table indices give 0 here; all uses are with 1 <= n <= nmax. *)
Definition dx (t : topology) (n : nat) : Z := nth n (match t with D8 => d8x | D4 => d4x end) 0.
Definition dy (t : topology) (n : nat) : Z := nth n (match t with D8 => d8y | D4 => d4y end) 0.
Definition nmax (t : topology) : nat := match t with D8 => 8%nat | D4 => 4%nat end.
Definition dinverse (t : topology) (n : nat) : nat :=
  nth n (match t with D8 => d8_inverse | D4 => d4_inverse end) 0%nat.

(** [for(int n=1;n<=nmax;n++)] *)
Definition dirs (t : topology) : list nat := seq 1 (nmax t).

(** A raster's cells, addressed by (x,y). Array2D<T> restricted to operator()(x,y); the link to the
    flat store is in Array2DModel.v. *)
Definition grid (A : Type) := Z -> Z -> A.

Definition gset {A} (g : grid A) (x y : Z) (v : A) : grid A :=
  fun x' y' => if (x' =? x) && (y' =? y) then v else g x' y'.

(** Array2D.hpp:757-759  inGrid *)
Definition inGrid (w h x y : Z) : bool := (0 <=? x) && (x <? w) && (0 <=? y) && (y <? h).

(** Array2D.hpp:782-784  isEdgeCell(x,y) *)
Definition isEdgeCell (w h x y : Z) : bool := (x =? 0) || (y =? 0) || (x =? w - 1) || (y =? h - 1).

(** Integer range [a, a+len) as used by counting loops. *)
Fixpoint zrange (a : Z) (len : nat) : list Z :=
  match len with O => [] | S k => a :: zrange (a + 1) k end.

(** ** std::priority_queue
    A bag kept as a list. [gt] is the comparator handed to the queue (std::greater, i.e. operator>):
    the element returned by top() is one that is not [gt] any other. The C++ standard does not say
    which one when several qualify: the choice is the oracle argument [k]. *)
Fixpoint positions {A} (p : A -> bool) (i : nat) (l : list A) : list nat :=
  match l with
  | [] => []
  | a :: l' => if p a then i :: positions p (S i) l' else positions p (S i) l'
  end.

Fixpoint remove_nth {A} (n : nat) (l : list A) : list A :=
  match n, l with
  | _, [] => []
  | O, _ :: l' => l'
  | S k, a :: l' => a :: remove_nth k l'
  end.

Definition pq_pop {A} (gt : A -> A -> bool) (k : nat) (q : list A) : option (A * list A) :=
  let cand := positions (fun a => forallb (fun b => negb (gt a b)) q) 0 q in
  match cand with
  | [] => None
  | _ => let i := nth (Nat.modulo k (length cand)) cand 0%nat in
         match nth_error q i with
         | Some a => Some (a, remove_nth i q)
         | None => None
         end
  end.

(** ** Facts *)
Lemma inGrid_iff w h x y : inGrid w h x y = true <-> 0 <= x < w /\ 0 <= y < h.
Proof. unfold inGrid. rewrite !andb_true_iff, !Z.leb_le, !Z.ltb_lt. lia. Qed.

Lemma gset_same {A} (g : grid A) x y v : gset g x y v x y = v.
Proof. unfold gset. rewrite !Z.eqb_refl. reflexivity. Qed.

Lemma gset_other {A} (g : grid A) x y v x' y' : (x', y') <> (x, y) -> gset g x y v x' y' = g x' y'.
Proof.
  intros H. unfold gset. destruct (Z.eqb_spec x' x); destruct (Z.eqb_spec y' y); simpl; auto.
  subst; exfalso; apply H; reflexivity.
Qed.

Lemma gset_cases {A} (g : grid A) x y v x' y' :
  ((x', y') = (x, y) /\ gset g x y v x' y' = v) \/
  ((x', y') <> (x, y) /\ gset g x y v x' y' = g x' y').
Proof.
  destruct (Z.eq_dec x' x) as [->|Hx].
  - destruct (Z.eq_dec y' y) as [->|Hy].
    + left; split; auto; apply gset_same.
    + right; assert (H : (x, y') <> (x, y)) by congruence; split; auto; apply gset_other; auto.
  - right; assert (H : (x', y') <> (x, y)) by congruence; split; auto; apply gset_other; auto.
Qed.

Lemma zrange_In a n z : In z (zrange a n) <-> a <= z < a + Z.of_nat n.
Proof.
  revert a; induction n as [|n IH]; intros a; cbn [zrange In].
  - lia.
  - rewrite IH. lia.
Qed.

Lemma zrange_app a n m : zrange a (n + m) = zrange a n ++ zrange (a + Z.of_nat n) m.
Proof.
  revert a; induction n as [|n IH]; intros a; cbn [Nat.add zrange app].
  - f_equal; lia.
  - f_equal. rewrite IH. do 2 f_equal. lia.
Qed.

Lemma zrange_length a n : length (zrange a n) = n.
Proof. revert a; induction n as [|n IH]; intros a; simpl; auto. Qed.

Lemma positions_lt {A} (p : A -> bool) l : forall i j, In j (positions p i l) ->
  (i <= j < i + length l)%nat /\ exists a, nth_error l (j - i) = Some a /\ p a = true.
Proof.
  induction l as [|a l IH]; intros i j H; simpl in H; [contradiction|].
  destruct (p a) eqn:Hp; simpl in H.
  - destruct H as [<-|H].
    + split; [simpl; lia|]. exists a. rewrite Nat.sub_diag. auto.
    + destruct (IH _ _ H) as [Hr [b [Hb Hpb]]]. split; [simpl; lia|].
      exists b. replace (j - i)%nat with (S (j - S i)) by lia. auto.
  - destruct (IH _ _ H) as [Hr [b [Hb Hpb]]]. split; [simpl; lia|].
    exists b. replace (j - i)%nat with (S (j - S i)) by lia. auto.
Qed.

Lemma positions_nonempty {A} (p : A -> bool) l : forall i, (exists a, In a l /\ p a = true) -> positions p i l <> [].
Proof.
  induction l as [|a l IH]; intros i [b [Hin Hp]]; simpl in *; [contradiction|].
  destruct (p a) eqn:Ha; [discriminate|].
  apply IH. destruct Hin as [->|Hin]; [congruence|eauto].
Qed.

Lemma remove_nth_perm {A} (l : list A) : forall n a, nth_error l n = Some a -> Permutation l (a :: remove_nth n l).
Proof.
  induction l as [|b l IH]; intros [|n] a H; simpl in *; try discriminate.
  - inversion H; subst; reflexivity.
  - specialize (IH _ _ H). rewrite perm_swap. apply perm_skip. exact IH.
Qed.

Lemma pq_pop_some {A} (gt : A -> A -> bool) k q a q' :
  pq_pop gt k q = Some (a, q') ->
  Permutation q (a :: q') /\ forall b, In b q -> gt a b = false.
Proof.
  unfold pq_pop. set (P := fun a0 : A => forallb (fun b : A => negb (gt a0 b)) q).
  destruct (positions P 0 q) as [|c cs] eqn:Hc; [discriminate|].
  set (i := nth (k mod length (c :: cs)) (c :: cs) 0%nat).
  assert (Hi : In i (positions P 0 q)).
  { rewrite Hc. apply nth_In. apply Nat.mod_upper_bound. simpl; lia. }
  destruct (positions_lt P q 0 i Hi) as [_ [b [Hb Hpb]]].
  rewrite Nat.sub_0_r in Hb. rewrite Hb. intros H; inversion H; subst.
  split; [apply remove_nth_perm; auto|].
  intros c' Hin. unfold P in Hpb. rewrite forallb_forall in Hpb. specialize (Hpb _ Hin).
  apply negb_true_iff in Hpb. exact Hpb.
Qed.

Lemma pq_pop_none {A} (gt : A -> A -> bool) k q :
  (q <> [] -> exists a, In a q /\ forall b, In b q -> gt a b = false) ->
  pq_pop gt k q = None -> q = [].
Proof.
  intros Hmin. unfold pq_pop. set (P := fun a0 : A => forallb (fun b : A => negb (gt a0 b)) q).
  destruct q as [|a q]; auto.
  destruct Hmin as [m [Hm Hall]]; [discriminate|].
  destruct (positions P 0 (a :: q)) as [|c cs] eqn:Hc.
  - exfalso. revert Hc. apply positions_nonempty. exists m. split; auto.
    unfold P. rewrite forallb_forall. intros b Hb. rewrite Hall; auto.
  - set (i := nth (k mod length (c :: cs)) (c :: cs) 0%nat).
    assert (Hi : In i (positions P 0 (a :: q))).
    { rewrite Hc. apply nth_In. apply Nat.mod_upper_bound. simpl; lia. }
    destruct (positions_lt P (a :: q) 0 i Hi) as [_ [b [Hb Hpb]]].
    rewrite Nat.sub_0_r in Hb. rewrite Hb. discriminate.
Qed.

(** A comparator that orders by an integer key always has a minimal element. *)
Lemma min_by_key {A} (key : A -> Z) (q : list A) :
  q <> [] -> exists a, In a q /\ forall b, In b q -> (key a >? key b) = false.
Proof.
  induction q as [|a q IH]; intros H; [congruence|].
  destruct q as [|b q].
  - exists a. split; [left; auto|]. intros c [<-|[]]. rewrite Z.gtb_ltb. apply Z.ltb_irrefl.
  - destruct IH as [m [Hm Hall]]; [discriminate|].
    destruct (key a <=? key m) eqn:Hle.
    + apply Z.leb_le in Hle. exists a. split; [left; auto|].
      intros c [<-|Hc]; rewrite Z.gtb_ltb; apply Z.ltb_ge; [lia|].
      specialize (Hall _ Hc). rewrite Z.gtb_ltb in Hall. apply Z.ltb_ge in Hall. lia.
    + apply Z.leb_gt in Hle. exists m. split; [right; auto|].
      intros c [<-|Hc]; [rewrite Z.gtb_ltb; apply Z.ltb_ge; lia|auto].
Qed.

(** [while(!queue.empty()){ c = pop; body }] : the driving loop of every worklist algorithm below.
    [pop] gets the step number (for the tie-breaking oracle); [None] = fuel exhausted. *)
Fixpoint while_pop {S C : Type} (pop : nat -> S -> option (C * S)) (body : C -> S -> S)
    (fuel : nat) (i : nat) (s : S) : option S :=
  match pop i s with
  | None => Some s
  | Some (c, s1) =>
      match fuel with
      | O => None
      | Datatypes.S f => while_pop pop body f (Datatypes.S i) (body c s1)
      end
  end.

Lemma while_pop_inv {S C : Type} (pop : nat -> S -> option (C * S)) (body : C -> S -> S)
    (J : S -> Prop) (mu : S -> nat) :
  (forall i s c s1, J s -> pop i s = Some (c, s1) -> J (body c s1) /\ (mu (body c s1) < mu s)%nat) ->
  forall fuel i s, J s -> (mu s <= fuel)%nat ->
  exists s' i', while_pop pop body fuel i s = Some s' /\ J s' /\ pop i' s' = None.
Proof.
  intros Hstep. induction fuel as [|f IH]; intros i s HJ Hmu; cbn [while_pop].
  - destruct (pop i s) as [[c s1]|] eqn:Hp; [|eauto].
    destruct (Hstep _ _ _ _ HJ Hp) as [_ Hlt]. lia.
  - destruct (pop i s) as [[c s1]|] eqn:Hp; [|eauto].
    destruct (Hstep _ _ _ _ HJ Hp) as [HJ' Hlt]. apply IH; [assumption|lia].
Qed.

(** All cells of a raster, for counting. *)
Definition cells (w h : Z) : list (Z * Z) := list_prod (zrange 0 (Z.to_nat w)) (zrange 0 (Z.to_nat h)).
Definition unclosed (cl : grid bool) (w h : Z) : nat :=
  length (filter (fun p => negb (cl (fst p) (snd p))) (cells w h)).

Lemma zrange_NoDup a n : NoDup (zrange a n).
Proof.
  revert a; induction n as [|n IH]; intros a; cbn [zrange]; constructor; auto.
  rewrite zrange_In. lia.
Qed.

Lemma NoDup_app_disj {A} (l l' : list A) :
  NoDup l -> NoDup l' -> (forall x, In x l -> ~ In x l') -> NoDup (l ++ l').
Proof.
  intros H H' Hd. induction H as [|a l Ha Hl IH]; simpl; auto.
  constructor.
  - rewrite in_app_iff. intros [?|?]; [auto|]. apply (Hd a); simpl; auto.
  - apply IH. intros x Hx. apply Hd; simpl; auto.
Qed.

Lemma list_prod_NoDup {A B} (l : list A) (l' : list B) : NoDup l -> NoDup l' -> NoDup (list_prod l l').
Proof.
  intros H H'. induction H as [|a l Ha Hl IH]; cbn [list_prod]; [constructor|].
  apply NoDup_app_disj; auto.
  - apply FinFun.Injective_map_NoDup; auto. intros u v E; inversion E; auto.
  - intros [u v] Hp Hq. apply in_map_iff in Hp. destruct Hp as [y [E _]]. inversion E; subst.
    apply in_prod_iff in Hq. tauto.
Qed.

Lemma cells_NoDup w h : NoDup (cells w h).
Proof. apply list_prod_NoDup; apply zrange_NoDup. Qed.

Lemma cells_In w h x y : In (x, y) (cells w h) <-> 0 <= x < w /\ 0 <= y < h.
Proof. unfold cells. rewrite in_prod_iff, !zrange_In. lia. Qed.

Lemma cells_length w h : length (cells w h) = (Z.to_nat w * Z.to_nat h)%nat.
Proof. unfold cells. rewrite prod_length, !zrange_length. reflexivity. Qed.

Lemma unclosed_bound cl w h : (unclosed cl w h <= Z.to_nat w * Z.to_nat h)%nat.
Proof. unfold unclosed. rewrite <- cells_length. generalize (cells w h). induction l as [|a l IH]; simpl; [lia|]. destruct (negb _); simpl; lia. Qed.

Lemma filter_ext_length {A} (f g : A -> bool) l : (forall a, In a l -> f a = g a) -> length (filter f l) = length (filter g l).
Proof. intros H. rewrite (filter_ext_in f g l H). reflexivity. Qed.

Lemma unclosed_gset cl w h x y : 0 <= x < w -> 0 <= y < h -> cl x y = false ->
  unclosed cl w h = S (unclosed (gset cl x y true) w h).
Proof.
  intros Hx Hy Hc. unfold unclosed.
  assert (Hin : In (x, y) (cells w h)) by (apply cells_In; auto).
  pose proof (cells_NoDup w h) as Hnd. revert Hin Hnd. generalize (cells w h) as l.
  induction l as [|[u v] l IH]; intros Hin Hnd; [contradiction|].
  inversion Hnd as [|a l' Hni Hnd' E]; subst.
  destruct Hin as [E|Hin].
  - inversion E; subst. cbn [filter fst snd]. rewrite gset_same, Hc. cbn [negb length]. f_equal.
    apply filter_ext_length. intros [a b] Hab. cbn [fst snd]. rewrite gset_other; auto.
    intros E'; inversion E'; subst; auto.
  - cbn [filter fst snd]. rewrite (gset_other cl); [|intros E; inversion E; subst; auto].
    destruct (negb (cl u v)); cbn [length]; rewrite (IH Hin Hnd'); reflexivity.
Qed.

(** A comparator whose negation is total and transitive always has a minimal element. *)
Lemma min_total {A} (gt : A -> A -> bool) (q : list A) :
  (forall a b, gt a b = false \/ gt b a = false) ->
  (forall a b c, gt a b = false -> gt b c = false -> gt a c = false) ->
  q <> [] -> exists a, In a q /\ forall b, In b q -> gt a b = false.
Proof.
  intros Htot Htr. assert (Hrefl : forall a, gt a a = false) by (intros a; destruct (Htot a a); auto).
  induction q as [|a q IH]; intros H; [congruence|].
  destruct q as [|b q].
  - exists a. split; [left; auto|]. intros c [<-|[]]. auto.
  - destruct IH as [m [Hm Hall]]; [discriminate|].
    destruct (gt a m) eqn:Hle.
    + destruct (Htot a m) as [C|C]; [congruence|]. exists m. split; [right; auto|].
      intros c [<-|Hc]; auto.
    + exists a. split; [left; auto|]. intros c [<-|Hc]; auto. eapply Htr; eauto.
Qed.
