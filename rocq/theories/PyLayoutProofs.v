(** Proofs about the layout scripts: the largest square, and the reading of rows. *)
From Coq Require Import Ascii String ZArith List Lia Bool.
From Verif Require Import Base Res LayoutModel LayoutSpec LayoutProofs LayoutProofs2 PyLayoutModel.
Open Scope Z_scope.
Open Scope list_scope.

(** ** Squares *)
Section Square.
  Variables (h w : Z) (P : Z -> Z -> Prop).
  (** all cells of the k x k square whose upper left corner is row y, column x, are in the layout and satisfy P *)
  Definition full (y x k : Z) : Prop := forall j i, y <= j < y + k -> x <= i < x + k -> 0 <= j < h /\ 0 <= i < w /\ P j i.
  Lemma full_0 y x k : k <= 0 -> full y x k. Proof. intros H j i Hj Hi. lia. Qed.
  Lemma full_mono y x k k' : k' <= k -> full y x k -> full y x k'.
  Proof. intros L H j i Hj Hi. apply H; lia. Qed.
  Lemma full_S y x k : 0 <= k -> full y x (k + 1) <-> (full y x 1 /\ full (y + 1) x k /\ full y (x + 1) k /\ full (y + 1) (x + 1) k).
  Proof.
    intros Hk. split.
    - intros H. repeat match goal with |- _ /\ _ => split end; intros j i Hj Hi; apply H; lia.
    - intros (H0 & H1 & H2 & H3) j i Hj Hi. destruct (Z.eq_dec j y) as [->|Nj].
      + destruct (Z.eq_dec i x) as [->|Ni]; [apply H0; lia|]. destruct (Z_lt_ge_dec 0 k); [apply H2; lia|lia].
      + destruct (Z_lt_ge_dec i (x + k)); [apply H1; lia|]. destruct (Z_lt_ge_dec j (y + k)); [apply H2; lia|apply H3; lia].
  Qed.
  (** v is the size of the largest square with that corner *)
  Definition largest (y x v : Z) : Prop := 0 <= v /\ forall k, full y x k <-> k <= v.
  Lemma largest_unique y x v v' : largest y x v -> largest y x v' -> v = v'.
  Proof. intros [H1 H2] [H3 H4]. pose proof (proj2 (H2 v) ltac:(lia)) as A. pose proof (proj2 (H4 v') ltac:(lia)) as B. apply H4 in A. apply H2 in B. lia. Qed.
  Lemma largest_zero y x : ~ full y x 1 -> largest y x 0.
  Proof. intros N. split; [lia|]. intros k. split; intros H; [|apply full_0; exact H]. destruct (Z_le_gt_dec k 0); [assumption|]. exfalso. apply N. apply (full_mono y x k); [lia|exact H]. Qed.
  Lemma largest_step y x a b d : full y x 1 -> largest (y + 1) x a -> largest y (x + 1) b -> largest (y + 1) (x + 1) d -> largest y x (Z.min a (Z.min b d) + 1).
  Proof.
    intros H0 [A1 A2] [B1 B2] [D1 D2]. split; [lia|]. intros k. destruct (Z_le_gt_dec k 0) as [L|L]; [split; intros; [lia|apply full_0; exact L]|].
    replace k with (k - 1 + 1) at 1 by lia. rewrite full_S by lia. rewrite A2, B2, D2. split; [lia|]. intros H. split; [exact H0|]. lia.
  Qed.
  (** on the last row and column no square is larger than 1 *)
  Lemma largest_border y x : y = h - 1 \/ x = w - 1 -> full y x 1 -> largest y x 1.
  Proof.
    intros B H. split; [lia|]. intros k. split; intros K; [|apply (full_mono y x 1); assumption].
    destruct (Z_le_gt_dec k 1); [assumption|exfalso]. destruct B as [->| ->].
    - destruct (K h x ltac:(lia) ltac:(lia)) as (X & _). lia.
    - destruct (K y w ltac:(lia) ltac:(lia)) as (_ & X & _). lia.
  Qed.

  (** cells after (y, n-1) in row-major order are done *)
  Definition done (y n j i : Z) : Prop := y < j \/ (j = y /\ n <= i).
  Definition inner (j i : Z) : Prop := 0 <= j < h - 1 /\ 0 <= i < w - 1.
  Definition inside (j i : Z) : Prop := 0 <= j < h /\ 0 <= i < w.
  Definition best_of (D : Z -> Z -> Prop) (v : Z) (l : option (Z * Z)) : Prop :=
    match l with
    | None => v = -1 /\ forall j i, inner j i -> D j i -> ~ full j i 1
    | Some (by_, bx) => 1 <= v /\ inner by_ bx /\ D by_ bx /\ full by_ bx v /\
        (forall j i k, inner j i -> D j i -> full j i k -> k <= v) /\
        (forall j i k, inner j i -> D j i -> (by_ < j \/ (j = by_ /\ bx < i)) -> full j i k -> k < v)
    end.
  Variable mat : grid Z.
  Hypothesis MP : forall j i, inside j i -> (mat i j = 1 /\ P j i) \/ (mat i j = 0 /\ ~ P j i).
  Definition inv (y n : Z) (s : best) : Prop :=
    (forall j i, inside j i -> (done y n j i \/ ~ inner j i) -> largest j i (b_mat s i j)) /\
    (forall j i, inner j i -> ~ done y n j i -> b_mat s i j = mat i j) /\
    best_of (done y n) (b_val s) (b_loc s).

  Lemma get_in m y x : inside y x -> np_get h w m y x = Ok (m x y).
  Proof.
    intros [[H1 H2] [H3 H4]]. unfold np_get, np_ix. destruct (Z.leb_spec 0 y); [|lia]. destruct (Z.ltb_spec y h); [|lia]. cbn [andb bind].
    destruct (Z.leb_spec 0 x); [|lia]. destruct (Z.ltb_spec x w); [|lia]. reflexivity.
  Qed.
  Lemma set_in m y x v : inside y x -> np_set h w m y x v = Ok (gset m x y v).
  Proof.
    intros [[H1 H2] [H3 H4]]. unfold np_set, np_ix. destruct (Z.leb_spec 0 y); [|lia]. destruct (Z.ltb_spec y h); [|lia]. cbn [andb bind].
    destruct (Z.leb_spec 0 x); [|lia]. destruct (Z.ltb_spec x w); [|lia]. reflexivity.
  Qed.
  Lemma full1 j i : inside j i -> (full j i 1 <-> P j i).
  Proof.
    intros [Hj Hi]. split; [intros H; apply H; lia|]. intros H a b Ha Hb. assert (a = j) by lia. assert (b = i) by lia. subst. auto.
  Qed.
  Lemma step_ok y n s : inner y n -> inv y (n + 1) s -> exists s', square_step h w y n s = Ok s' /\ inv y n s'.
  Proof.
    intros I (A & B & C). destruct I as [I1 I2]. assert (IN : inside y n) by (unfold inside; lia).
    unfold square_step. rewrite get_in by exact IN. cbn [bind]. rewrite B by (unfold inner, done; lia).
    assert (DN : forall j i, done y n j i -> done y (n + 1) j i \/ (j = y /\ i = n)) by (unfold done; intros; lia).
    destruct (MP y n IN) as [[E Py]|[E Py]]; rewrite E.
    - change (1 >? 0) with true. cbn iota. rewrite !get_in by (unfold inside; lia). cbn [bind]. rewrite set_in by exact IN. cbn [bind]. rewrite get_in by exact IN. cbn [bind].
      rewrite gset_same. set (v := Z.min _ _ + 1).
      assert (L : largest y n v).
      { apply largest_step; [apply full1; assumption| | |]; apply A; unfold inside, done; lia. }
      assert (A' : forall j i, inside j i -> done y n j i \/ ~ inner j i -> largest j i (gset (b_mat s) n y v i j)).
      { intros j i Ij D. destruct (Z.eq_dec j y) as [->|N1]; [destruct (Z.eq_dec i n) as [->|N2]|].
        - rewrite gset_same. exact L.
        - rewrite gset_other by congruence. apply A; [exact Ij|]. destruct D as [D|D]; [left; unfold done in *; lia|right; exact D].
        - rewrite gset_other by congruence. apply A; [exact Ij|]. destruct D as [D|D]; [left; unfold done in *; lia|right; exact D]. }
      assert (B' : forall j i, inner j i -> ~ done y n j i -> gset (b_mat s) n y v i j = mat i j).
      { intros j i Ij D. rewrite gset_other; [apply B; [exact Ij|unfold done in *; lia]|]. intros X. injection X as -> ->. apply D. unfold done. lia. }
      destruct L as [L0 L].
      destruct (Z.gtb_spec v (b_val s)) as [G|G]; eexists; (split; [reflexivity|]); (split; [exact A'|]); (split; [exact B'|]); cbn [b_val b_loc].
      + assert (V1 : 1 <= v) by (apply L; apply full1; assumption).
        split; [exact V1|]. split; [unfold inner; lia|]. split; [unfold done; lia|]. split; [apply L; lia|]. split.
        * intros j i k Ij D F. destruct (DN j i D) as [D'|[-> ->]]; [|apply L; exact F]. unfold best_of in C. destruct (b_loc s) as [[by_ bx]|].
          -- destruct C as (_ & _ & _ & _ & C & _). specialize (C j i k Ij D' F). lia.
          -- destruct C as [_ C]. destruct (Z_le_gt_dec k 0); [lia|]. exfalso. apply (C j i Ij D'). apply (full_mono j i k); [lia|exact F].
        * intros j i k Ij D O F. destruct (DN j i D) as [D'|[-> ->]]; [|lia]. unfold best_of in C. destruct (b_loc s) as [[by_ bx]|].
          -- destruct C as (_ & _ & _ & _ & C & _). specialize (C j i k Ij D' F). lia.
          -- destruct C as [_ C]. destruct (Z_le_gt_dec k 0); [lia|]. exfalso. apply (C j i Ij D'). apply (full_mono j i k); [lia|exact F].
      + unfold best_of in *. destruct (b_loc s) as [[by_ bx]|].
        * destruct C as (C1 & C2 & C3 & C4 & C5 & C6). split; [exact C1|]. split; [exact C2|]. split; [unfold done in *; lia|]. split; [exact C4|]. split.
          -- intros j i k Ij D F. destruct (DN j i D) as [D'|[-> ->]]; [apply (C5 j i); assumption|]. apply L in F. lia.
          -- intros j i k Ij D O F. destruct (DN j i D) as [D'|[-> ->]]; [apply (C6 j i); assumption|]. unfold done in *. lia.
        * destruct C as [C0 _]. assert (1 <= v) by (apply L; apply full1; assumption). lia.
    - change (0 >? 0) with false. cbn iota. exists s. split; [reflexivity|].
      assert (NF : ~ full y n 1) by (rewrite full1; assumption).
      split; [|split].
      + intros j i Ij D. destruct D as [D|D]; [|apply A; auto]. destruct (DN j i D) as [D'|[-> ->]]; [apply A; auto|].
        rewrite B by (unfold inner, done; lia). rewrite E. apply largest_zero. exact NF.
      + intros j i Ij D. apply B; [exact Ij|]. unfold done in *. lia.
      + unfold best_of in *. destruct (b_loc s) as [[by_ bx]|].
        * destruct C as (C1 & C2 & C3 & C4 & C5 & C6). split; [exact C1|]. split; [exact C2|]. split; [unfold done in *; lia|]. split; [exact C4|]. split.
          -- intros j i k Ij D F. destruct (DN j i D) as [D'|[-> ->]]; [apply (C5 j i); assumption|]. destruct (Z_le_gt_dec k 0); [lia|]. exfalso. apply NF. apply (full_mono y n k); [lia|exact F].
          -- intros j i k Ij D O F. destruct (DN j i D) as [D'|[-> ->]]; [apply (C6 j i); assumption|]. unfold done in *. lia.
        * destruct C as [C1 C2]. split; [exact C1|]. intros j i Ij D. destruct (DN j i D) as [D'|[-> ->]]; [apply C2; assumption|exact NF].
  Qed.
  Lemma row_loop y n : 0 <= y < h - 1 -> Z.of_nat n <= w - 1 -> forall s, inv y (Z.of_nat n) s ->
    exists s', forM (down n) (fun x s => square_step h w y x s) s = Ok s' /\ inv y 0 s'.
  Proof.
    intros Hy. induction n as [|n IH]; intros Hn s I; cbn [down forM]; [exists s; auto|].
    destruct (step_ok y (Z.of_nat n) s) as (s1 & E1 & I1); [unfold inner; lia|replace (Z.of_nat n + 1) with (Z.of_nat (S n)) by lia; exact I|].
    rewrite E1. cbn [bind]. apply IH; [lia|exact I1].
  Qed.
  Lemma best_ext D D' v l : (forall j i, inner j i -> (D j i <-> D' j i)) -> best_of D v l -> best_of D' v l.
  Proof.
    intros E. unfold best_of. destruct l as [[by_ bx]|].
    - intros (C1 & C2 & C3 & C4 & C5 & C6). split; [exact C1|]. split; [exact C2|]. split; [apply E; assumption|]. split; [exact C4|]. split.
      + intros j i k Ij Dj. apply C5; [exact Ij|]. apply E; assumption.
      + intros j i k Ij Dj. apply C6; [exact Ij|]. apply E; assumption.
    - intros [C1 C2]. split; [exact C1|]. intros j i Ij Dj. apply C2; [exact Ij|]. apply E; assumption.
  Qed.
  Lemma rows_loop n : Z.of_nat n <= h - 1 -> 1 <= w -> forall s, inv (Z.of_nat n) 0 s ->
    exists s', forM (down n) (fun y s => forM (down (Z.to_nat (w - 1))) (fun x s => square_step h w y x s) s) s = Ok s' /\ inv 0 0 s'.
  Proof.
    induction n as [|n IH]; intros Hn Hw s I; cbn [down forM]; [exists s; auto|].
    destruct (row_loop (Z.of_nat n) (Z.to_nat (w - 1))) with (s := s) as (s1 & E1 & I1); [lia|lia| |].
    - rewrite Z2Nat.id by lia. destruct I as (A & B & C). split; [|split].
      + intros j i Ij D. apply A; [exact Ij|]. destruct D as [D|D]; [|auto]. destruct (Z_lt_ge_dec i (w - 1)); [left; unfold done, inside in *; lia|right; unfold inner; lia].
      + intros j i Ij D. apply B; [exact Ij|]. unfold done, inner in *. lia.
      + apply (best_ext (done (Z.of_nat (S n)) 0)); [|exact C]. unfold done, inner. lia.
    - rewrite E1. cbn [bind]. apply IH; [lia|exact Hw|exact I1].
  Qed.
  Theorem squares_ok : 1 <= h -> 1 <= w -> exists v l, LargestSquareOfOnes h w mat = Ok (v, l) /\ best_of (fun _ _ => True) v l.
  Proof.
    intros Hh Hw. unfold LargestSquareOfOnes.
    destruct (rows_loop (Z.to_nat (h - 1))) with (s := Best mat (-1) None) as (s & E & A & B & C); [lia|exact Hw| |].
    - rewrite Z2Nat.id by lia. unfold inv. cbn [b_mat b_val b_loc]. split; [|split].
      + intros j i Ij D. assert (Bd : j = h - 1 \/ i = w - 1) by (unfold done, inner, inside in *; lia).
        destruct (MP j i Ij) as [[E Py]|[E Py]]; rewrite E.
        * apply largest_border; [exact Bd|]. apply full1; assumption.
        * apply largest_zero. rewrite full1; assumption.
      + intros j i Ij D. reflexivity.
      + split; [reflexivity|]. unfold done, inner. intros j i Ij D. lia.
    - rewrite E. cbn [bind]. exists (b_val s), (b_loc s). split; [reflexivity|]. apply (best_ext (done 0 0)); [|exact C]. unfold done, inner. lia.
  Qed.
End Square.

(** ** Text *)
Definition ws (s : text) : Prop := Forall (fun a => is_ws a = true) s.
Lemma lstrip_ws p s : ws p -> lstrip (p ++ s) = lstrip s.
Proof. induction 1 as [|a p Ha _ IH]; [reflexivity|]. cbn [app lstrip]. rewrite Ha. exact IH. Qed.
Lemma lstrip_split s : exists p, ws p /\ s = p ++ lstrip s.
Proof.
  induction s as [|a s (p & W & E)]; [exists []; split; [constructor|reflexivity]|]. cbn [lstrip]. destruct (is_ws a) eqn:Ea.
  - exists (a :: p). split; [constructor; assumption|]. cbn [app]. congruence.
  - exists []. split; [constructor|reflexivity].
Qed.
Lemma lstrip_app s q : lstrip s <> [] -> lstrip (s ++ q) = lstrip s ++ q.
Proof.
  induction s as [|a s IH]; cbn [lstrip app]; [contradiction|]. destruct (is_ws a); [exact IH|reflexivity].
Qed.
Lemma lstrip_nil s : lstrip s = [] <-> ws s.
Proof.
  split; [|intros W; rewrite <- (app_nil_r s); rewrite lstrip_ws by exact W; reflexivity].
  induction s as [|a s IH]; cbn [lstrip]; intros H; [constructor|]. destruct (is_ws a) eqn:Ea; [constructor; [exact Ea|apply IH; exact H]|discriminate].
Qed.
Lemma ws_rev s : ws s -> ws (rev s). Proof. apply Forall_rev. Qed.
Lemma strip_pad p s q : ws p -> ws q -> strip (p ++ s ++ q) = strip s.
Proof.
  intros Wp Wq. unfold strip. rewrite lstrip_ws by exact Wp. destruct (lstrip s) as [|a r] eqn:E.
  - apply lstrip_nil in E. replace (lstrip (s ++ q)) with (@nil ascii); [reflexivity|]. symmetry. apply lstrip_nil. apply Forall_app. auto.
  - rewrite lstrip_app by congruence. rewrite E. rewrite rev_app_distr. rewrite lstrip_ws by (apply ws_rev; exact Wq). reflexivity.
Qed.
Definition rstrip (s : text) : text := rev (lstrip (rev s)).
Lemma rstrip_split s : exists q, ws q /\ s = rstrip s ++ q.
Proof.
  destruct (lstrip_split (rev s)) as (p & W & E). exists (rev p). split; [apply ws_rev; exact W|]. unfold rstrip.
  rewrite <- rev_app_distr, <- E, rev_involutive. reflexivity.
Qed.
Lemma strip_eq' s : strip s = rstrip (lstrip s). Proof. reflexivity. Qed.
(** same text up to white space at the ends *)
Definition padded (f f' : text) : Prop := exists p q, ws p /\ ws q /\ f = p ++ f' ++ q.
Lemma padded_strip f f' : padded f f' -> strip f = strip f'.
Proof. intros (p & q & Wp & Wq & ->). apply strip_pad; assumption. Qed.
Lemma padded_refl f : padded f f. Proof. exists [], []. split; [constructor|]. split; [constructor|]. rewrite app_nil_r. reflexivity. Qed.
Lemma padded_trans a b c : padded a b -> padded b c -> padded a c.
Proof.
  intros (p & q & Wp & Wq & ->) (p' & q' & Wp' & Wq' & ->). exists (p ++ p'), (q' ++ q). split; [apply Forall_app; auto|]. split; [apply Forall_app; auto|]. rewrite <- !app_assoc. reflexivity.
Qed.
Lemma padded_free c f f' : padded f f' -> free c f -> free c f'.
Proof. intros (p & q & _ & _ & ->) F I. apply F. apply in_or_app. right. apply in_or_app. left. exact I. Qed.
Lemma strip_nonempty f : strip f <> [] <-> exists a, In a f /\ is_ws a = false.
Proof.
  split.
  - intros H. destruct (lstrip f) as [|a r] eqn:E; [exfalso; apply H; unfold strip; rewrite E; reflexivity|].
    destruct (lstrip_split f) as (p & _ & Ef). exists a. split; [rewrite Ef, E; apply in_or_app; right; left; reflexivity|].
    clear -E. induction f as [|b f IH]; cbn [lstrip] in E; [discriminate|]. destruct (is_ws b) eqn:Eb; [auto|]. injection E as -> _. exact Eb.
  - intros (a & Ia & Na) H. unfold strip in H. apply (f_equal (@rev ascii)) in H. rewrite rev_involutive in H. cbn [rev] in H. apply lstrip_nil in H. apply ws_rev in H. rewrite rev_involutive in H.
    destruct (lstrip_split f) as (p & W & E). rewrite E in Ia. apply in_app_or in Ia. unfold ws in *. rewrite Forall_forall in W, H. destruct Ia as [I|I]; [apply W in I|apply H in I]; congruence.
Qed.

Lemma comma_ws : is_ws comma = false. Proof. reflexivity. Qed.
Lemma lstrip_comma f r : lstrip (f ++ comma :: r) = lstrip f ++ comma :: r.
Proof. induction f as [|a f IH]; cbn [app lstrip]; [reflexivity|]. destruct (is_ws a); [exact IH|reflexivity]. Qed.
Lemma rstrip_comma f r : rstrip (f ++ comma :: r) = f ++ comma :: rstrip r.
Proof.
  unfold rstrip. rewrite rev_app_distr. cbn [rev]. rewrite <- app_assoc. cbn [app]. rewrite lstrip_comma. rewrite rev_app_distr. cbn [rev]. rewrite rev_involutive, <- app_assoc. reflexivity.
Qed.
Lemma lstrip_join fs : fs <> [] -> exists fs', join comma fs' = lstrip (join comma fs) /\ Forall2 padded fs fs'.
Proof.
  assert (R : forall l, Forall2 padded l l) by (induction l; constructor; auto using padded_refl).
  destruct fs as [|f r]; [contradiction|]. intros _. exists (lstrip f :: r).
  assert (X : Forall2 padded (f :: r) (lstrip f :: r)).
  { constructor; [|apply R]. destruct (lstrip_split f) as (p & W & E). exists p, []. split; [exact W|]. split; [constructor|]. rewrite app_nil_r. exact E. }
  split; [|exact X]. destruct r as [|g r]; [reflexivity|]. cbn [join]. rewrite lstrip_comma. reflexivity.
Qed.
Lemma rstrip_join fs : fs <> [] -> exists fs', join comma fs' = rstrip (join comma fs) /\ Forall2 padded fs fs'.
Proof.
  induction fs as [|f r IH]; [contradiction|]. intros _. destruct r as [|g r].
  - exists [rstrip f]. split; [reflexivity|]. constructor; [|constructor]. destruct (rstrip_split f) as (q & W & E). exists [], q. split; [constructor|]. split; [exact W|exact E].
  - destruct IH as (fs' & E & F); [discriminate|]. exists (f :: fs'). split; [|constructor; [apply padded_refl|exact F]].
    inversion F; subst. change (join comma (f :: g :: r)) with (f ++ comma :: join comma (g :: r)). rewrite rstrip_comma, <- E. reflexivity.
Qed.
Lemma Forall2_trans' l1 l2 l3 : Forall2 padded l1 l2 -> Forall2 padded l2 l3 -> Forall2 padded l1 l3.
Proof.
  intros H. revert l3. induction H; intros l3 H3; inversion H3; subst; constructor; eauto using padded_trans.
Qed.
Lemma strip_join fs : fs <> [] -> exists fs', join comma fs' = strip (join comma fs) /\ Forall2 padded fs fs'.
Proof.
  intros N. destruct (lstrip_join fs N) as (f1 & E1 & F1). assert (N1 : f1 <> []) by (intros ->; inversion F1; subst; contradiction).
  destruct (rstrip_join f1 N1) as (f2 & E2 & F2). exists f2. split; [rewrite strip_eq', <- E1; exact E2|]. eapply Forall2_trans'; eassumption.
Qed.
Lemma split_free d s : free d s -> split d s = [s].
Proof.
  induction s as [|a s IH]; intros F; [reflexivity|]. apply free_cons in F. destruct F as [Na F]. cbn [split]. destruct (Ascii.eqb a d) eqn:E; [apply Ascii.eqb_eq in E; contradiction|].
  rewrite IH by exact F. reflexivity.
Qed.
Lemma split_cons d f r : free d f -> split d (f ++ d :: r) = f :: split d r.
Proof.
  induction f as [|a f IH]; intros F; cbn [app split]; [rewrite Ascii.eqb_refl; reflexivity|]. apply free_cons in F. destruct F as [Na F].
  destruct (Ascii.eqb a d) eqn:E; [apply Ascii.eqb_eq in E; contradiction|]. rewrite IH by exact F. reflexivity.
Qed.
Lemma split_join fs : fs <> [] -> Forall (free comma) fs -> split comma (join comma fs) = fs.
Proof.
  induction fs as [|f r IH]; [contradiction|]. intros _ F. apply Forall_cons_iff in F. destruct F as [F1 F2]. destruct r as [|g r].
  - apply split_free. exact F1.
  - change (join comma (f :: g :: r)) with (f ++ comma :: join comma (g :: r)). rewrite split_cons by exact F1. rewrite IH by (discriminate || exact F2). reflexivity.
Qed.
Lemma pjoin_join d l : pjoin d l = join d l.
Proof. induction l as [|f r IH]; [reflexivity|]. cbn [pjoin join]. destruct r; [reflexivity|]. rewrite IH. reflexivity. Qed.

(** a line as read: followed by an end of line, or not *)
Definition line_of (l l' : text) : Prop := l' = l ++ [nl] \/ l' = l.
Lemma readlines_cons l r : free nl l -> readlines (l ++ nl :: r) = (l ++ [nl]) :: readlines r.
Proof.
  induction l as [|a l IH]; intros F; cbn [app readlines]; [reflexivity|]. apply free_cons in F. destruct F as [Na F].
  destruct (Ascii.eqb a nl) eqn:E; [apply Ascii.eqb_eq in E; contradiction|]. rewrite IH by exact F. reflexivity.
Qed.
Lemma readlines_end l : free nl l -> l <> [] -> readlines l = [l].
Proof.
  induction l as [|a l IH]; intros F N; [contradiction|]. apply free_cons in F. destruct F as [Na F]. cbn [readlines].
  destruct (Ascii.eqb a nl) eqn:E; [apply Ascii.eqb_eq in E; contradiction|]. destruct l as [|b l]; [reflexivity|]. rewrite IH by (discriminate || exact F). reflexivity.
Qed.
Lemma readlines_all ls r : Forall (free nl) ls -> readlines (concat (map (fun l => l ++ [nl]) ls) ++ r) = map (fun l => l ++ [nl]) ls ++ readlines r.
Proof.
  induction 1 as [|l ls F _ IH]; [reflexivity|]. cbn [map concat]. rewrite <- !app_assoc. cbn [app]. rewrite readlines_cons by exact F. rewrite IH. reflexivity.
Qed.
Lemma readlines_file lines s : file_of lines s -> Forall2 line_of lines (readlines s).
Proof.
  assert (X : forall ls, Forall2 line_of ls (map (fun l => l ++ [nl]) ls)) by (induction ls; constructor; [left; reflexivity|assumption]).
  intros [F [->|(ls & l & -> & N & ->)]].
  - rewrite <- (app_nil_r (concat _)). rewrite readlines_all by exact F. cbn [readlines]. rewrite app_nil_r. apply X.
  - apply Forall_app in F. destruct F as [F1 F2]. apply Forall_inv in F2. rewrite readlines_all by exact F1. rewrite readlines_end by assumption.
    apply Forall2_app; [apply X|]. constructor; [right; reflexivity|constructor].
Qed.
Lemma line_padded l l' : line_of l l' -> padded l' l.
Proof. intros [->| ->]; [|apply padded_refl]. exists [], [nl]. split; [constructor|]. split; [repeat constructor|reflexivity]. Qed.

(** the rows the script reads: the fields of the file, with some of the white space around them removed *)
Lemma py_rows_ok rows s : layout_text rows (univ false s) -> Forall2 (Forall2 padded) rows (py_rows s).
Proof.
  intros [F L]. apply readlines_file in L. unfold py_rows. remember (readlines (univ false s)) as ls eqn:E. clear E s. revert ls L.
  induction rows as [|fs rows IH]; intros ls L; inversion L; subst; cbn [map]; [constructor|]. apply Forall_cons_iff in F. destruct F as [[N Fc] F].
  constructor; [|apply IH; assumption]. rewrite (padded_strip _ _ (line_padded _ _ H1)).
  destruct (strip_join fs N) as (fs' & E & G). rewrite <- E. rewrite split_join; [exact G| |].
  - intros ->. inversion G. subst. contradiction.
  - clear -G Fc. induction G as [|f f' l l' Pd _ IH]; [constructor|]. apply Forall_cons_iff in Fc. destruct Fc. constructor; [eapply padded_free; eassumption|auto].
Qed.
Lemma rows_free c rows rows' : Forall2 (Forall2 padded) rows rows' -> Forall (Forall (free c)) rows -> Forall (Forall (free c)) rows'.
Proof.
  induction 1 as [|r r' l l' Hr _ IH]; intros F; [constructor|]. apply Forall_cons_iff in F. destruct F as [F1 F2]. constructor; [|auto].
  clear -Hr F1. induction Hr as [|f f' l l' Pd _ IH]; [constructor|]. apply Forall_cons_iff in F1. destruct F1. constructor; [eapply padded_free; eassumption|auto].
Qed.
Lemma join_free_inv c d fs : free c (join d fs) -> Forall (free c) fs.
Proof.
  induction fs as [|f r IH]; intros F; [constructor|]. destruct r as [|g r]; [constructor; [exact F|constructor]|].
  change (join d (f :: g :: r)) with (f ++ d :: join d (g :: r)) in F. apply free_app in F. destruct F as [F1 F2]. apply free_cons in F2. constructor; [exact F1|apply IH; tauto].
Qed.
Lemma layout_fields rows s : layout_text rows s -> Forall (Forall (free comma)) rows /\ Forall (Forall (free nl)) rows.
Proof.
  intros [F [L _]]. split.
  - eapply Forall_impl; [|exact F]. cbn. tauto.
  - clear F. induction rows as [|r rows IH]; [constructor|]. apply Forall_cons_iff in L. destruct L. constructor; [eapply join_free_inv; eassumption|auto].
Qed.
Lemma F2_nth {A B} (Q : A -> B -> Prop) l l' n a b : Forall2 Q l l' -> Q a b -> Q (nth n l a) (nth n l' b).
Proof. intros H D. revert n. induction H; intros [|n]; cbn [nth]; auto. Qed.
Lemma py_rows_nth rows s y x : layout_text rows (univ false s) -> strip (nth x (nth y (py_rows s) []) []) = strip (nth x (nth y rows []) []).
Proof.
  intros H. symmetry. apply padded_strip. apply F2_nth; [|apply padded_refl]. apply F2_nth; [|constructor]. apply py_rows_ok. exact H.
Qed.
Lemma F2_length {A B} (Q : A -> B -> Prop) l l' : Forall2 Q l l' -> List.length l = List.length l'.
Proof. induction 1; cbn; congruence. Qed.
Lemma py_rows_lengths rows s : layout_text rows (univ false s) -> map (@List.length text) (py_rows s) = map (@List.length text) rows.
Proof.
  intros H. apply py_rows_ok in H. induction H; cbn [map]; [reflexivity|]. f_equal; [symmetry; eapply F2_length; eassumption|assumption].
Qed.
