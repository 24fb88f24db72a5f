(** Elementary facts linking the direction tables of Base.v to the vocabulary of RasterSpec.v. *)
From Coq Require Import ZArith List Lia.
From Verif Require Import Base RasterSpec.
Open Scope Z_scope.

Lemma in_raster_iff w h x y : in_raster w h x y <-> inGrid w h x y = true.
Proof. rewrite inGrid_iff. reflexivity. Qed.

Lemma dirs_In t n : In n (dirs t) <-> (1 <= n <= nmax t)%nat.
Proof. unfold dirs. rewrite in_seq. lia. Qed.

Lemma adjacent_iff t x y x' y' :
  adjacent t x y x' y' <-> exists n, In n (dirs t) /\ x' = x + dx t n /\ y' = y + dy t n.
Proof.
  split.
  - destruct t; unfold adjacent; intros H.
    + destruct H as [Hne [Hx Hy]].
      assert (Cx : x' - x = -1 \/ x' - x = 0 \/ x' - x = 1) by lia.
      assert (Cy : y' - y = -1 \/ y' - y = 0 \/ y' - y = 1) by lia.
      assert (Hne' : ~ (x' - x = 0 /\ y' - y = 0)).
      { intros [? ?]; apply Hne; f_equal; lia. }
      destruct Cx as [Cx|[Cx|Cx]]; destruct Cy as [Cy|[Cy|Cy]]; try tauto;
      [exists 2%nat|exists 1%nat|exists 8%nat|exists 3%nat|exists 7%nat|exists 4%nat|exists 5%nat|exists 6%nat];
      (split; [apply dirs_In; simpl; lia|cbn; lia]).
    + assert (C : (x' - x = -1 /\ y' - y = 0) \/ (x' - x = 0 /\ y' - y = -1) \/
                  (x' - x = 1 /\ y' - y = 0) \/ (x' - x = 0 /\ y' - y = 1)) by lia.
      destruct C as [C|[C|[C|C]]];
      [exists 1%nat|exists 2%nat|exists 3%nat|exists 4%nat];
      (split; [apply dirs_In; simpl; lia|cbn; lia]).
  - intros [n [Hn [-> ->]]]. apply dirs_In in Hn.
    destruct t; cbn [nmax] in Hn; unfold adjacent.
    + assert (C : (n = 1 \/ n = 2 \/ n = 3 \/ n = 4 \/ n = 5 \/ n = 6 \/ n = 7 \/ n = 8)%nat) by lia.
      destruct C as [->|[->|[->|[->|[->|[->|[->| ->]]]]]]]; cbn;
      (split; [intros E; inversion E; lia|lia]).
    + assert (C : (n = 1 \/ n = 2 \/ n = 3 \/ n = 4)%nat) by lia.
      destruct C as [->|[->|[->| ->]]]; cbn; lia.
Qed.

Lemma adjacent_sym t x y x' y' : adjacent t x y x' y' -> adjacent t x' y' x y.
Proof.
  destruct t; unfold adjacent; intros H; [|lia].
  destruct H as [Hne [H1 H2]]. split; [congruence|lia].
Qed.

Lemma adjacent_neq t x y x' y' : adjacent t x y x' y' -> (x, y) <> (x', y').
Proof. destruct t; unfold adjacent; intros H; [tauto|]. intros E; inversion E; subst; lia. Qed.

Lemma adjacent_left t x y : adjacent t x y (x - 1) y.
Proof. destruct t; unfold adjacent; [split; [intros E; inversion E; lia|lia]|lia]. Qed.
Lemma adjacent_right t x y : adjacent t x y (x + 1) y.
Proof. destruct t; unfold adjacent; [split; [intros E; inversion E; lia|lia]|lia]. Qed.

Lemma drains_le t w h e L L' x y : drains t w h e L x y -> L <= L' -> drains t w h e L' x y.
Proof.
  intros H HL. induction H as [x y He Hle|x y x' y' Hr Hle Ha Hd IH].
  - apply drains_edge; auto; lia.
  - eapply drains_step; eauto; lia.
Qed.

Lemma drains_here t w h e L x y : drains t w h e L x y -> e x y <= L.
Proof. destruct 1; auto. Qed.

Lemma drains_raster t w h e L x y : drains t w h e L x y -> in_raster w h x y.
Proof. destruct 1 as [x y [H _]|]; auto. Qed.

Lemma drainage_level_unique t w h e x y L L' :
  drainage_level t w h e x y L -> drainage_level t w h e x y L' -> L = L'.
Proof. intros [H1 H2] [H3 H4]. apply H2 in H3. apply H4 in H1. lia. Qed.

Lemma drainage_level_edge t w h e x y : on_edge w h x y -> drainage_level t w h e x y (e x y).
Proof.
  intros He. split; [apply drains_edge; auto; lia|]. intros L' H. eapply drains_here; eauto.
Qed.

Lemma drainage_level_ge t w h e x y L : drainage_level t w h e x y L -> e x y <= L.
Proof. intros [H _]. eapply drains_here; eauto. Qed.

(** The level depends only on the terrain inside the raster. *)
Lemma drains_ext t w h e e' L x y :
  (forall x y, in_raster w h x y -> e x y = e' x y) -> drains t w h e L x y -> drains t w h e' L x y.
Proof.
  intros E H. induction H as [x y He Hle|x y x' y' Hr Hle Ha Hd IH].
  - apply drains_edge; auto. rewrite <- E; [auto|]. destruct He; auto.
  - eapply drains_step; eauto. rewrite <- E; auto.
Qed.

Lemma drains_mono t w h e e' L x y :
  (forall x y, in_raster w h x y -> e' x y <= e x y) -> drains t w h e L x y -> drains t w h e' L x y.
Proof.
  intros E H. induction H as [x y He Hle|x y x' y' Hr Hle Ha Hd IH].
  - apply drains_edge; auto. assert (in_raster w h x y) by (destruct He; auto).
    specialize (E x y H); lia.
  - eapply drains_step; eauto. specialize (E x y Hr); lia.
Qed.
