(** Proofs about the miscellaneous methods. *)
From Coq Require Import ZArith List Lia Bool Permutation QArith QArith.Qcanon.
From Verif Require Import Base Res RasterSpec RasterFacts FlatsSpec Kahn PATile MiscSpec MiscModel.
Import ListNotations.
Open Scope Z_scope.

Section Fill.
  Variables (t : topology) (w h : Z) (chk : grid Z) (cv sv : Z) (set0 : grid Z).
  Notation pable := (paintable w h chk cv sv set0).
  Definition at_ (i : Z) : cell := (i mod w, i / w).
  Definition in_range (i : Z) : Prop := 0 <= i < w * h.
  Variable seeds0 : list Z.
  Definition seed (p : cell) : Prop := exists i, In i seeds0 /\ numbered_cell w i p.
  Notation ptd := (painted t w h chk cv sv set0 seed).

  Lemma range_pos i : in_range i -> 0 <= h -> 0 < w /\ 0 < h.
  Proof. unfold in_range. intros H Hh. destruct (Z.le_gt_cases w 0); [nia|]. split; [lia|]. nia. Qed.
  Lemma at_inside i : 0 < w -> in_range i -> inside w h (at_ i).
  Proof.
    intros Hw H. unfold in_range in H. unfold inside, in_raster, at_. cbn [fst snd]. split; [apply Z.mod_pos_bound; exact Hw|].
    split; [apply Z.div_pos; lia|apply Z.div_lt_upper_bound; lia].
  Qed.
  Lemma at_idx x y : 0 <= x < w -> at_ (y * w + x) = (x, y).
  Proof.
    intros Hx. unfold at_. rewrite Z.add_comm, Z.mod_add by lia. rewrite Z.mod_small by lia. rewrite Z.div_add by lia.
    rewrite Z.div_small by lia. reflexivity.
  Qed.
  Lemma idx_at i : 0 < w -> snd (at_ i) * w + fst (at_ i) = i.
  Proof. intros Hw. unfold at_. cbn [fst snd]. pose proof (Z.div_mod i w). lia. Qed.
  Lemma idx_range x y : in_raster w h x y -> in_range (y * w + x).
  Proof. intros [Hx Hy]. unfold in_range. nia. Qed.

  Lemma push_In (set : grid Z) x y : forall q i,
    In i (neighbours_of t w h chk cv sv set x y q) <->
    In i q \/ exists x' y', adjacent t x y x' y' /\ in_raster w h x' y' /\ chk x' y' = cv /\ set x' y' <> sv /\ i = y' * w + x'.
  Proof.
    unfold neighbours_of.
    assert (G : forall ns q i, In i (fold_left (fun q n => let x' := x + dx t n in let y' := y + dy t n in
        if inGrid w h x' y' then if (chk x' y' =? cv) && negb (set x' y' =? sv) then (y' * w + x') :: q else q else q) ns q) <->
      In i q \/ exists n, In n ns /\ in_raster w h (x + dx t n) (y + dy t n) /\ chk (x + dx t n) (y + dy t n) = cv /\
        set (x + dx t n) (y + dy t n) <> sv /\ i = (y + dy t n) * w + (x + dx t n)).
    { induction ns as [|n ns IH]; intros q i; cbn [fold_left].
      - split; [auto|]. intros [?|[n [[] _]]]; auto.
      - rewrite IH. cbv zeta. clear IH.
        destruct (inGrid w h (x + dx t n) (y + dy t n)) eqn:E1; [destruct (Z.eqb_spec (chk (x + dx t n) (y + dy t n)) cv) as [E2|E2]; [destruct (Z.eqb_spec (set (x + dx t n) (y + dy t n)) sv) as [E3|E3]|]|]; cbn [andb negb].
        + split; (intros [?|[m [Im X]]]; [auto|]); right; exists m; [split; [right|]; tauto|destruct Im as [<-|Im]; [tauto|split; tauto]].
        + split.
          * intros [[<-|?]|[m [Im X]]]; [|auto|]; right; [exists n|exists m; split; [right|]; tauto].
            split; [left; reflexivity|]. split; [apply in_raster_iff; exact E1|]. auto.
          * intros [?|[m [[<-|Im] X]]]; [left; right; auto| |right; exists m; auto]. left. left. symmetry. apply X.
        + split; (intros [?|[m [Im X]]]; [auto|]); right; exists m; [split; [right|]; tauto|destruct Im as [<-|Im]; [tauto|split; tauto]].
        + split; (intros [?|[m [Im X]]]; [auto|]); right; exists m; [split; [right|]; tauto|destruct Im as [<-|Im]; [|split; tauto]].
          exfalso. destruct X as [X _]. apply in_raster_iff in X. congruence. }
    intros q i. rewrite G. split; (intros [?|X]; [auto|right]).
    - destruct X as [n [In_ [R [A [B ->]]]]]. exists (x + dx t n), (y + dy t n). split; [apply adjacent_iff; exists n; auto|auto].
    - destruct X as [x' [y' [A X]]]. apply adjacent_iff in A. destruct A as [n [In_ [-> ->]]]. exists n. auto.
  Qed.
  Lemma push_length (set : grid Z) x y q : (length (neighbours_of t w h chk cv sv set x y q) <= length q + 8)%nat.
  Proof.
    assert (G : forall (f : list Z -> nat -> list Z), (forall q n, (length (f q n) <= S (length q))%nat) -> forall ns q, (length (fold_left f ns q) <= length q + length ns)%nat).
    { intros f Hf. induction ns as [|n ns IH]; intros q'; cbn [fold_left length]; [lia|]. eapply Nat.le_trans; [apply IH|]. specialize (Hf q' n). lia. }
    unfold neighbours_of. eapply Nat.le_trans; [apply G|destruct t; cbn; lia]. intros q' n. cbv zeta. destruct (inGrid _ _ _ _); [destruct (_ && _)|]; cbn [length]; lia.
  Qed.

  Record FI (q : list Z) (set : grid Z) : Prop := {
    fi_range : forall i, In i q -> in_range i;
    fi_set : forall p, inside w h p -> elev_at set p = elev_at set0 p \/ (elev_at set p = sv /\ ptd p);
    fi_out : forall x y, ~ in_raster w h x y -> set x y = set0 x y;
    fi_seed : forall p, seed p -> pable p -> elev_at set p = sv \/ In (snd p * w + fst p) q;
    fi_next : forall p p', ptd p -> elev_at set p = sv -> adjacent t (fst p) (snd p) (fst p') (snd p') -> pable p' -> elev_at set p' = sv \/ In (snd p' * w + fst p') q;
    fi_queue : forall i, In i q -> pable (at_ i) -> ptd (at_ i) }.

  Definition mu (q : list Z) (set : grid Z) : nat := length q + 9 * unclosed (fun x y => set x y =? sv) w h.

  Lemma fill_run : 0 < w -> forall fuel q set, FI q set -> (mu q set <= fuel)%nat ->
    exists set', BucketFill t w h chk cv sv fuel q set = Some (Ok set') /\ FI [] set'.
  Proof.
    intros Hw. induction fuel as [|f IH]; intros q set J Hf.
    - destruct q as [|c q]; [exists set; split; [reflexivity|exact J]|]. unfold mu in Hf. cbn [length] in Hf. lia.
    - destruct q as [|c q]; [exists set; split; [reflexivity|exact J]|]. cbn [BucketFill].
      pose proof (fi_range _ _ J c (or_introl eq_refl)) as Rc. pose proof (at_inside c Hw Rc) as Ic.
      destruct Rc as [R1 R2]. rewrite (proj2 (Z.leb_le _ _) R1), (proj2 (Z.ltb_lt _ _) R2). cbn [andb].
      set (x := c mod w) in *. set (y := c / w) in *. assert (Ec : at_ c = (x, y)) by reflexivity.
      assert (SK : (chk x y = cv /\ set x y <> sv) \/ (chk x y <> cv \/ set x y = sv)) by (destruct (Z.eq_dec (chk x y) cv), (Z.eq_dec (set x y) sv); tauto).
      destruct SK as [[S1 S2]|SK].
      + rewrite (proj2 (Z.eqb_eq _ _) S1), (proj2 (Z.eqb_neq _ _) S2). cbn [negb orb]. cbv zeta.
        assert (P0 : pable (at_ c)).
        { rewrite Ec. split; [rewrite <- Ec; exact Ic|]. split; [exact S1|]. destruct (fi_set _ _ J (x, y)) as [E|[E _]]; [rewrite <- Ec; exact Ic| |]; [intros X; apply S2; change (set x y) with (elev_at set (x, y)); congruence|contradiction]. }
        assert (PT : ptd (at_ c)) by (apply (fi_queue _ _ J); [left; reflexivity|exact P0]).
        assert (GO : forall p : cell, p <> (x, y) -> elev_at (gset set x y sv) p = elev_at set p).
        { intros [a b] Hn. unfold elev_at. cbn [fst snd]. apply gset_other. exact Hn. }
        assert (GS : elev_at (gset set x y sv) (x, y) = sv) by (apply gset_same).
        assert (dec : forall p : cell, p = (x, y) \/ p <> (x, y)).
        { intros [a b]. destruct (Z.eq_dec a x) as [->|]; [destruct (Z.eq_dec b y) as [->|]|]; [left; reflexivity| |]; right; congruence. }
        destruct (IH (neighbours_of t w h chk cv sv (gset set x y sv) x y q) (gset set x y sv)) as [set' [E J']].
        * constructor.
          -- intros i Hi. apply push_In in Hi. destruct Hi as [Hi|[x' [y' [A [B [_ [_ ->]]]]]]]; [apply (fi_range _ _ J); right; exact Hi|apply idx_range; exact B].
          -- intros p Hp. destruct (dec p) as [->|Hn]; [right; split; [exact GS|rewrite <- Ec; exact PT]|]. rewrite GO by exact Hn. apply (fi_set _ _ J); exact Hp.
          -- intros a b Hab. rewrite gset_other; [apply (fi_out _ _ J); exact Hab|]. intros [= -> ->]. apply Hab. exact Ic.
          -- intros p Sp Pp. destruct (dec p) as [->|Hn]; [left; exact GS|]. rewrite GO by exact Hn. destruct (fi_seed _ _ J p Sp Pp) as [X|[X|X]]; [auto| |right; apply push_In; auto].
             exfalso. apply Hn. rewrite <- Ec, X. symmetry. destruct p as [a b]. apply at_idx. apply (proj1 (proj1 Pp)).
          -- intros p p' Hp Ep A Pp'. destruct (dec p') as [->|Hn']; [left; exact GS|]. rewrite (GO p' Hn'). destruct (dec p) as [->|Hn].
             ++ destruct (Z.eq_dec (elev_at set p') sv) as [X|X]; [left; exact X|right]. apply push_In. right. exists (fst p'), (snd p'). split; [exact A|]. split; [apply Pp'|]. split; [apply Pp'|]. split; [|reflexivity].
                rewrite <- (GO p' Hn') in X. exact X.
             ++ rewrite (GO p Hn) in Ep. destruct (fi_next _ _ J p p' Hp Ep A Pp') as [X|[X|X]]; [auto| |right; apply push_In; auto].
                exfalso. apply Hn'. rewrite <- Ec, X. symmetry. destruct p' as [a b]. apply at_idx. apply (proj1 (proj1 Pp')).
          -- intros i Hi Pi. apply push_In in Hi. destruct Hi as [Hi|[x' [y' [A [B [C [D ->]]]]]]]; [apply (fi_queue _ _ J); [right; exact Hi|exact Pi]|].
             rewrite at_idx in * by apply B. apply painted_next with (x, y); [rewrite <- Ec; exact PT|exact A|exact Pi].
        * pose proof (push_length (gset set x y sv) x y q). unfold mu in *. cbn [length] in Hf. destruct Ic as [I1 I2]. rewrite Ec in I1, I2. cbn [fst snd] in I1, I2.
          rewrite (unclosed_gset (fun x y => set x y =? sv) w h x y I1 I2) in Hf by (apply Z.eqb_neq; exact S2).
          assert (U : unclosed (fun a b => gset set x y sv a b =? sv) w h = unclosed (gset (fun x y => set x y =? sv) x y true) w h).
          { unfold unclosed. apply filter_ext_length. intros [a b] _. cbn [fst snd]. f_equal. destruct (gset_cases set x y sv a b) as [[E1 E2]|[E1 E2]].
            - rewrite E2, Z.eqb_refl. injection E1 as -> ->. rewrite gset_same. reflexivity.
            - rewrite E2, gset_other by exact E1. reflexivity. }
          rewrite U. lia.
        * exists set'. split; [exact E|exact J'].
      + assert (B : negb (chk x y =? cv) || (set x y =? sv) = true) by (apply orb_true_iff; destruct SK as [X|X]; [left; apply negb_true_iff, Z.eqb_neq; exact X|right; apply Z.eqb_eq; exact X]).
        rewrite B. apply IH.
        * assert (F : forall p, pable p -> snd p * w + fst p = c -> elev_at set p = sv).
          { intros p Pp X. assert (p = (x, y)) as -> by (rewrite <- Ec, <- X; symmetry; destruct p as [a b]; apply at_idx; apply (proj1 (proj1 Pp))).
            destruct SK as [Y|Y]; [destruct Pp as [_ [Z1 _]]; contradiction|exact Y]. }
          constructor.
          -- intros i Hi. apply (fi_range _ _ J). right. exact Hi.
          -- apply (fi_set _ _ J).
          -- apply (fi_out _ _ J).
          -- intros p Sp Pp. destruct (fi_seed _ _ J p Sp Pp) as [X|[X|X]]; [auto|left; apply F; auto|auto].
          -- intros p p' Hp Ep A Pp'. destruct (fi_next _ _ J p p' Hp Ep A Pp') as [X|[X|X]]; [auto|left; apply F; auto|auto].
          -- intros i Hi. apply (fi_queue _ _ J). right. exact Hi.
        * unfold mu in *. cbn [length] in Hf. lia.
  Qed.

  Lemma fill_start : 0 < w -> (forall i, In i seeds0 -> in_range i) -> FI seeds0 set0.
  Proof.
    intros Hw HR. constructor; auto.
    - intros p [i [Ii [-> _]]] _. auto.
    - intros p p' Hp Ep. exfalso. destruct Hp as [p X Y|p q X A Y]; destruct Y as [_ [_ Y]]; apply Y; exact Ep.
    - intros i Ii Pi. apply painted_seed; [|exact Pi]. exists i. split; [exact Ii|]. split; [symmetry; apply idx_at; exact Hw|]. apply (at_inside i Hw (HR i Ii)).
  Qed.

  Lemma fill_ok : 0 < w -> (forall i, In i seeds0 -> in_range i) -> exists n, forall fuel, (n <= fuel)%nat ->
    exists set', BucketFill t w h chk cv sv fuel seeds0 set0 = Some (Ok set') /\
      (forall p, ptd p -> elev_at set' p = sv) /\ (forall p, ptd p \/ elev_at set' p = elev_at set0 p).
  Proof.
    intros Hw HR. exists (mu seeds0 set0). intros fuel Hf. destruct (fill_run Hw fuel seeds0 set0 (fill_start Hw HR) Hf) as [set' [E J]].
    exists set'. split; [exact E|]. split.
    - induction 1 as [p Sp Pp|p q Hp IHp A Pq].
      + destruct (fi_seed _ _ J p Sp Pp) as [X|[]]; exact X.
      + destruct (fi_next _ _ J p q Hp IHp A Pq) as [X|[]]; exact X.
    - intros p. assert (D : inside w h p \/ ~ inside w h p) by (unfold inside, in_raster; lia). destruct D as [D|D]; [|right; apply (fi_out _ _ J); exact D].
      destruct (fi_set _ _ J p D) as [X|[_ X]]; [right; exact X|left; exact X].
  Qed.

  Lemma fill_bad : 0 <= h -> (exists i, In i seeds0 /\ ~ in_range i) -> forall fuel set, (forall set', BucketFill t w h chk cv sv fuel seeds0 set <> Some (Ok set')) /\ BucketFill t w h chk cv sv fuel seeds0 set <> Some Thrown.
  Proof.
    intros Hh. assert (G : forall fuel q set, (exists i, In i q /\ ~ in_range i) -> (forall set', BucketFill t w h chk cv sv fuel q set <> Some (Ok set')) /\ BucketFill t w h chk cv sv fuel q set <> Some Thrown).
    { induction fuel as [|f IH]; intros q set [i [Ii Ri]]; (destruct q as [|c q]; [destruct Ii|]); cbn [BucketFill]; [split; intros; discriminate|].
      destruct ((0 <=? c) && (c <? w * h)) eqn:E; [|split; intros; discriminate].
      assert (Iq : In i q). { destruct Ii as [->|Ii]; [|exact Ii]. exfalso. apply Ri. unfold in_range. apply andb_true_iff in E. destruct E as [E1 E2]. apply Z.leb_le in E1. apply Z.ltb_lt in E2. lia. }
      destruct (_ || _); cbv zeta; apply IH; exists i; [|rewrite push_In]; auto. }
    intros X fuel set. apply G. exact X.
  Qed.
End Fill.

Lemma edge_seeds_In w h i : 0 < w -> 0 < h -> In i (edge_seeds w h) <-> exists x y, on_edge w h x y /\ i = y * w + x.
Proof.
  intros Hw Hh. unfold edge_seeds. rewrite <- in_rev, in_app_iff, !in_flat_map. unfold on_edge, in_raster. split.
  - intros [[y [Iy X]]|[x [Ix X]]]; [apply zrange_In in Iy|apply zrange_In in Ix].
    + destruct X as [<-|[<-|[]]]; [exists 0, y|exists (w - 1), y]; lia.
    + destruct X as [<-|[<-|[]]]; [exists x, 0|exists x, (h - 1)]; lia.
  - intros [x [y [[[Hx Hy] E] ->]]]. destruct (Z.eq_dec x 0) as [X|N1]; [|destruct (Z.eq_dec x (w - 1)) as [X|N2]].
    + left. exists y. split; [apply zrange_In; lia|]. left. lia.
    + left. exists y. split; [apply zrange_In; lia|]. right. left. lia.
    + right. exists x. split; [apply zrange_In; lia|]. assert (y = 0 \/ y = h - 1) as [Y|Y] by lia; subst y; [left|right; left]; lia.
Qed.

Lemma from_edges_ok t w h chk cv sv set0 : 0 < w -> 0 < h -> exists n, forall fuel, (n <= fuel)%nat ->
  exists set', BucketFillFromEdges t w h chk cv sv fuel set0 = Some (Ok set') /\
    let pt := painted t w h chk cv sv set0 (fun p => on_edge w h (fst p) (snd p)) in
    (forall p, pt p -> elev_at set' p = sv) /\ (forall p, pt p \/ elev_at set' p = elev_at set0 p).
Proof.
  intros Hw Hh. destruct (fill_ok t w h chk cv sv set0 (edge_seeds w h) Hw) as [n F].
  { intros i Ii. apply (edge_seeds_In w h i Hw Hh) in Ii. destruct Ii as [x [y [[R _] ->]]]. apply idx_range. exact R. }
  exists n. intros fuel Hf. destruct (F fuel Hf) as [set' [E [A B]]]. exists set'. split; [exact E|].
  assert (SS : forall p, seed w (edge_seeds w h) p -> paintable w h chk cv sv set0 p -> on_edge w h (fst p) (snd p)).
  { intros p [i [Ii [Ei Fp]]] _. apply (edge_seeds_In w h i Hw Hh) in Ii. destruct Ii as [x [y [Ed Ei']]].
    pose proof (at_idx w x y (proj1 (proj1 Ed))) as X1. pose proof (at_idx w (fst p) (snd p) Fp) as X2. rewrite <- Ei in X2. rewrite <- Ei' in X1. rewrite X1 in X2. injection X2 as <- <-. exact Ed. }
  assert (SE : forall p, on_edge w h (fst p) (snd p) -> seed w (edge_seeds w h) p).
  { intros p Ed. exists (snd p * w + fst p). split; [apply (edge_seeds_In w h _ Hw Hh); exists (fst p), (snd p); auto|]. split; [reflexivity|apply Ed]. }
  assert (EQ : forall p, painted t w h chk cv sv set0 (fun p => on_edge w h (fst p) (snd p)) p <-> painted t w h chk cv sv set0 (seed w (edge_seeds w h)) p).
  { intros p. split; (induction 1 as [q S1 P1|q r Hq IH Ad P1]; [apply painted_seed; auto; eapply SS; eauto|apply painted_next with q; auto]). }
  cbv zeta. split; [intros p Hp; apply A, EQ; exact Hp|intros p; rewrite EQ; apply B].
Qed.

(** ** Perimeter *)
Lemma u32_small z : 0 <= z < 2 ^ 32 -> u32 z = z.
Proof. apply Z.mod_small. Qed.
Lemma u32_add a b : u32 (u32 a + b) = u32 (a + b).
Proof. unfold u32. rewrite Zplus_mod_idemp_l. reflexivity. Qed.
Lemma u32_add_r a b : u32 (a + u32 b) = u32 (a + b).
Proof. unfold u32. rewrite Zplus_mod_idemp_r. reflexivity. Qed.

Section Perim.
  Variables (w h : Z) (arr : grid Z) (nd : Z).
  Notation dt := (data w h arr nd).
  Definition db (p : cell) : bool := inGrid w h (fst p) (snd p) && negb (arr (fst p) (snd p) =? nd).
  Lemma db_iff p : db p = true <-> dt p.
  Proof. unfold db, data, inside, elev_at. rewrite andb_true_iff, negb_true_iff, Z.eqb_neq, in_raster_iff. reflexivity. Qed.
  Lemma db_iff0 p : db p = false <-> ~ dt p.
  Proof. rewrite <- db_iff. destruct (db p); split; congruence. Qed.
  Definition b2z (b : bool) : Z := if b then 1 else 0.
  (** what one cell adds *)
  Definition ec (p : cell) : Z := b2z (db p && isEdgeCell w h (fst p) (snd p)).
  Definition hsides (p : cell) : list (cell * cell) := filter (fun s => db (fst s) && negb (db (snd s))) [(p, (fst p, snd p - 1)); (p, (fst p, snd p + 1))].
  Definition vsides (p : cell) : list (cell * cell) := filter (fun s => db (fst s) && negb (db (snd s))) [(p, (fst p - 1, snd p)); (p, (fst p + 1, snd p))].
  Definition eh (p : cell) : Z := Z.of_nat (length (hsides p)).
  Definition ev (p : cell) : Z := Z.of_nat (length (vsides p)).
  Definition pe (square : bool) (p : cell) : perim := if square then mkPerim 0 (eh p) (ev p) else mkPerim (ec p) 0 0.
  Definition plus (a b : perim) : perim := mkPerim (p_cells a + p_cells b) (p_horz a + p_horz b) (p_vert a + p_vert b).
  Definition norm (a : perim) : perim := mkPerim (u32 (p_cells a)) (u32 (p_horz a)) (u32 (p_vert a)).

  Lemma touches_existsb x y ns : touches_outside w h x y ns = existsb (fun n => negb (inGrid w h (x + dx D8 n) (y + dy D8 n))) ns.
  Proof. induction ns as [|n ns IH]; cbn [touches_outside existsb]; [reflexivity|]. rewrite IH. destruct (negb _); reflexivity. Qed.
  Lemma touches_iff x y : in_raster w h x y -> touches_outside w h x y (dirs D8) = isEdgeCell w h x y.
  Proof.
    intros [Hx Hy]. apply eq_true_iff_eq. rewrite touches_existsb, existsb_exists. unfold isEdgeCell. rewrite !orb_true_iff, !Z.eqb_eq. split.
    - intros [n [In_ B]]. apply negb_true_iff in B. assert (N : ~ in_raster w h (x + dx D8 n) (y + dy D8 n)) by (rewrite in_raster_iff; congruence).
      assert (A : adjacent D8 x y (x + dx D8 n) (y + dy D8 n)) by (apply adjacent_iff; exists n; auto). unfold adjacent in A. unfold in_raster in N. lia.
    - intros E. assert (A : exists x' y', adjacent D8 x y x' y' /\ ~ in_raster w h x' y').
      { unfold in_raster. destruct E as [[[->| ->]| ->]| ->]; [exists (-1), y|exists x, (-1)|exists w, y|exists x, h]; (split; [unfold adjacent; split; [intros [= X]; lia|lia]|lia]). }
      destruct A as [x' [y' [A N]]]. apply adjacent_iff in A. destruct A as [n [In_ [-> ->]]]. exists n. split; [exact In_|]. apply negb_true_iff. rewrite in_raster_iff in N. destruct (inGrid _ _ _ _); congruence.
  Qed.
  Lemma norm_add s a b c : norm (plus (norm s) (mkPerim a b c)) = norm (plus s (mkPerim a b c)).
  Proof. unfold norm, plus. cbn [p_cells p_horz p_vert]. rewrite !u32_add. reflexivity. Qed.
  Definition normal (s : perim) : Prop := norm s = s.
  Lemma norm_normal s : normal (norm s).
  Proof. unfold normal, norm. cbn [p_cells p_horz p_vert]. unfold u32. rewrite !Zmod_mod. reflexivity. Qed.

  Definition sqo (x y : Z) (n : nat) : bool := let x' := x + dx D8 n in let y' := y + dy D8 n in negb (inGrid w h x' y') || (arr x' y' =? nd).
  Definition sqh (x y : Z) (n : nat) : Z := b2z (sqo x y n && (dx D8 n =? 0)).
  Definition sqv (x y : Z) (n : nat) : Z := b2z (sqo x y n && (negb (dx D8 n =? 0) && (dy D8 n =? 0))).
  Lemma sq_fold x y : forall ns s, normal s ->
    fold_left (fun s n => let x' := x + dx D8 n in let y' := y + dy D8 n in
      if negb (inGrid w h x' y') || (arr x' y' =? nd) then
        if dx D8 n =? 0 then mkPerim (p_cells s) (u32 (p_horz s + 1)) (p_vert s)
        else if dy D8 n =? 0 then mkPerim (p_cells s) (p_horz s) (u32 (p_vert s + 1))
        else s
      else s) ns s = norm (plus s (mkPerim 0 (zsum (sqh x y) ns) (zsum (sqv x y) ns))).
  Proof.
    induction ns as [|n ns IH]; intros s NS; cbn [fold_left].
    - unfold zsum, asum, plus. cbn [map fold_right p_cells p_horz p_vert]. rewrite !Z.add_0_r. symmetry. destruct s. exact NS.
    - cbv zeta in *.
      assert (E : (if negb (inGrid w h (x + dx D8 n) (y + dy D8 n)) || (arr (x + dx D8 n) (y + dy D8 n) =? nd) then
          if dx D8 n =? 0 then mkPerim (p_cells s) (u32 (p_horz s + 1)) (p_vert s)
          else if dy D8 n =? 0 then mkPerim (p_cells s) (p_horz s) (u32 (p_vert s + 1)) else s else s) = norm (plus s (mkPerim 0 (sqh x y n) (sqv x y n)))).
      { unfold sqh, sqv, sqo. cbv zeta. destruct s as [a b c]. pose proof NS as NS'. unfold normal, norm in NS'. cbn [p_cells p_horz p_vert] in NS'. injection NS' as N1 N2 N3. unfold norm, plus. cbn [p_cells p_horz p_vert].
        destruct (negb (inGrid w h (x + dx D8 n) (y + dy D8 n)) || (arr (x + dx D8 n) (y + dy D8 n) =? nd)); [destruct (dx D8 n =? 0); [|destruct (dy D8 n =? 0)]|]; cbn [andb negb b2z]; rewrite ?Z.add_0_r, ?N1, ?N2, ?N3; reflexivity. }
      rewrite E. rewrite IH by apply norm_normal. rewrite norm_add. rewrite !zsum_cons. unfold norm, plus. cbn [p_cells p_horz p_vert]. f_equal; f_equal; ring.
  Qed.
  Lemma pcell square y s x : in_raster w h x y -> normal s -> perim_cell square w h arr nd y s x = norm (plus s (pe square (x, y))).
  Proof.
    intros R NS. unfold perim_cell. destruct (Z.eqb_spec (arr x y) nd) as [E|E].
    - assert (D : db (x, y) = false). { unfold db. cbn [fst snd]. rewrite (proj2 (Z.eqb_eq _ _) E). apply andb_false_r. }
      assert (P0 : pe square (x, y) = mkPerim 0 0 0). { unfold pe, eh, ev, ec, hsides, vsides. cbn [filter fst snd]. rewrite D. destruct square; reflexivity. }
      rewrite P0. unfold plus. cbn [p_cells p_horz p_vert]. rewrite !Z.add_0_r. symmetry. destruct s. exact NS.
    - assert (D : db (x, y) = true). { unfold db. cbn [fst snd]. rewrite (proj2 (Z.eqb_neq _ _) E). rewrite (proj1 (in_raster_iff w h x y) R). reflexivity. }
      destruct square; cbn [negb].
      + unfold pe, eh, ev, hsides, vsides. cbn [filter fst snd]. rewrite D. cbn [andb].
        assert (F : forall x' y', negb (db (x', y')) = negb (inGrid w h x' y') || (arr x' y' =? nd)).
        { intros x' y'. unfold db. cbn [fst snd]. destruct (inGrid w h x' y'), (arr x' y' =? nd); reflexivity. }
        rewrite sq_fold by exact NS. f_equal. f_equal. change (dirs D8) with [1;2;3;4;5;6;7;8]%nat. rewrite !zsum_cons. unfold sqh, sqv, sqo. cbv zeta.
        change (dx D8 1) with (-1). change (dy D8 1) with 0. change (dx D8 2) with (-1). change (dy D8 2) with (-1). change (dx D8 3) with 0. change (dy D8 3) with (-1). change (dx D8 4) with 1. change (dy D8 4) with (-1).
        change (dx D8 5) with 1. change (dy D8 5) with 0. change (dx D8 6) with 1. change (dy D8 6) with 1. change (dx D8 7) with 0. change (dy D8 7) with 1. change (dx D8 8) with (-1). change (dy D8 8) with 1.
        cbn [Z.eqb negb andb]. rewrite !F, !andb_false_r, !andb_true_r. rewrite !Z.add_0_r. change (x + -1) with (x - 1). change (y + -1) with (y - 1).
        destruct (negb (inGrid w h (x - 1) y) || (arr (x - 1) y =? nd)), (negb (inGrid w h (x + 1) y) || (arr (x + 1) y =? nd)), (negb (inGrid w h x (y - 1)) || (arr x (y - 1) =? nd)), (negb (inGrid w h x (y + 1)) || (arr x (y + 1) =? nd)); reflexivity.
      + rewrite (touches_iff x y R). unfold pe, ec. rewrite D. cbn [andb fst snd]. destruct s as [a b c]. unfold normal, norm in NS. cbn [p_cells p_horz p_vert] in NS. injection NS as N1 N2 N3.
        unfold norm, plus. destruct (isEdgeCell w h x y); cbn [b2z p_cells p_horz p_vert]; rewrite ?Z.add_0_r, ?N1, ?N2, ?N3; reflexivity.
  Qed.

  Definition psum (sq : bool) (l : list cell) : perim := mkPerim (zsum (fun p => p_cells (pe sq p)) l) (zsum (fun p => p_horz (pe sq p)) l) (zsum (fun p => p_vert (pe sq p)) l).
  Lemma perim_fold_row sq y : forall xs s, 0 <= y < h -> (forall x, In x xs -> 0 <= x < w) -> normal s ->
    fold_left (perim_cell sq w h arr nd y) xs s = norm (plus s (psum sq (map (fun x => (x, y)) xs))).
  Proof.
    induction xs as [|x xs IH]; intros s Hy Hx NS; cbn [fold_left map].
    - unfold psum, plus, zsum, asum. cbn [map fold_right p_cells p_horz p_vert]. rewrite !Z.add_0_r. symmetry. destruct s. exact NS.
    - rewrite pcell; [|split; [apply Hx; left; reflexivity|exact Hy]|exact NS]. rewrite IH; [|exact Hy|intros; apply Hx; right; assumption|apply norm_normal].
      unfold psum. rewrite norm_add. rewrite !zsum_cons. unfold norm, plus. cbn [p_cells p_horz p_vert]. f_equal; f_equal; ring.
  Qed.
  Definition row_cells (rows : list Z) : list cell := flat_map (fun y => map (fun x => (x, y)) (zrange 0 (Z.to_nat w))) rows.
  Lemma plus_psum sq s l l' : plus (plus s (psum sq l)) (psum sq l') = plus s (psum sq (l ++ l')).
  Proof. unfold psum, plus. cbn [p_cells p_horz p_vert]. rewrite !zsum_app. f_equal; ring. Qed.
  Lemma norm_psum sq s l : norm (plus (norm s) (psum sq l)) = norm (plus s (psum sq l)).
  Proof. unfold psum. apply norm_add. Qed.
  Lemma perim_rows sq : forall rows s, (forall y, In y rows -> 0 <= y < h) -> normal s ->
    fold_left (perim_row sq w h arr nd) rows s = norm (plus s (psum sq (row_cells rows))).
  Proof.
    induction rows as [|y rows IH]; intros s Hr NS; cbn [fold_left row_cells flat_map].
    - unfold psum, plus, zsum, asum. cbn [map fold_right p_cells p_horz p_vert]. rewrite !Z.add_0_r. symmetry. destruct s. exact NS.
    - unfold perim_row at 2. rewrite perim_fold_row; [|apply Hr; left; reflexivity| |exact NS].
      + rewrite IH; [|intros; apply Hr; right; assumption|apply norm_normal]. rewrite norm_psum, plus_psum. reflexivity.
      + intros x Ix. apply zrange_In in Ix. lia.
  Qed.
  Lemma row_cells_app a b : row_cells (a ++ b) = row_cells a ++ row_cells b.
  Proof. apply flat_map_app. Qed.
  Lemma perim_parts sq : forall parts s, (forall rows, In rows parts -> forall y, In y rows -> 0 <= y < h) -> normal s ->
    fold_left add_perim (map (fun rows => fold_left (perim_row sq w h arr nd) rows (mkPerim 0 0 0)) parts) s = norm (plus s (psum sq (row_cells (concat parts)))).
  Proof.
    induction parts as [|rows parts IH]; intros s Hr NS; cbn [map fold_left concat].
    - unfold psum, plus, zsum, asum. cbn [row_cells flat_map map fold_right p_cells p_horz p_vert]. rewrite !Z.add_0_r. symmetry. destruct s. exact NS.
    - rewrite perim_rows; [|apply Hr; left; reflexivity|reflexivity].
      assert (E : add_perim s (norm (plus (mkPerim 0 0 0) (psum sq (row_cells rows)))) = norm (plus s (psum sq (row_cells rows)))).
      { unfold add_perim, norm, plus, psum. cbn [p_cells p_horz p_vert]. rewrite !u32_add_r, !Z.add_0_l. reflexivity. }
      rewrite E, IH; [|intros; eapply Hr; [right|]; eassumption|apply norm_normal]. rewrite norm_psum, plus_psum, <- row_cells_app. reflexivity.
  Qed.
  Lemma row_cells_perm rows rows' : Permutation rows rows' -> Permutation (row_cells rows) (row_cells rows').
  Proof. apply Permutation_flat_map. Qed.
  Lemma row_cells_all : Permutation (row_cells (zrange 0 (Z.to_nat h))) (cells w h).
  Proof.
    apply NoDup_Permutation; [|apply cells_NoDup|].
    - unfold row_cells. assert (G : forall l : list Z, NoDup l -> NoDup (flat_map (fun y : Z => map (fun x : Z => (x, y)) (zrange 0 (Z.to_nat w))) l)).
      { induction l as [|y l IH]; intros N; cbn [flat_map]; [constructor|]. inversion N as [|? ? N1 N2]. apply NoDup_app_disj; [|apply IH; exact N2|].
        - apply FinFun.Injective_map_NoDup; [intros a b [= X]; exact X|apply zrange_NoDup].
        - intros p Hp Hq. apply in_map_iff in Hp. destruct Hp as [x0 [<- _]]. apply in_flat_map in Hq. destruct Hq as [y' [Iy X]]. apply in_map_iff in X. destruct X as [x' [[= _ ->] _]]. contradiction. }
      apply G. apply zrange_NoDup.
    - intros [x y]. rewrite cells_In. unfold row_cells. rewrite in_flat_map. split.
      + intros [y' [Iy X]]. apply in_map_iff in X. destruct X as [x' [[= <- <-] Ix]]. apply zrange_In in Iy, Ix. lia.
      + intros [Hx Hy]. exists y. split; [apply zrange_In; lia|]. apply in_map_iff. exists x. split; [reflexivity|apply zrange_In; lia].
  Qed.
  Lemma zsum_len {B C} (f : B -> list C) l : zsum (fun b => Z.of_nat (length (f b))) l = Z.of_nat (length (flat_map f l)).
  Proof. induction l as [|b l IH]; [reflexivity|]. rewrite zsum_cons, IH. cbn [flat_map]. rewrite app_length, Nat2Z.inj_add. reflexivity. Qed.
  Lemma sides_bound f (l : list cell) : (forall p, (length (f p : list (cell * cell)) <= 2)%nat) -> (length (flat_map f l) <= 2 * length l)%nat.
  Proof. intros F. induction l as [|p l IH]; cbn [flat_map length]; [lia|]. rewrite app_length. specialize (F p). lia. Qed.

  Lemma sides_nodup (f : cell -> list (cell * cell)) : (forall p, NoDup (f p)) -> (forall p s, In s (f p) -> fst s = p) -> NoDup (flat_map f (cells w h)).
  Proof.
    intros N F. assert (G : forall l, NoDup l -> NoDup (flat_map f l)).
    { induction l as [|p l IH]; intros M; cbn [flat_map]; [constructor|]. inversion M as [|? ? M1 M2]. apply NoDup_app_disj; [apply N|apply IH; exact M2|].
      intros s Hs Hq. apply in_flat_map in Hq. destruct Hq as [q [Iq X]]. apply F in Hs, X. subst. contradiction. }
    apply G, cells_NoDup.
  Qed.
  Lemma two_nodup (p a b : cell) g : a <> b -> NoDup (filter g [(p, a); (p, b)]).
  Proof. intros Hn. apply NoDup_filter. constructor; [intros [X|[]]; congruence|]. constructor; [intros []|constructor]. Qed.
  Lemma h_spec : there_are (zsum eh (cells w h)) (horizontal_side w h arr nd).
  Proof.
    unfold eh. rewrite zsum_len. exists (flat_map hsides (cells w h)). split; [|split; [|reflexivity]].
    - apply sides_nodup; [intros p; apply two_nodup; intros [= X]; lia|]. intros p s Hs. apply filter_In in Hs. destruct Hs as [[<-|[<-|[]]] _]; reflexivity.
    - intros [p q]. rewrite in_flat_map. unfold horizontal_side. cbn [fst snd]. split.
      + intros [p' [Ip X]]. apply filter_In in X. destruct X as [X Y]. cbn [In fst snd] in X, Y. apply andb_true_iff in Y. destruct Y as [Y1 Y2]. apply negb_true_iff in Y2.
        destruct X as [[= -> <-]|[[= -> <-]|[]]]; (split; [apply db_iff; exact Y1|]); (split; [apply db_iff0; exact Y2|]); cbn [fst snd]; lia.
      + intros [D [ND [E1 E2]]]. exists p. split; [destruct p; apply cells_In; destruct D as [[D1 D2] _]; auto|]. apply filter_In. split.
        * destruct p as [x y], q as [x' y']. cbn [fst snd] in *. subst x'. assert (y' = y - 1 \/ y' = y + 1) as [-> | ->] by lia; [left|right; left]; reflexivity.
        * cbn [fst snd]. apply andb_true_iff. split; [apply db_iff; exact D|apply negb_true_iff, db_iff0; exact ND].
  Qed.
  Lemma v_spec : there_are (zsum ev (cells w h)) (vertical_side w h arr nd).
  Proof.
    unfold ev. rewrite zsum_len. exists (flat_map vsides (cells w h)). split; [|split; [|reflexivity]].
    - apply sides_nodup; [intros p; apply two_nodup; intros [= X]; lia|]. intros p s Hs. apply filter_In in Hs. destruct Hs as [[<-|[<-|[]]] _]; reflexivity.
    - intros [p q]. rewrite in_flat_map. unfold vertical_side. cbn [fst snd]. split.
      + intros [p' [Ip X]]. apply filter_In in X. destruct X as [X Y]. cbn [In fst snd] in X, Y. apply andb_true_iff in Y. destruct Y as [Y1 Y2]. apply negb_true_iff in Y2.
        destruct X as [[= -> <-]|[[= -> <-]|[]]]; (split; [apply db_iff; exact Y1|]); (split; [apply db_iff0; exact Y2|]); cbn [fst snd]; lia.
      + intros [D [ND [E1 E2]]]. exists p. split; [destruct p; apply cells_In; destruct D as [[D1 D2] _]; auto|]. apply filter_In. split.
        * destruct p as [x y], q as [x' y']. cbn [fst snd] in *. subst y'. assert (x' = x - 1 \/ x' = x + 1) as [-> | ->] by lia; [left|right; left]; reflexivity.
        * cbn [fst snd]. apply andb_true_iff. split; [apply db_iff; exact D|apply negb_true_iff, db_iff0; exact ND].
  Qed.
  Lemma c_spec : there_are (zsum ec (cells w h)) (fun p => dt p /\ on_edge w h (fst p) (snd p)).
  Proof.
    exists (filter (fun p => db p && isEdgeCell w h (fst p) (snd p)) (cells w h)). split; [apply NoDup_filter, cells_NoDup|]. split.
    - intros p. rewrite filter_In, andb_true_iff, db_iff. unfold isEdgeCell. rewrite !orb_true_iff, !Z.eqb_eq. split.
      + intros [_ [D E]]. split; [exact D|]. split; [apply D|lia].
      + intros [D [_ E]]. split; [destruct p; apply cells_In; destruct D as [[D1 D2] _]; auto|]. split; [exact D|lia].
    - unfold ec. induction (cells w h) as [|p l IH]; [reflexivity|]. rewrite zsum_cons, <- IH. cbn [filter]. destruct (_ && _); cbn [b2z length]; lia.
  Qed.
  Lemma there_are_unique {A} n m (P : A -> Prop) : there_are n P -> there_are m P -> n = m.
  Proof.
    intros [l [N [I <-]]] [l' [N' [I' <-]]]. f_equal. apply Permutation_length. apply NoDup_Permutation; auto. intros a. rewrite I, I'. reflexivity.
  Qed.
  Lemma ec_bound : 0 <= zsum ec (cells w h) <= Z.of_nat (length (cells w h)).
  Proof.
    unfold ec. induction (cells w h) as [|p l IH]; [unfold zsum, asum; cbn; lia|]. rewrite zsum_cons. cbn [length]. destruct (_ && _); cbn [b2z]; lia.
  Qed.

  Lemma perimeter_eq sq lx ly parts : 0 <= w -> 0 <= h -> w * h < 2 ^ 31 -> Permutation (concat parts) (zrange 0 (Z.to_nat h)) ->
    Perimeter sq w h arr nd lx ly parts = if sq then (Q2Qc (inject_Z (zsum eh (cells w h))) * lx + Q2Qc (inject_Z (zsum ev (cells w h))) * ly)%Qc else Q2Qc (inject_Z (zsum ec (cells w h))).
  Proof.
    intros Hw Hh Hs HP. unfold Perimeter. cbv zeta. rewrite perim_parts; [|intros rows Ir y Iy; pose proof (Permutation_in _ HP (proj2 (in_concat parts y) (ex_intro _ rows (conj Ir Iy)))) as X; apply zrange_In in X; lia|reflexivity].
    assert (PP : Permutation (row_cells (concat parts)) (cells w h)) by (eapply Permutation_trans; [apply row_cells_perm; exact HP|apply row_cells_all]).
    pose proof ec_bound as BC. assert (LC : Z.of_nat (length (cells w h)) = w * h) by (rewrite cells_length; nia).
    assert (BH : 0 <= zsum eh (cells w h) < 2 ^ 32).
    { unfold eh. rewrite zsum_len. pose proof (sides_bound hsides (cells w h)) as B. unfold hsides in B at 1. assert (length (flat_map hsides (cells w h)) <= 2 * length (cells w h))%nat by (apply B; intros p; cbn [filter]; repeat destruct (_ && _); cbn; lia). lia. }
    assert (BV : 0 <= zsum ev (cells w h) < 2 ^ 32).
    { unfold ev. rewrite zsum_len. pose proof (sides_bound vsides (cells w h)) as B. unfold vsides in B at 1. assert (length (flat_map vsides (cells w h)) <= 2 * length (cells w h))%nat by (apply B; intros p; cbn [filter]; repeat destruct (_ && _); cbn; lia). lia. }
    unfold psum, plus, norm. cbn [p_cells p_horz p_vert]. rewrite !(zsum_perm _ _ _ PP), !Z.add_0_l. destruct sq.
    - change (zsum (fun p => p_horz (pe true p)) (cells w h)) with (zsum eh (cells w h)). change (zsum (fun p => p_vert (pe true p)) (cells w h)) with (zsum ev (cells w h)). rewrite !u32_small by lia. reflexivity.
    - change (zsum (fun p => p_cells (pe false p)) (cells w h)) with (zsum ec (cells w h)). rewrite u32_small by lia. reflexivity.
  Qed.
End Perim.
