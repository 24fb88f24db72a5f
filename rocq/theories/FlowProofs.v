From Coq Require Import ZArith List Lia Bool Permutation.
From Verif Require Import Base Res Kahn RasterSpec RasterFacts FlowModel FlowSpec.
Open Scope Z_scope.

Lemma toward_iff d x y x' y' :
  toward d x y x' y' <-> 1 <= d <= 8 /\ x' = x + dx D8 (Z.to_nat d) /\ y' = y + dy D8 (Z.to_nat d).
Proof.
  split.
  - intros H. inversion H; subst; (split; [lia|]); unfold Z.to_nat, Pos.to_nat; cbn; lia.
  - intros [Hd [-> ->]].
    assert (C : d = 1 \/ d = 2 \/ d = 3 \/ d = 4 \/ d = 5 \/ d = 6 \/ d = 7 \/ d = 8) by lia.
    destruct C as [->|[->|[->|[->|[->|[->|[->| ->]]]]]]]; unfold Z.to_nat, Pos.to_nat; cbn;
      rewrite ?Z.add_0_r; replace (x + -1) with (x - 1) by lia; replace (y + -1) with (y - 1) by lia; constructor.
Qed.

Lemma off8_ok n : 0 <= n <= 8 -> off8 n = Ok (dx D8 (Z.to_nat n), dy D8 (Z.to_nat n)).
Proof.
  intros H.
  assert (C : n = 0 \/ n = 1 \/ n = 2 \/ n = 3 \/ n = 4 \/ n = 5 \/ n = 6 \/ n = 7 \/ n = 8) by lia.
  destruct C as [->|[->|[->|[->|[->|[->|[->|[->| ->]]]]]]]]; reflexivity.
Qed.

Lemma gat_ok {A} w h (g : grid A) x y : in_raster w h x y -> gat w h g x y = Ok (g x y).
Proof. intros H. unfold gat. rewrite in_raster_iff in H. rewrite H. reflexivity. Qed.

Lemma on_edge_iff w h x y : in_raster w h x y -> (on_edge w h x y <-> isEdgeCell w h x y = true).
Proof. intros H. unfold on_edge, isEdgeCell. rewrite !orb_true_iff, !Z.eqb_eq. tauto. Qed.

Lemma d8_step_bound n : -1 <= dx D8 n <= 1 /\ -1 <= dy D8 n <= 1.
Proof. do 9 (destruct n as [|n]; [unfold dx, dy; cbn [nth d8x d8y]; lia|]). unfold dx, dy. rewrite !nth_overflow by (cbn; lia). lia. Qed.

Lemma interior_nbr w h x y n : in_raster w h x y -> ~ on_edge w h x y -> in_raster w h (x + dx D8 n) (y + dy D8 n).
Proof.
  intros H He. destruct (d8_step_bound n) as [B1 B2]. unfold on_edge in He.
  assert (He' : ~ (x = 0 \/ y = 0 \/ x = w - 1 \/ y = h - 1)) by tauto. unfold in_raster in *. lia.
Qed.

(** ** d8_FlowDir *)
Section Dir.
  Variables (e : grid Z) (w h x y : Z).
  Hypothesis Hin : in_raster w h x y.
  Hypothesis Hint : ~ on_edge w h x y.
  Let v (n : Z) : Z := e (x + dx D8 (Z.to_nat n)) (y + dy D8 (Z.to_nat n)).

  Definition dinv (k : Z) (st : Z * Z) : Prop :=
    (snd st = 0 /\ fst st = e x y /\ forall n, 1 <= n <= k -> e x y <= v n) \/
    (1 <= snd st <= k /\ fst st = v (snd st) /\ v (snd st) < e x y /\
     forall n, 1 <= n <= k -> v (snd st) <= v n /\ (v (snd st) = v n -> preferred (snd st) n)).

  Lemma even_straight d : 1 <= d <= 8 -> (Z.even d = false <-> straight d).
  Proof.
    intros H. unfold straight.
    assert (C : d = 1 \/ d = 2 \/ d = 3 \/ d = 4 \/ d = 5 \/ d = 6 \/ d = 7 \/ d = 8) by lia.
    destruct C as [->|[->|[->|[->|[->|[->|[->| ->]]]]]]]; cbn; split; intros; try discriminate; try reflexivity; lia.
  Qed.
  Lemma straight_dec d : {straight d} + {~ straight d}.
  Proof.
    unfold straight. destruct (Z.eq_dec d 1); [left; auto|]. destruct (Z.eq_dec d 3); [left; auto|].
    destruct (Z.eq_dec d 5); [left; auto|]. destruct (Z.eq_dec d 7); [left; auto|]. right. lia.
  Qed.

  Lemma odd_nat n : Nat.odd n = negb (Z.even (Z.of_nat n)).
  Proof.
    rewrite <- Nat.negb_even. f_equal. induction n as [|n IH]; [reflexivity|].
    rewrite Nat2Z.inj_succ, Z.even_succ, <- Z.negb_even, <- IH, Nat.even_succ, Nat.negb_even. reflexivity.
  Qed.

  Lemma dstep k st : 0 <= k < 8 -> dinv k st ->
    exists st', fd_step e w h x y (Z.to_nat (k + 1)) st = Ok st' /\ dinv (k + 1) st'.
  Proof.
    intros Hk I. destruct st as [m fd]. unfold fd_step.
    rewrite gat_ok by (apply interior_nbr; auto). cbn [bind].
    fold (v (k + 1)). rewrite odd_nat, Z2Nat.id by lia.
    unfold dinv in *. cbn [fst snd] in *.
    destruct ((v (k + 1) <? m) || ((v (k + 1) =? m) && (fd >? 0) && Z.even fd && negb (Z.even (k + 1)))) eqn:B.
    - exists (v (k + 1), k + 1). split; [reflexivity|]. cbn [fst snd]. right.
      apply orb_true_iff in B. destruct B as [B|B].
      + apply Z.ltb_lt in B.
        assert (Hm : m <= e x y) by lia.
        split; [lia|]. split; [auto|]. split; [lia|]. intros n Hn.
        destruct (Z.eq_dec n (k + 1)) as [->|Hne].
        * split; [lia|]. intros _. unfold preferred. destruct (straight_dec (k + 1)); [left|right]; (split; [auto|]); [lia|split; [auto|lia]].
        * destruct I as [[E1 [E2 I]]|[E1 [E2 [E3 I]]]].
          -- specialize (I n). lia.
          -- destruct (I n) as [I1 _]; lia.
      + rewrite !andb_true_iff in B. destruct B as [[[B1 B2] B3] B4].
        apply Z.eqb_eq in B1. apply Z.gtb_lt in B2.
        destruct I as [[E1 [E2 I]]|[E1 [E2 [E3 I]]]]; [lia|].
        assert (S1 : straight (k + 1)) by (apply even_straight; [lia|]; destruct (Z.even (k + 1)); auto).
        assert (S2 : ~ straight fd) by (intros C; apply even_straight in C; [congruence|lia]).
        split; [lia|]. split; [auto|]. split; [lia|]. intros n Hn.
        destruct (Z.eq_dec n (k + 1)) as [->|Hne].
        * split; [lia|]. intros _. left. split; [auto|lia].
        * destruct (I n) as [I1 I2]; [lia|]. split; [lia|]. intros E. left. split; [auto|].
          intros Sn. destruct I2 as [[C _]|[_ [C _]]]; [lia|contradiction|contradiction].
    - exists (m, fd). split; [reflexivity|]. cbn [fst snd].
      apply orb_false_iff in B. destruct B as [B1 B2]. apply Z.ltb_ge in B1.
      destruct I as [[E1 [E2 I]]|[E1 [E2 [E3 I]]]].
      + left. split; [auto|]. split; [auto|]. intros n Hn. destruct (Z.eq_dec n (k + 1)) as [->|]; [lia|apply I; lia].
      + right. split; [lia|]. split; [auto|]. split; [auto|]. intros n Hn.
        destruct (Z.eq_dec n (k + 1)) as [->|]; [|apply I; lia].
        split; [lia|]. intros E. rewrite <- E, E2 in B2. rewrite Z.eqb_refl in B2.
        replace (fd >? 0) with true in B2 by (symmetry; apply Z.gtb_lt; lia). cbn [andb] in B2.
        destruct (Z.even fd) eqn:Ev.
        * cbn [andb] in B2. apply negb_false_iff in B2. right.
          assert (~ straight fd) by (intros C; apply even_straight in C; [congruence|lia]).
          assert (~ straight (k + 1)) by (intros C; apply even_straight in C; [congruence|lia]).
          split; [auto|]. split; [auto|lia].
        * left. split; [apply even_straight; [lia|auto]|]. intros; lia.
  Qed.

  Lemma dloop : forall (k : nat), (k <= 8)%nat -> exists st, forM (seq 1 k) (fd_step e w h x y) (e x y, 0) = Ok st /\ dinv (Z.of_nat k) st.
  Proof.
    induction k as [|k IH]; intros Hk.
    - exists (e x y, 0). split; [reflexivity|]. left. cbn [fst snd]. split; [auto|]. split; [auto|]. intros n Hn. lia.
    - destruct IH as [st [E I]]; [lia|]. rewrite seq_S, forM_app, E. cbn [bind forM].
      destruct (dstep (Z.of_nat k) st) as [st' [E' I']]; [lia|auto|].
      replace (Z.to_nat (Z.of_nat k + 1)) with (1 + k)%nat in E' by lia.
      rewrite E'. cbn [bind]. exists st'. split; [auto|]. rewrite Nat2Z.inj_succ. exact I'.
  Qed.
End Dir.

Lemma d8_FlowDir_right e w h x y : in_raster w h x y ->
  exists d, d8_FlowDir e w h x y = Ok d /\ 0 <= d <= 8 /\ right_direction e w h x y d.
Proof.
  intros Hin. unfold d8_FlowDir. rewrite gat_ok by auto. cbn [bind].
  destruct (isEdgeCell w h x y) eqn:HE.
  - apply on_edge_iff in HE; [|auto].
    assert (G : forall d, 1 <= d <= 8 -> outward x w = dx D8 (Z.to_nat d) -> outward y h = dy D8 (Z.to_nat d) ->
       0 <= d <= 8 /\ right_direction e w h x y d).
    { intros d Hd E1 E2. split; [lia|]. split; [|intros _ C; contradiction].
      intros _. apply toward_iff. rewrite E1, E2. auto. }
    unfold isTopLeft, isBottomLeft, isTopRight, isBottomRight, isLeftCol, isRightCol, isTopRow, isBottomRow.
    unfold outward in G. destruct HE as [_ HE].
    destruct (Z.eqb_spec x 0); destruct (Z.eqb_spec y 0); destruct (Z.eqb_spec x (w - 1)); destruct (Z.eqb_spec y (h - 1));
      try (exfalso; tauto); cbn [andb]; eexists; (split; [reflexivity|]); apply G; (reflexivity || lia).
  - assert (Hint : ~ on_edge w h x y) by (rewrite on_edge_iff by auto; congruence).
    destruct (dloop e w h x y Hin Hint 8) as [[m d] [E I]]; [lia|].
    unfold dirs. cbn [nmax]. unfold NO_FLOW. rewrite E. cbn [bind snd].
    exists d. split; [auto|]. destruct I as [[E1 [E2 I]]|[E1 [E2 [E3 I]]]]; cbn [fst snd] in *.
    + split; [lia|]. split; [contradiction|]. intros _ _. left. split; [auto|].
      intros n x' y' T. apply toward_iff in T. destruct T as [Hn [-> ->]]. apply I. lia.
    + split; [lia|]. split; [contradiction|]. intros _ _. right.
      exists (x + dx D8 (Z.to_nat d)), (y + dy D8 (Z.to_nat d)).
      split; [apply toward_iff; split; [lia|auto]|]. split; [auto|].
      intros n x' y' T. apply toward_iff in T. destruct T as [Hn [-> ->]]. apply I. lia.
Qed.

Lemma d8_flow_directions_ok e nd w h order : (forall p, In p order -> in_raster w h (fst p) (snd p)) ->
  exists fd, d8_flow_directions e nd w h order = Ok fd /\
    forall x y, (In (x, y) order ->
                   (e x y = nd -> fd x y = 255) /\
                   (e x y <> nd -> 0 <= fd x y <= 8 /\ right_direction e w h x y (fd x y) /\ d8_FlowDir e w h x y = Ok (fd x y))) /\
                (~ In (x, y) order -> fd x y = 0).
Proof.
  intros Hord. unfold d8_flow_directions.
  set (P := fun (done : list (Z * Z)) (fd : grid Z) => forall x y,
     (In (x, y) done -> (e x y = nd -> fd x y = 255) /\ (e x y <> nd -> 0 <= fd x y <= 8 /\ right_direction e w h x y (fd x y) /\ d8_FlowDir e w h x y = Ok (fd x y))) /\
     (~ In (x, y) done -> fd x y = 0)).
  match goal with |- exists fd, forM _ ?body _ = _ /\ _ =>
    destruct (forM_inv P body order) with (s := fun _ _ : Z => NO_FLOW) as [fd [E H]] end.
  - intros done [x y] rest fd Eo Hfd. assert (Hin : in_raster w h x y) by (apply (Hord (x, y)); rewrite Eo; apply in_app_iff; right; left; auto).
    rewrite gat_ok by auto. cbn [bind].
    assert (G : forall d, (e x y = nd -> d = 255) -> (e x y <> nd -> 0 <= d <= 8 /\ right_direction e w h x y d /\ d8_FlowDir e w h x y = Ok d) -> P (done ++ [(x, y)]) (gset fd x y d)).
    { intros d H1 H2 x' y'. destruct (gset_cases fd x y d x' y') as [[E1 E2]|[E1 E2]]; rewrite E2.
      - inversion E1; subst x' y'. split; [auto|]. intros C. exfalso. apply C. apply in_app_iff. right. left. auto.
      - rewrite in_app_iff. cbn [In]. split.
        + intros [Hd|[C|[]]]; [|congruence]. apply (Hfd x' y'). auto.
        + intros C. apply (Hfd x' y'). intros Hd. apply C. auto. }
    destruct (Z.eqb_spec (e x y) nd) as [En|En].
    + eexists. split; [reflexivity|]. apply G; [reflexivity|congruence].
    + destruct (d8_FlowDir_right e w h x y Hin) as [d [Ed Hd]]. rewrite Ed. cbn [bind].
      eexists. split; [reflexivity|]. apply G; [congruence|tauto].
  - intros x y. split; [intros []|reflexivity].
  - exists fd. split; [exact E|exact H].
Qed.

(** ** Acyclicity *)
Lemma directions_decrease e nd w h order fd p q :
  Permutation order (cells w h) -> d8_flow_directions e nd w h order = Ok fd ->
  gives fd 255 w h p q -> e (fst q) (snd q) < e (fst p) (snd p).
Proof.
  intros Ho E [[Hp Hpd] [[Hq Hqd] T]]. destruct p as [x y], q as [x' y']. cbn [fst snd] in *.
  destruct (d8_flow_directions_ok e nd w h order) as [fd' [E' H]].
  { intros [a b] Hab. apply cells_In. eapply Permutation_in; eauto. }
  rewrite E in E'. inversion E'; subst fd'. clear E'.
  assert (Hio : In (x, y) order) by (eapply Permutation_in; [symmetry; eauto|apply cells_In; auto]).
  destruct (H x y) as [H1 _]. destruct (H1 Hio) as [H2 H3]. clear H H1.
  destruct (Z.eq_dec (e x y) nd) as [En|En]; [rewrite (H2 En) in Hpd; congruence|].
  destruct (H3 En) as [_ [[R1 R2] _]].
  destruct (isEdgeCell w h x y) eqn:HE.
  - apply on_edge_iff in HE; [|auto]. specialize (R1 HE). exfalso.
    apply toward_iff in T. apply toward_iff in R1. destruct T as [_ [T1 T2]], R1 as [_ [R3 R4]].
    assert (x' = x + outward x w) by lia. assert (y' = y + outward y h) by lia.
    unfold outward, on_edge, in_raster in *.
    destruct (Z.eqb_spec x 0); destruct (Z.eqb_spec y 0); destruct (Z.eqb_spec x (w - 1)); destruct (Z.eqb_spec y (h - 1)); lia.
  - assert (Hint : ~ on_edge w h x y) by (rewrite on_edge_iff by auto; congruence).
    destruct (R2 Hp Hint) as [[R0 _]|[xd [yd [Td [Hlt _]]]]].
    + rewrite R0 in T. inversion T.
    + apply toward_iff in T. apply toward_iff in Td. destruct T as [_ [T1 T2]], Td as [_ [R3 R4]]. subst. lia.
Qed.

(** ** d8_flow_accum *)
Lemma ceqb_spec a b : reflect (a = b) (ceqb a b).
Proof.
  destruct a as [a1 a2], b as [b1 b2]. unfold ceqb. cbn [fst snd].
  destruct (Z.eqb_spec a1 b1); destruct (Z.eqb_spec a2 b2); cbn [andb]; constructor; congruence.
Qed.

Section Accum.
  Variables (fd : grid Z) (fnd w h : Z).
  Hypothesis codes : codes_ok fd fnd w h.

  Definition isdata (c : cellt) : bool := inGrid w h (fst c) (snd c) && negb (fd (fst c) (snd c) =? fnd).
  Lemma isdata_iff c : isdata c = true <-> data fd fnd w h c.
  Proof. unfold isdata, data. rewrite andb_true_iff, negb_true_iff, in_raster_iff, Z.eqb_neq. reflexivity. Qed.
  Definition target (c : cellt) : cellt :=
    (fst c + dx D8 (Z.to_nat (fd (fst c) (snd c))), snd c + dy D8 (Z.to_nat (fd (fst c) (snd c)))).
  Definition recv (c : cellt) : list (cellt * unit) :=
    if isdata c && negb (fd (fst c) (snd c) =? 0) && isdata (target c) then [(target c, tt)] else [].
  Definition dcells : list cellt := filter isdata (cells w h).

  Lemma dcells_In c : In c dcells <-> data fd fnd w h c.
  Proof.
    unfold dcells. rewrite filter_In, isdata_iff. destruct c as [x y]. rewrite cells_In. unfold data, in_raster. cbn [fst snd]. tauto.
  Qed.
  Lemma dcells_NoDup : NoDup dcells.
  Proof. apply NoDup_filter, cells_NoDup. Qed.

  Lemma dcells_length : (length dcells <= Z.to_nat w * Z.to_nat h)%nat.
  Proof.
    unfold dcells. rewrite <- (cells_length w h). generalize (cells w h) as l. induction l as [|a l IH]; cbn [filter length]; [lia|]. destruct (isdata a); cbn [length]; lia.
  Qed.

  Lemma edge_gives c m : edge recv c m <-> gives fd fnd w h c m.
  Proof.
    unfold edge, recv, gives. split.
    - intros [u H]. destruct (isdata c && _ && _) eqn:B; [|destruct H]. destruct H as [E|[]]. inversion E; subst m.
      rewrite !andb_true_iff, negb_true_iff, Z.eqb_neq, !isdata_iff in B. destruct B as [[B1 B2] B3].
      split; [auto|]. split; [auto|]. apply toward_iff. cbn [target fst snd].
      split; [|auto]. destruct B1 as [B1 B4]. pose proof (codes _ _ B1 B4). lia.
    - intros [H1 [H2 T]]. apply toward_iff in T. destruct T as [Hn [T1 T2]].
      assert (E : m = target c) by (destruct m; cbn [fst snd] in *; unfold target; congruence). subst m.
      exists tt. apply isdata_iff in H1. apply isdata_iff in H2. rewrite H1, H2.
      replace (fd (fst c) (snd c) =? 0) with false by (symmetry; apply Z.eqb_neq; lia). cbn. auto.
  Qed.
  Lemma recv_V d m : In d dcells -> edge recv d m -> In m dcells.
  Proof. intros _ H. apply edge_gives in H. apply dcells_In, H. Qed.
  Lemma reach_passes p q : reach recv p q <-> passes fd fnd w h p q.
  Proof.
    split; induction 1; try constructor.
    - eapply passes_on; eauto. apply edge_gives; auto.
    - eapply reach_step; eauto. apply edge_gives; auto.
  Qed.
  Lemma recv_single d : (length (recv d) <= 1)%nat.
  Proof. unfold recv. destruct (_ && _); cbn; lia. Qed.

  Notation pbody := (kbody ceqb Z.add recv (fun _ x _ => x + 1) (fun _ x => x + 1)).

  Lemma accum_step_ok c s : data fd fnd w h c -> accum_step fd fnd w h c s = Ok (pbody c s).
  Proof.
    intros Hc. destruct c as [x y]. unfold accum_step. pose proof Hc as [Hin Hnd]. cbn [fst snd] in Hin, Hnd.
    pose proof (codes _ _ Hin Hnd) as Hcode.
    rewrite gat_ok by auto. cbn [bind].
    unfold kbody, recv. pose proof Hc as Hc'. apply isdata_iff in Hc'. rewrite Hc'. cbn [andb fst snd]. unfold NO_FLOW.
    destruct (Z.eqb_spec (fd x y) 0) as [E0|E0]; cbn [negb andb fold_left]; [reflexivity|].
    rewrite off8_ok by auto. cbn [bind fst snd].
    unfold isdata at 1. cbn [target fst snd].
    destruct (inGrid w h (x + _) (y + _)) eqn:HG; cbn [negb andb]; [|reflexivity].
    rewrite gat_ok by (apply in_raster_iff; auto). cbn [bind].
    destruct (fd (x + _) (y + _) =? fnd) eqn:HF; cbn [negb]; [reflexivity|].
    cbn [fold_left]. unfold relax. cbn [fst snd k_dep k_val k_q]. unfold target. cbn [fst snd].
    unfold cset. rewrite (kupd_same ceqb ceqb_spec (k_dep s)).
    rewrite (kupd_same ceqb ceqb_spec (k_val s) (x, y)). reflexivity.
  Qed.

  Lemma pbody_queue c s : (forall m, In m (k_q s) -> In m dcells) -> In c dcells ->
    forall m, In m (k_q (pbody c s)) -> In m dcells.
  Proof.
    intros Hq Hc m. unfold kbody.
    assert (G : forall (es : list (cellt * unit)) s0, (forall e, In e es -> In (fst e) dcells) -> (forall m, In m (k_q s0) -> In m dcells) ->
      forall m, In m (k_q (fold_left (relax ceqb Z.add (fun _ x _ => x + 1) c (k_val s c)) es s0)) -> In m dcells).
    { induction es as [|e es IH]; intros s0 He H0 m' Hm'; cbn [fold_left] in Hm'; [auto|].
      apply (IH (relax ceqb Z.add (fun _ x _ => x + 1) c (k_val s c) s0 e)); auto.
      - intros e' He'. apply He. right; auto.
      - intros m1. unfold relax. cbn [k_q]. destruct (_ =? 0); [|auto]. rewrite in_app_iff. intros [?|[<-|[]]]; [auto|].
        apply He. left; auto. }
    apply G; [|exact Hq]. intros [m' u] He. cbn [fst]. apply (recv_V c m' Hc). exists u. auto.
  Qed.

  Lemma whileR_ok : forall fuel i s, (forall m, In m (k_q s) -> In m dcells) ->
    whileR kpop (accum_step fd fnd w h) fuel i s = option_map Ok (while_pop kpop pbody fuel i s).
  Proof.
    induction fuel as [|f IH]; intros i s Hq; cbn [whileR while_pop].
    - destruct (kpop i s) as [[c s1]|]; reflexivity.
    - unfold kpop at 1 3. destruct (k_q s) as [|c q] eqn:Eq; [reflexivity|].
      assert (Hc : In c dcells) by (apply Hq; left; auto).
      rewrite accum_step_ok by (apply dcells_In; auto).
      apply IH. apply pbody_queue; [|auto]. cbn [k_q]. intros m Hm. apply Hq. right; auto.
  Qed.

  (** *** the dependency loop *)
  Definition points (m c : cellt) : bool :=
    isdata c && negb (fd (fst c) (snd c) =? 0) && ceqb (target c) m && inGrid w h (fst m) (snd m).

  Lemma dep_loop (order : list cellt) : (forall c, In c order -> in_raster w h (fst c) (snd c)) ->
    exists s, forM order (dep_step fd fnd w h) (mkK (fun _ => 0) (fun _ => 0) []) = Ok s /\
      (forall m, k_dep s m = Z.of_nat (length (filter (points m) order))) /\
      (forall m, (In m order /\ fd (fst m) (snd m) = fnd -> k_val s m = -1) /\ (~ (In m order /\ fd (fst m) (snd m) = fnd) -> k_val s m = 0)) /\
      k_q s = [].
  Proof.
    intros Hord.
    set (P := fun (done : list cellt) (s : astate) =>
      (forall m, k_dep s m = Z.of_nat (length (filter (points m) done))) /\
      (forall m, (In m done /\ fd (fst m) (snd m) = fnd -> k_val s m = -1) /\ (~ (In m done /\ fd (fst m) (snd m) = fnd) -> k_val s m = 0)) /\
      k_q s = []).
    apply (forM_inv P).
    - intros done [x y] rest s Eo [H1 [H2 H3]].
      assert (Hin : in_raster w h x y) by (apply (Hord (x, y)); rewrite Eo; apply in_app_iff; right; left; auto).
      assert (Hfil : forall m, filter (points m) (done ++ [(x, y)]) = filter (points m) done ++ (if points m (x, y) then [(x, y)] else [])).
      { intros m. rewrite filter_app. cbn [filter]. reflexivity. }
      assert (Hv : fd x y <> fnd -> forall m, (In m (done ++ [(x, y)]) /\ fd (fst m) (snd m) = fnd -> k_val s m = -1) /\ (~ (In m (done ++ [(x, y)]) /\ fd (fst m) (snd m) = fnd) -> k_val s m = 0)).
      { intros Hn m. destruct (H2 m) as [A B]. rewrite in_app_iff. cbn [In]. split.
        - intros [[?|[<-|[]]] E]; [auto|]. cbn [fst snd] in E. congruence.
        - intros C. apply B. intros [? ?]. apply C. auto. }
      unfold dep_step. rewrite gat_ok by auto. cbn [bind].
      destruct (Z.eqb_spec (fd x y) fnd) as [En|En].
      + eexists. split; [reflexivity|]. split; [|split; [|auto]]; cbn [k_dep k_val].
        * intros m. rewrite H1, Hfil. unfold points at 3, isdata. cbn [fst snd].
          rewrite (proj2 (Z.eqb_eq _ _) En). cbn [negb]. rewrite andb_false_r. cbn [andb]. rewrite app_nil_r. reflexivity.
        * intros m. unfold cset. destruct (ceqb_spec m (x, y)) as [->|Hm].
          -- rewrite (kupd_same ceqb ceqb_spec). split; [auto|]. intros C. exfalso. apply C. split; [apply in_app_iff; right; left; auto|auto].
          -- rewrite (kupd_other ceqb ceqb_spec) by auto. destruct (H2 m) as [A B]. rewrite in_app_iff. cbn [In]. split.
             ++ intros [[?|[C|[]]] ?]; [auto|congruence].
             ++ intros C. apply B. intros [? ?]. apply C. auto.
      + pose proof (codes _ _ Hin En) as Hcode. specialize (Hv En).
        assert (HD : isdata (x, y) = true) by (apply isdata_iff; split; auto).
        assert (Hpt : forall m, points m (x, y) = negb (fd x y =? 0) && ceqb (target (x, y)) m && inGrid w h (fst m) (snd m)).
        { intros m. unfold points. rewrite HD. reflexivity. }
        unfold NO_FLOW. destruct (Z.eqb_spec (fd x y) 0) as [E0|E0].
        * exists s. split; [reflexivity|]. split; [|split; auto]. intros m. rewrite H1, Hfil, Hpt. cbn [negb andb]. rewrite app_nil_r. reflexivity.
        * rewrite off8_ok by auto. cbn [bind fst snd].
          destruct (inGrid w h (x + _) (y + _)) eqn:HG; cbn [negb].
          -- eexists. split; [reflexivity|]. split; [|split; auto]; cbn [k_dep k_val].
             intros m. rewrite Hfil, Hpt. cbn [negb andb].
             match goal with |- cset _ ?t _ m = _ => change t with (target (x, y)) end.
             destruct (ceqb_spec (target (x, y)) m) as [Em|Em]; cbn [andb].
             ++ subst m. unfold cset. rewrite (kupd_same ceqb ceqb_spec), H1. cbn [target fst snd] in HG |- *. rewrite HG.
                rewrite app_length. cbn [length]. lia.
             ++ unfold cset. rewrite (kupd_other ceqb ceqb_spec) by auto. rewrite H1, app_nil_r. reflexivity.
          -- exists s. split; [reflexivity|]. split; [|split; auto]. intros m. rewrite H1, Hfil, Hpt. cbn [negb andb].
             destruct (ceqb_spec (target (x, y)) m) as [Em|Em]; cbn [andb]; [|rewrite app_nil_r; reflexivity].
             subst m. cbn [target fst snd]. rewrite HG, app_nil_r. reflexivity.
    - split; [reflexivity|]. split; [|reflexivity]. intros m. split; [intros [[] _]|auto].
  Qed.

  Lemma points_indeg m : data fd fnd w h m -> forall L, length (filter (points m) L) = indeg ceqb recv (filter isdata L) m.
  Proof.
    intros Hm. pose proof Hm as Hm'. apply isdata_iff in Hm'.
    induction L as [|c L IH]; cbn [filter indeg]; [auto|].
    assert (Hp : points m c = isdata c && negb (fd (fst c) (snd c) =? 0) && ceqb (target c) m).
    { unfold points. destruct Hm as [Hm _]. apply in_raster_iff in Hm. rewrite Hm, andb_true_r. reflexivity. }
    rewrite Hp. destruct (isdata c) eqn:HD; cbn [andb]; [|exact IH]. cbn [indeg].
    assert (Hc : cnt ceqb m (recv c) = if negb (fd (fst c) (snd c) =? 0) && ceqb (target c) m then 1%nat else 0%nat).
    { unfold recv, cnt. rewrite HD. cbn [andb]. destruct (negb _); cbn [andb]; [|reflexivity].
      destruct (ceqb_spec (target c) m) as [E|E].
      - rewrite E, Hm'. cbn [filter fst]. destruct (ceqb_spec m m); [reflexivity|congruence].
      - destruct (isdata (target c)); cbn [filter fst]; [|reflexivity]. destruct (ceqb_spec (target c) m); [congruence|reflexivity]. }
    rewrite Hc. destruct (_ && _); cbn [length]; lia.
  Qed.

  Lemma filter_perm {B} (f : B -> bool) l l' : Permutation l l' -> Permutation (filter f l) (filter f l').
  Proof.
    induction 1; cbn [filter]; [constructor| | |etransitivity; eauto].
    - destruct (f x); auto.
    - destruct (f x), (f y); auto. constructor.
  Qed.

  Lemma scan_In x y : In (x, y) (scan w h) <-> in_raster w h x y.
  Proof.
    unfold scan. rewrite in_flat_map. unfold in_raster. split.
    - intros [b [Hb H]]. apply in_map_iff in H. destruct H as [a [E Ha]]. inversion E; subst. rewrite zrange_In in *. lia.
    - intros [Hx Hy]. exists y. rewrite zrange_In. split; [lia|]. apply in_map_iff. exists x. rewrite zrange_In. split; [auto|lia].
  Qed.
  Lemma scan_NoDup : NoDup (scan w h).
  Proof.
    unfold scan. apply flat_map_NoDup; [apply zrange_NoDup| |].
    - intros y _. apply FinFun.Injective_map_NoDup; [intros a b E; congruence|apply zrange_NoDup].
    - intros y y' c _ _ H H'. apply in_map_iff in H. apply in_map_iff in H'. destruct H as [a [<- _]], H' as [a' [E _]]. congruence.
  Qed.

  (** the exact meaning of the area raster *)
  Definition good_area (area : cellt -> Z) : Prop :=
    (forall p, data fd fnd w h p -> ~ below_loop fd fnd w h p -> upstream_count fd fnd w h p (area p)) /\
    (forall p, data fd fnd w h p -> below_loop fd fnd w h p -> loop_free_count fd fnd w h p (area p)) /\
    (forall p, in_raster w h (fst p) (snd p) -> fd (fst p) (snd p) = fnd -> area p = -1).

  Lemma Hloop p : loop_upstream recv dcells p <-> below_loop fd fnd w h p.
  Proof.
    unfold loop_upstream, below_loop, on_cycle, looping. split.
    - intros [v [Hv [[d [H1 H2]] H3]]]. exists v. split; [exists d; rewrite <- reach_passes, <- edge_gives; auto|apply reach_passes; auto].
    - intros [v [[d [H1 H2]] H3]]. exists v. split; [apply dcells_In; apply H2|].
      split; [exists d; rewrite reach_passes, edge_gives; auto|apply reach_passes; auto].
  Qed.

  (** what the values mean once the worklist is empty *)
  Lemma finished_area (init val : cellt -> Z) (P : list cellt) (X : cellt -> Z) :
    ordered recv dcells P ->
    (forall m, In m P <-> In m dcells /\ ~ loop_upstream recv dcells m) ->
    (forall m, In m P -> X m = init m + inflow ceqb Z.add 0 recv (fun _ x _ => x + 1) dcells X m /\ val m = X m + 1) ->
    (forall m, ~ In m P -> val m = init m + inflow ceqb Z.add 0 recv (fun _ x _ => x + 1) P X m) ->
    (forall m, data fd fnd w h m -> init m = 0) ->
    (forall m, in_raster w h (fst m) (snd m) -> fd (fst m) (snd m) = fnd -> init m = -1) ->
    good_area val.
  Proof.
    intros HO HP HX Hno Hv0 Hv1.
    destruct (count_upstream ceqb recv ceqb_spec dcells dcells_NoDup recv_V recv_single X P HO) as [U HU].
    { intros m Hm. destruct (HX m Hm) as [Em _]. rewrite Em. f_equal. apply Hv0.
      apply HP in Hm. apply dcells_In. tauto. }
    split; [|split].
    - intros p Hp Hnl.
      assert (HpP : In p P) by (apply HP; split; [apply dcells_In; auto|rewrite Hloop; auto]).
      destruct (HU p HpP) as [[ND HUin] HL]. exists (U p). split; [exact ND|]. split.
      + intros q. rewrite HUin, dcells_In, reach_passes. reflexivity.
      + rewrite (proj2 (HX p HpP)). exact HL.
    - intros p Hp Hl.
      assert (HnP : ~ In p P) by (intros C; apply HP in C; rewrite Hloop in C; tauto).
      destruct (count_open ceqb recv ceqb_spec dcells recv_V recv_single X P U p HO HnP HU) as [L [ND [HL1 HL2]]].
      exists L. split; [exact ND|]. split.
      + intros q. rewrite HL1, dcells_In. split.
        * intros [Hq [d [H1 [H2 H3]]]]. split; [auto|]. exists d. rewrite <- reach_passes, <- edge_gives.
          apply HP in H2. rewrite Hloop in H2. tauto.
        * intros [Hq [d [H1 [H2 H3]]]]. split; [auto|]. exists d. rewrite reach_passes, edge_gives.
          split; [auto|]. split; [|auto]. apply HP. rewrite Hloop. split; [apply dcells_In, H3|auto].
      + rewrite (Hno p HnP), Hv0 by auto. exact HL2.
    - intros p Hin Hp.
      assert (HnP : ~ In p P) by (intros C; apply HP in C; destruct C as [C _]; apply dcells_In in C; destruct C; auto).
      rewrite (Hno p HnP).
      assert (Hz : inflow ceqb Z.add 0 recv (fun _ x _ => x + 1) P X p = 0).
      { unfold inflow. apply (asum_zero Z.add 0 Z.add_0_r). intros d _.
        apply (insum_no_edge ceqb Z.add 0 recv (fun _ x _ => x + 1) ceqb_spec). intros C. apply edge_gives in C.
        destruct C as [_ [[_ C] _]]. auto. }
      rewrite Hz, Z.add_0_r. auto.
  Qed.

  Lemma accum_rest_correct (s : astate) :
    (forall m, In m dcells -> k_dep s m = Z.of_nat (indeg ceqb recv dcells m)) ->
    (forall m, data fd fnd w h m -> k_val s m = 0) ->
    (forall m, in_raster w h (fst m) (snd m) -> fd (fst m) (snd m) = fnd -> k_val s m = -1) ->
    exists area, accum_rest fd fnd w h s = Some (Ok area) /\ good_area area /\
      forall p, data fd fnd w h p -> below_loop fd fnd w h p \/ ~ below_loop fd fnd w h p.
  Proof.
    intros HdepV Hv0 Hv1. unfold accum_rest.
    set (src := filter _ (scan w h)). set (s0 := mkK (k_dep s) (k_val s) src).
    assert (Hsrc : forall m, In m src <-> In m dcells /\ k_dep s m = 0).
    { intros m. unfold src. rewrite filter_In, andb_true_iff, negb_true_iff, Z.eqb_eq, Z.eqb_neq, dcells_In.
      destruct m as [x y]. rewrite scan_In. unfold data. cbn [fst snd]. tauto. }
    assert (GS : good_start ceqb recv dcells (k_val s) s0).
    { split; [exact HdepV|]. split; [reflexivity|]. split; [apply NoDup_filter, scan_NoDup|exact Hsrc]. }
    destruct (krun_spec ceqb Z.add 0 recv (fun _ x _ => x + 1) (fun _ x => x + 1) ceqb_spec Z.add_comm Z.add_assoc Z.add_0_r
                dcells dcells_NoDup recv_V (k_val s) s0 (Z.to_nat w * Z.to_nat h)%nat GS) as [P [X [s' [E [HO [HP [Hdec [HX Hno]]]]]]]].
    { exact dcells_length. }
    rewrite whileR_ok by (intros m Hm; apply Hsrc in Hm; tauto).
    unfold krun in E. rewrite E. cbn [option_map].
    exists (k_val s'). split; [reflexivity|]. split; [apply (finished_area (k_val s) (k_val s') P X); auto|].
    intros p Hp. destruct (Hdec p) as [H|H]; [apply dcells_In; auto| |]; [right|left].
    - apply HP in H. rewrite <- Hloop. tauto.
    - apply Hloop; auto.
  Qed.

  Lemma accum_correct (order : list cellt) : Permutation order (cells w h) ->
    exists area, d8_flow_accum fd fnd w h order = Some (Ok area) /\ good_area area /\
      forall p, data fd fnd w h p -> below_loop fd fnd w h p \/ ~ below_loop fd fnd w h p.
  Proof.
    intros Ho. unfold d8_flow_accum.
    destruct (dep_loop order) as [s [Es [Hdep [Hval Hq]]]].
    { intros [x y] Hc. apply cells_In. eapply Permutation_in; eauto. }
    rewrite Es. apply accum_rest_correct.
    - intros m Hm. rewrite Hdep. f_equal. rewrite (points_indeg m) by (apply dcells_In; auto).
      apply indeg_perm. apply filter_perm. auto.
    - intros m [_ Hm]. apply (Hval m). tauto.
    - intros [x y] Hm Em. apply (Hval (x, y)). split; [|auto].
      eapply Permutation_in; [symmetry; eauto|]. apply cells_In. auto.
  Qed.

  Lemma same_length {B} (l l' : list B) : NoDup l -> NoDup l' -> (forall q, In q l <-> In q l') -> length l = length l'.
  Proof. intros H1 H2 H3. apply Permutation_length, NoDup_Permutation; auto. Qed.

  (** [good_area] determines the raster on all data cells not below loops, below loops and NoData. *)
  Lemma good_area_unique a b : good_area a -> good_area b ->
    forall p, in_raster w h (fst p) (snd p) -> a p = b p.
  Proof.
    intros [A1 [A2 A3]] [B1 [B2 B3]] p Hin.
    destruct (Z.eq_dec (fd (fst p) (snd p)) fnd) as [E|E].
    - rewrite A3, B3; auto.
    - assert (Hd : data fd fnd w h p) by (split; auto).
      destruct (accum_correct (cells w h) (Permutation_refl _)) as [_ [_ [_ Hdec]]].
      destruct (Hdec p Hd) as [Hl|Hl].
      + destruct (A2 p Hd Hl) as [U [N1 [H1 E1]]], (B2 p Hd Hl) as [U' [N2 [H2 E2]]].
        rewrite E1, E2. f_equal. apply same_length; auto. intros q. rewrite H1, H2. reflexivity.
      + destruct (A1 p Hd Hl) as [U [N1 [H1 E1]]], (B1 p Hd Hl) as [U' [N2 [H2 E2]]].
        rewrite E1, E2. f_equal. apply same_length; auto. intros q. rewrite H1, H2. reflexivity.
  Qed.

  (** *** interleaved increments *)
  Definition ato (m : cellt) (a : access) : bool :=
    match dep_target fd fnd w h (acell a) with Some t => ceqb t m | None => false end.

  Notation arun := (fold_left (access_step fd fnd w h)).

  Lemma arun_project m : forall sched st st',
    fst st m = fst st' m -> (forall c, dep_target fd fnd w h c = Some m -> snd st c = snd st' c) ->
    fst (arun sched st) m = fst (arun (filter (ato m) sched) st') m.
  Proof.
    induction sched as [|a sched IH]; intros [dep reg] [dep' reg'] H1 H2; cbn [fst snd] in H1, H2; cbn [fold_left filter]; [exact H1|].
    unfold ato at 1. destruct (dep_target fd fnd w h (acell a)) as [t|] eqn:Et.
    - destruct (ceqb_spec t m) as [->|Hn].
      + cbn [fold_left]. apply IH.
        * unfold access_step. destruct a as [c|c]; cbn [acell] in Et; rewrite Et; cbn [fst]; [auto|].
          unfold cset. rewrite !(kupd_same ceqb ceqb_spec). rewrite (H2 c Et). reflexivity.
        * intros c' Hc'. unfold access_step. destruct a as [c|c]; cbn [acell] in Et; rewrite Et; cbn [snd]; [|auto].
          unfold cset. destruct (ceqb_spec c' c) as [->|Hc]; [rewrite !(kupd_same ceqb ceqb_spec); auto|].
          rewrite !(kupd_other ceqb ceqb_spec) by auto. auto.
      + apply IH.
        * unfold access_step. destruct a as [c|c]; cbn [acell] in Et; rewrite Et; cbn [fst]; [auto|].
          unfold cset. rewrite (kupd_other ceqb ceqb_spec) by auto. auto.
        * intros c' Hc'. unfold access_step. destruct a as [c|c]; cbn [acell] in Et; rewrite Et; cbn [snd]; [|auto].
          unfold cset. rewrite (kupd_other ceqb ceqb_spec) by (intros ->; congruence). auto.
    - apply IH; unfold access_step; destruct a as [c|c]; cbn [acell] in Et; rewrite Et; cbn [fst snd]; auto.
  Qed.

  Definition pairs (L : list cellt) : list access := flat_map (fun c => [Ld c; St c]) L.

  Lemma arun_pairs m : forall L st, (forall c, In c L -> dep_target fd fnd w h c = Some m) ->
    fst (arun (pairs L) st) m = fst st m + Z.of_nat (length L).
  Proof.
    induction L as [|c L IH]; intros [dep reg] HL; cbn [pairs flat_map app fold_left]; [cbn; lia|].
    cbn [access_step]. rewrite (HL c (or_introl eq_refl)). cbn [access_step]. rewrite (HL c (or_introl eq_refl)).
    fold (pairs L). rewrite IH by (intros; apply HL; right; auto). cbn [fst length].
    unfold cset. rewrite !(kupd_same ceqb ceqb_spec). lia.
  Qed.

  Lemma row_accesses_In y a : In a (row_accesses fd fnd w h y) <->
    snd (acell a) = y /\ 0 <= fst (acell a) < w /\ dep_target fd fnd w h (acell a) <> None.
  Proof.
    unfold row_accesses. rewrite in_flat_map. split.
    - intros [x [Hx H]]. apply zrange_In in Hx. destruct (dep_target fd fnd w h (x, y)) eqn:E; [|destruct H].
      destruct H as [<-|[<-|[]]]; cbn [acell fst snd]; rewrite E; (split; [auto|split; [lia|congruence]]).
    - intros [H1 [H2 H3]]. exists (fst (acell a)). split; [apply zrange_In; lia|].
      destruct a as [[x y']|[x y']]; cbn [acell fst snd] in *; subst y';
        destruct (dep_target fd fnd w h (x, y)) eqn:E; try congruence; cbn; auto.
  Qed.

  Lemma row_accesses_NoDup y : NoDup (row_accesses fd fnd w h y).
  Proof.
    unfold row_accesses. apply flat_map_NoDup; [apply zrange_NoDup| |].
    - intros x _. destruct (dep_target fd fnd w h (x, y)); [|constructor].
      constructor; [intros [C|[]]; discriminate|]. constructor; [intros []|constructor].
    - intros x x' a _ _ H H'. destruct (dep_target fd fnd w h (x, y)); [|destruct H]. destruct (dep_target fd fnd w h (x', y)); [|destruct H'].
      destruct H as [<-|[<-|[]]], H' as [E|[E|[]]]; congruence.
  Qed.

  Lemma interleaving_NoDup sched : interleaving fd fnd w h sched -> NoDup sched.
  Proof.
    intros [H1 H2].
    assert (G : forall y, 0 <= y < h -> NoDup (filter (fun a => snd (acell a) =? y) sched)).
    { intros y Hy. rewrite H2 by auto. apply row_accesses_NoDup. }
    clear H2. induction sched as [|a l IH]; constructor.
    - intros C. pose proof (G (snd (acell a)) (H1 a (or_introl eq_refl))) as Ga. cbn [filter] in Ga.
      rewrite Z.eqb_refl in Ga. inversion Ga as [|? ? Hn _]; subst. apply Hn. apply filter_In. split; [auto|apply Z.eqb_refl].
    - apply IH; [intros; apply H1; right; auto|]. intros y Hy. specialize (G y Hy). cbn [filter] in G.
      destruct (_ =? y); [inversion G; auto|auto].
  Qed.

  Lemma interleaving_In sched a : interleaving fd fnd w h sched ->
    (In a sched <-> in_raster w h (fst (acell a)) (snd (acell a)) /\ dep_target fd fnd w h (acell a) <> None).
  Proof.
    intros [H1 H2]. unfold in_raster. split.
    - intros Ha. pose proof (H1 a Ha) as Hy. specialize (H2 _ Hy).
      assert (Hf : In a (filter (fun b => snd (acell b) =? snd (acell a)) sched)) by (apply filter_In; split; [auto|apply Z.eqb_refl]).
      rewrite H2 in Hf. apply row_accesses_In in Hf. tauto.
    - intros [[Hx Hy] Ht]. assert (Hf : In a (row_accesses fd fnd w h (snd (acell a)))) by (apply row_accesses_In; auto).
      rewrite <- H2 in Hf by auto. apply filter_In in Hf. tauto.
  Qed.

  (** no two increments of the same counter overlap *)
  Definition no_overlap (sched : list access) : Prop :=
    forall m, exists L, filter (ato m) sched = pairs L.

  Lemma pairs_Ld L c : In (Ld c) (pairs L) <-> In c L.
  Proof.
    unfold pairs. rewrite in_flat_map. split.
    - intros [x [Hx [E|[E|[]]]]]; [injection E as ->; auto|discriminate].
    - intros H. exists c. cbn. auto.
  Qed.
  Lemma pairs_NoDup L : NoDup (pairs L) -> NoDup L.
  Proof.
    induction L as [|c L IH]; intros H; [constructor|]. cbn [pairs flat_map app] in H. fold (pairs L) in H.
    inversion H as [|? ? Hn H']; subst. inversion H' as [|? ? Hn' H'']; subst. constructor; [|auto].
    intros C. apply Hn. right. apply pairs_Ld. auto.
  Qed.

  Lemma dep_target_points c m : in_raster w h (fst c) (snd c) ->
    (dep_target fd fnd w h c = Some m <-> points m c = true).
  Proof.
    intros Hc. unfold dep_target, points, isdata. apply in_raster_iff in Hc. rewrite Hc. cbn [andb]. unfold NO_FLOW.
    destruct (fd (fst c) (snd c) =? fnd); cbn [negb andb]; [split; discriminate|].
    destruct (fd (fst c) (snd c) =? 0); cbn [negb andb]; [split; discriminate|].
    fold (target c).
    destruct (ceqb_spec (target c) m) as [->|Hn]; cbn [andb].
    - destruct (inGrid w h (fst m) (snd m)); split; (reflexivity || congruence).
    - destruct (inGrid w h (fst (target c)) (snd (target c))); (split; [intros C; injection C; intros; contradiction || discriminate|discriminate]) || (split; discriminate).
  Qed.

  Lemma accum_par_correct sched : interleaving fd fnd w h sched -> no_overlap sched ->
    exists area, d8_flow_accum_par fd fnd w h sched = Some (Ok area) /\ good_area area.
  Proof.
    intros HI HN. unfold d8_flow_accum_par.
    edestruct accum_rest_correct as [area [E [G _]]]; [| | |exists area; split; [exact E|exact G]]; cbn [k_dep k_val].
    - intros m Hm. destruct (HN m) as [L HL].
      rewrite (arun_project m sched _ (fun _ => 0, fun _ => 0)) by reflexivity.
      rewrite HL, arun_pairs.
      + cbn [fst]. rewrite Z.add_0_l. f_equal.
        unfold dcells. rewrite <- (points_indeg m) by (apply dcells_In; auto).
        apply same_length.
        * apply pairs_NoDup. rewrite <- HL. apply NoDup_filter, interleaving_NoDup; auto.
        * apply NoDup_filter, cells_NoDup.
        * intros c. rewrite <- pairs_Ld, <- HL, !filter_In, (interleaving_In sched _ HI). cbn [acell].
          unfold ato. cbn [acell]. destruct c as [x y]. rewrite cells_In. cbn [fst snd]. split.
          -- intros [[Hin _] Ht]. split; [exact Hin|]. apply dep_target_points; [exact Hin|].
             destruct (dep_target fd fnd w h (x, y)) as [t|]; [|discriminate]. destruct (ceqb_spec t m); congruence.
          -- intros [Hin Hp]. apply dep_target_points in Hp; [|exact Hin]. rewrite Hp.
             split; [split; [exact Hin|congruence]|]. destruct (ceqb_spec m m); congruence.
      + intros c Hc. apply pairs_Ld in Hc. rewrite <- HL in Hc. apply filter_In in Hc. destruct Hc as [_ Hc].
        unfold ato in Hc. cbn [acell] in Hc. destruct (dep_target fd fnd w h c) as [t|]; [|discriminate]. destruct (ceqb_spec t m); congruence.
    - intros m [_ Hm]. apply Z.eqb_neq in Hm. rewrite Hm, andb_false_r. reflexivity.
    - intros m Hin Hm. apply in_raster_iff in Hin. apply Z.eqb_eq in Hm. rewrite Hin, Hm. reflexivity.
  Qed.
End Accum.

Lemma passes_decrease e fd fnd w h : (forall p q, gives fd fnd w h p q -> e (fst q) (snd q) < e (fst p) (snd p)) ->
  forall p q, passes fd fnd w h p q -> e (fst q) (snd q) <= e (fst p) (snd p).
Proof. intros H p q Hp. induction Hp as [p|p q r H1 IH H2]; [lia|]. specialize (H q r H2). lia. Qed.

Lemma directions_acyclic e nd w h order fd :
  Permutation order (cells w h) -> d8_flow_directions e nd w h order = Ok fd ->
  forall p, ~ looping fd 255 w h p.
Proof.
  intros Ho E p [q [H1 H2]].
  pose proof (fun a b => directions_decrease e nd w h order fd a b Ho E) as D.
  pose proof (passes_decrease e fd 255 w h D p q H1). pose proof (D q p H2). lia.
Qed.
