(** The flood of one tile: it fills the tile like Zhou2016, cells of the same label are connected, and the graph
    describes where the labels meet. *)
From Coq Require Import ZArith List Lia Bool Permutation.
From Verif Require Import Base Res RasterSpec RasterFacts Kahn FlowModel FlowProofs PFModel PFProofs TraceFlood ZhouModel ZhouProofs PPFModel.
Open Scope Z_scope.

  Definition gle (g g' : sgraph) : Prop := forall a b v, g a b = Some v -> exists v', g' a b = Some v' /\ v' <= v.
  Lemma gle_refl g : gle g g.
  Proof. intros a b v E. exists v. split; [auto|lia]. Qed.
  Lemma gle_trans g1 g2 g3 : gle g1 g2 -> gle g2 g3 -> gle g1 g3.
  Proof. intros A B a b v E. destruct (A _ _ _ E) as [v' [E' Le]]. destruct (B _ _ _ E') as [v'' [E'' Le']]. exists v''. split; [auto|lia]. Qed.
  Lemma gput_same g a b v : gput g a b v a b = Some v.
  Proof. unfold gput. rewrite !Z.eqb_refl. reflexivity. Qed.
  Lemma gput_other g a b v a' b' : a' <> a \/ b' <> b -> gput g a b v a' b' = g a' b'.
  Proof. unfold gput. intros H. destruct (Z.eqb_spec a' a), (Z.eqb_spec b' b); cbn; auto; lia. Qed.
  Lemma gput_cases g a b v a' b' r : gput g a b v a' b' = Some r -> a' = a /\ b' = b /\ r = v \/ g a' b' = Some r.
  Proof. unfold gput. destruct (Z.eqb_spec a' a), (Z.eqb_spec b' b); cbn; auto. intros E. injection E as <-. auto. Qed.

  Lemma WM_same size a b ea eb g bad : b = 0 \/ a = b -> WatershedsMeet size a b ea eb (g, bad) = (g, bad).
  Proof. intros H. unfold WatershedsMeet. destruct (Z.eqb_spec b 0); auto. destruct (Z.eqb_spec a b); auto. destruct H; contradiction. Qed.
  Lemma WM_meet size a b ea eb g bad : b <> 0 -> a <> b -> Z.min a b < size ->
    exists g', WatershedsMeet size a b ea eb (g, bad) = (g', bad) /\ gle g g' /\
      (exists v, g' (Z.min a b) (Z.max a b) = Some v /\ v <= Z.max ea eb) /\
      forall l1 l2 v, g' l1 l2 = Some v -> g l1 l2 = Some v \/ l1 = Z.min a b /\ l2 = Z.max a b /\ v = Z.max ea eb.
  Proof.
    intros B0 AB Hs. unfold WatershedsMeet. destruct (Z.eqb_spec b 0); [contradiction|]. destruct (Z.eqb_spec a b); [contradiction|].
    replace (if a >? b then b else a) with (Z.min a b) by (rewrite Z.gtb_ltb; destruct (Z.ltb_spec b a); lia).
    replace (if a >? b then a else b) with (Z.max a b) by (rewrite Z.gtb_ltb; destruct (Z.ltb_spec b a); lia).
    destruct (Z.leb_spec size (Z.min a b)); [lia|].
    assert (PUT : (forall v, g (Z.min a b) (Z.max a b) = Some v -> Z.max ea eb <= v) ->
      gle g (gput g (Z.min a b) (Z.max a b) (Z.max ea eb)) /\
      (exists v, gput g (Z.min a b) (Z.max a b) (Z.max ea eb) (Z.min a b) (Z.max a b) = Some v /\ v <= Z.max ea eb) /\
      forall l1 l2 v, gput g (Z.min a b) (Z.max a b) (Z.max ea eb) l1 l2 = Some v -> g l1 l2 = Some v \/ l1 = Z.min a b /\ l2 = Z.max a b /\ v = Z.max ea eb).
    { intros LE. split; [|split].
      - intros l1 l2 v E. destruct (Z.eq_dec l1 (Z.min a b)) as [->|N1]; [destruct (Z.eq_dec l2 (Z.max a b)) as [->|N2]|].
        + exists (Z.max ea eb). rewrite gput_same. split; auto.
        + exists v. rewrite gput_other by auto. split; [auto|lia].
        + exists v. rewrite gput_other by auto. split; [auto|lia].
      - exists (Z.max ea eb). rewrite gput_same. split; [auto|lia].
      - intros l1 l2 v E. apply gput_cases in E. tauto. }
    destruct (g (Z.min a b) (Z.max a b)) as [v|] eqn:E.
    - destruct (Z.ltb_spec (Z.max ea eb) v).
      + eexists. split; [reflexivity|]. apply PUT. intros v' E'. injection E' as <-. lia.
      + exists g. split; [reflexivity|]. split; [apply gle_refl|]. split; [exists v; split; [auto|lia]|]. auto.
    - eexists. split; [reflexivity|]. apply PUT. discriminate.
  Qed.

Section Tile.
  Variables (w h size : Z).
  Definition seeds := l_seeds w h.
  Hypothesis Hsize : Z.of_nat (length seeds) < size.

  (** ** Connected cells *)
  Section Conn.
    Variables (lab dem : cellt -> Z).
    Inductive conn (z : Z) : cellt -> cellt -> Prop :=
    | conn_here a : lab a <> 0 -> dem a <= z -> zdom w h a -> conn z a a
    | conn_step a b c : lab a <> 0 -> dem a <= z -> zdom w h a -> nb8 a b -> conn z b c -> conn z a c.
    Lemma conn_le z z' a b : conn z a b -> z <= z' -> conn z' a b.
    Proof. induction 1; intros; [apply conn_here; auto; lia|eapply conn_step; eauto; lia]. Qed.
    Lemma conn_fst z a b : conn z a b -> lab a <> 0 /\ dem a <= z /\ zdom w h a.
    Proof. destruct 1; auto. Qed.
    Lemma conn_trans z a b c : conn z a b -> conn z b c -> conn z a c.
    Proof. induction 1; intros; auto. eapply conn_step; eauto. Qed.
    Lemma conn_sym z a b : conn z a b -> conn z b a.
    Proof.
      induction 1 as [a A B C|a b c A B C N D IH]; [apply conn_here; auto|]. eapply conn_trans; [exact IH|].
      destruct (conn_fst _ _ _ D) as [D1 [D2 D3]]. eapply conn_step; eauto; [apply nb8_sym; eauto|]. apply conn_here; auto.
    Qed.
  End Conn.
  Lemma conn_mono lab dem lab' dem' z a b : (forall u, lab u <> 0 -> lab' u <> 0 /\ dem' u = dem u) -> conn lab dem z a b -> conn lab' dem' z a b.
  Proof.
    intros M. induction 1 as [a A B C|a b c A B C N D IH]; destruct (M a A) as [M1 M2].
    - apply conn_here; auto. lia.
    - eapply conn_step; eauto. lia.
  Qed.

  (** the meeting of two adjacent cells is recorded *)
  Definition recd (s : lst) (a b : cellt) : Prop :=
    exists v, l_g s (Z.min (l_lab s a) (l_lab s b)) (Z.max (l_lab s a) (l_lab s b)) = Some v /\ v <= Z.max (l_dem s a) (l_dem s b).
  Lemma recd_sym s a b : recd s a b -> recd s b a.
  Proof. intros [v [A B]]. exists v. rewrite Z.min_comm, (Z.max_comm (l_lab s b)), (Z.max_comm (l_dem s b)). auto. Qed.

  Definition cnt (lab : cellt -> Z) : nat := length (filter (fun c => lab c =? 0) seeds).

  Definition que (X : list cellt) (s : lst) (v : cellt) : Prop := In v X \/ In v (map snd (l_tr s)) \/ In v (map snd (l_dep s)).

  Record LI (X : list cellt) (s : lst) : Prop := {
    li_lab : forall c, l_lab s c = 0 \/ 2 <= l_lab s c < l_cur s /\ zdom w h c;
    li_q : forall z v, In (z, v) (l_tr s) \/ In (z, v) (l_dep s) -> l_lab s v <> 0 /\ z = l_dem s v;
    li_X : forall v, In v X -> l_lab s v <> 0;
    li_conn : forall a b, l_lab s a <> 0 -> l_lab s a = l_lab s b -> conn (l_lab s) (l_dem s) (Z.max (l_dem s a) (l_dem s b)) a b;
    li_sound : forall l1 l2 v, l_g s l1 l2 = Some v -> l1 < l2 /\ exists a b, nb8 a b /\ l_lab s a <> 0 /\ l_lab s b <> 0 /\ l_lab s a = l1 /\ l_lab s b = l2 /\ v = Z.max (l_dem s a) (l_dem s b);
    li_comp : forall a b, nb8 a b -> l_lab s a <> 0 -> l_lab s b <> 0 -> l_lab s a <> l_lab s b -> recd s a b \/ que X s a \/ que X s b;
    li_bad : l_bad s = false;
    li_room : 2 <= l_cur s /\ l_cur s + Z.of_nat (cnt (l_lab s)) <= 2 + Z.of_nat (length seeds);
    li_all : forall l, 2 <= l < l_cur s -> exists a, l_lab s a = l }.

  Record mono (s s' : lst) : Prop := {
    m_lab : forall u, l_lab s u <> 0 -> l_lab s' u = l_lab s u;
    m_dem : forall u, l_lab s u <> 0 -> l_dem s' u = l_dem s u;
    m_g : gle (l_g s) (l_g s') }.
  Lemma mono_refl s : mono s s.
  Proof. constructor; auto using gle_refl. Qed.
  Lemma mono_trans a b c : mono a b -> mono b c -> mono a c.
  Proof.
    intros [A1 A2 A3] [B1 B2 B3]. constructor.
    - intros u Hu. rewrite B1; auto. rewrite A1; auto.
    - intros u Hu. rewrite B2; auto. rewrite A1; auto.
    - eapply gle_trans; eauto.
  Qed.
  Lemma recd_mono s s' a b : mono s s' -> l_lab s a <> 0 -> l_lab s b <> 0 -> recd s a b -> recd s' a b.
  Proof.
    intros [M1 M2 M3] A B [v [E Le]]. destruct (M3 _ _ _ E) as [v' [E' Le']]. exists v'. rewrite (M1 a), (M1 b), (M2 a), (M2 b); auto. split; [auto|lia].
  Qed.

  Record sim (s : lst) (z : zst) : Prop := {
    s_lab : forall c, (l_lab s c =? 0) = (z_lab z c =? 0);
    s_dem : forall c, l_dem s c = z_dem z c;
    s_pq : l_pq s = z_pq z;
    s_tr : map snd (l_tr s) = z_tr z;
    s_dep : map snd (l_dep s) = z_dep z }.

  (** ** One meeting *)
  Lemma sim_meet s z c ni : sim s z -> sim (l_meet size c ni s) z.
  Proof. intros [A B C D E]. constructor; auto. Qed.

  Lemma meet_ok X s c ni : LI X s -> nb8 c ni -> l_lab s c <> 0 ->
    let s' := l_meet size c ni s in
    LI X s' /\ mono s s' /\ (l_lab s ni <> 0 -> l_lab s ni <> l_lab s c -> recd s' c ni).
  Proof.
    intros I N LC s'. pose proof I as [A1 A2 A3 A4 A5 A6 A7 A8 A9].
    destruct (Z.eq_dec (l_lab s ni) 0) as [Z0|NZ]; [|destruct (Z.eq_dec (l_lab s ni) (l_lab s c)) as [EQ|NE]].
    1,2: assert (S' : s' = s) by (unfold s', l_meet; rewrite WM_same by auto; cbn [fst snd]; destruct s; reflexivity); rewrite S'; split; [exact I|split; [apply mono_refl|intros; congruence]].
    assert (BD : Z.min (l_lab s c) (l_lab s ni) < size).
    { destruct (A1 c) as [|[B1 _]]; [contradiction|]. destruct (A1 ni) as [|[B2 _]]; [contradiction|]. lia. }
    destruct (WM_meet size (l_lab s c) (l_lab s ni) (l_dem s c) (l_dem s ni) (l_g s) (l_bad s)) as [g' [E [GL [R S0]]]]; auto.
    assert (S' : s' = mkL (l_dem s) (l_lab s) (l_pq s) (l_tr s) (l_dep s) g' (l_cur s) (l_bad s)) by (unfold s', l_meet; rewrite E; reflexivity).
    assert (M : mono s s') by (rewrite S'; constructor; cbn; auto).
    split; [|split; [exact M|intros _ _; rewrite S'; exact R]].
    rewrite S'. constructor; cbn [l_lab l_dem l_tr l_dep l_g l_cur l_bad]; auto.
    - intros l1 l2 v Ev. destruct (S0 _ _ _ Ev) as [Ev'|[E1 [E2 E3]]]; [auto|]. split; [lia|].
      destruct (Z.le_gt_cases (l_lab s c) (l_lab s ni)).
      + exists c, ni. repeat (split; [solve [auto; lia]|]). lia.
      + exists ni, c. split; [apply nb8_sym; auto|]. repeat (split; [solve [auto; lia]|]). lia.
    - intros a b Nab La Lb Ne. destruct (A6 a b Nab La Lb Ne) as [R1|Q]; [left|right; exact Q]. rewrite S' in M. apply (recd_mono s); auto.
  Qed.

  (** ** A cell is labelled and queued *)
  Lemma cnt_le lab lab' : (forall c, lab c <> 0 -> lab' c <> 0) -> (cnt lab' <= cnt lab)%nat.
  Proof.
    intros HH. unfold cnt. generalize seeds. induction l as [|a l IH]; cbn [filter]; [lia|]. specialize (HH a).
    destruct (Z.eqb_spec (lab a) 0), (Z.eqb_spec (lab' a) 0); cbn [length]; lia.
  Qed.
  Lemma cnt_lt lab lab' c : (forall c, lab c <> 0 -> lab' c <> 0) -> In c seeds -> lab c = 0 -> lab' c <> 0 -> (cnt lab' < cnt lab)%nat.
  Proof.
    intros HH. unfold cnt. generalize seeds. induction l as [|a l IH]; cbn [filter In]; [tauto|]. intros [->|Hin] L0 L1.
    - pose proof (Z.eqb_spec (lab c) 0) as R1. rewrite L0 in R1. rewrite L0. cbn [Z.eqb]. destruct (Z.eqb_spec (lab' c) 0); [contradiction|]. cbn [length].
      clear - HH. induction l as [|a l IH]; cbn [filter length]; [lia|]. specialize (HH a).
      destruct (Z.eqb_spec (lab a) 0), (Z.eqb_spec (lab' a) 0); cbn [length] in *; lia.
    - specialize (IH Hin L0 L1). specialize (HH a). destruct (Z.eqb_spec (lab a) 0), (Z.eqb_spec (lab' a) 0); cbn [length]; lia.
  Qed.

  Lemma flag_ok X s v ni l tr dep : LI X s -> l_lab s v <> 0 -> nb8 v ni -> zdom w h ni -> l_lab s ni = 0 -> l_dem s v <= l ->
    (tr = l_tr s ++ [(l, ni)] /\ dep = l_dep s \/ tr = l_tr s /\ dep = l_dep s ++ [(l, ni)]) ->
    let s' := mkL (cset (l_dem s) ni l) (cset (l_lab s) ni (l_lab s v)) (l_pq s) tr dep (l_g s) (l_cur s) (l_bad s) in
    LI X s' /\ mono s s'.
  Proof.
    intros I Lv N D L0 Hl Hq s'. pose proof I as [A1 A2 A3 A4 A5 A6 A7 A8 A9].
    assert (NE : forall u, l_lab s u <> 0 -> u <> ni) by (intros u Hu ->; contradiction).
    assert (M1 : forall u, l_lab s u <> 0 -> l_lab s' u = l_lab s u) by (intros u Hu; unfold s'; cbn [l_lab]; apply cset_other, NE, Hu).
    assert (M2 : forall u, l_lab s u <> 0 -> l_dem s' u = l_dem s u) by (intros u Hu; unfold s'; cbn [l_dem]; apply cset_other, NE, Hu).
    assert (M : mono s s') by (constructor; auto; apply gle_refl).
    assert (NL : l_lab s' ni = l_lab s v) by (unfold s'; cbn [l_lab]; apply cset_same).
    assert (ND : l_dem s' ni = l) by (unfold s'; cbn [l_dem]; apply cset_same).
    assert (OL : forall u, u <> ni -> l_lab s' u = l_lab s u) by (intros u Hu; unfold s'; cbn [l_lab]; apply cset_other, Hu).
    assert (Q' : forall e, In e tr \/ In e dep <-> In e (l_tr s) \/ In e (l_dep s) \/ e = (l, ni)).
    { intros u. destruct Hq as [[-> ->]|[-> ->]]; rewrite in_app_iff; cbn [In]; intuition auto. }
    assert (QS : forall u, que X s' u <-> que X s u \/ u = ni).
    { intros u. unfold que, s'. cbn [l_tr l_dep]. destruct Hq as [[-> ->]|[-> ->]]; rewrite map_app, in_app_iff; cbn [map snd In]; intuition auto. }
    assert (CM : forall z a b, conn (l_lab s) (l_dem s) z a b -> conn (l_lab s') (l_dem s') z a b).
    { intros z a b. apply conn_mono. intros u Hu. rewrite M1, M2 by auto. auto. }
    assert (CN : forall b, l_lab s b <> 0 -> l_lab s b = l_lab s v -> conn (l_lab s') (l_dem s') (Z.max l (l_dem s b)) ni b).
    { intros b Lb Eb. apply (conn_step _ _ _ ni v b); rewrite ?NL, ?ND; auto; [lia|apply nb8_sym; auto|]. apply CM.
      apply (conn_le _ _ (Z.max (l_dem s v) (l_dem s b))); [apply A4; auto|lia]. }
    split; [constructor|exact M].
    - intros c. destruct (cell_eq_dec c ni) as [->|Ne]; [|rewrite OL by auto; exact (A1 c)]. right. rewrite NL. destruct (A1 v) as [|[B _]]; [contradiction|].
      split; [exact B|exact D].
    - intros z u Hu. apply Q' in Hu. destruct (cell_eq_dec u ni) as [->|Ne].
      + rewrite NL, ND. split; auto. destruct Hu as [Hu|[Hu|E]]; [| |congruence]; destruct (A2 z ni) as [B _]; auto; contradiction.
      + rewrite OL by auto. unfold s'. cbn [l_dem]. rewrite cset_other by auto. apply A2. destruct Hu as [Hu|[Hu|E]]; auto. injection E as _ E. contradiction.
    - intros u Hu. rewrite M1; auto.
    - intros a b La Eab. destruct (cell_eq_dec a ni) as [->|Na], (cell_eq_dec b ni) as [->|Nb].
      + rewrite ND. apply conn_here; [exact La|rewrite ND; lia|exact D].
      + rewrite NL, OL in Eab by auto. rewrite ND. assert (Lb : l_lab s b <> 0) by congruence. rewrite M2 by auto. auto.
      + rewrite NL, OL in Eab by auto. rewrite ND. assert (La' : l_lab s a <> 0) by congruence. rewrite M2 by auto. apply conn_sym.
        rewrite Z.max_comm. auto.
      + rewrite OL in La by auto. rewrite !OL in Eab by auto. assert (Lb : l_lab s b <> 0) by congruence. rewrite !M2 by auto. apply CM. auto.
    - intros l1 l2 v0 E. destruct (A5 l1 l2 v0 E) as [Lt [a [b [B1 [B2 [B3 [B4 [B5 B6]]]]]]]]. split; [exact Lt|]. exists a, b.
      rewrite !M1, !M2 by auto. auto 10.
    - intros a b Nab La Lb Ne. destruct (cell_eq_dec a ni) as [->|Na]; [right; left; apply QS; auto|]. destruct (cell_eq_dec b ni) as [->|Nb]; [right; right; apply QS; auto|].
      rewrite OL in La, Lb by auto. rewrite !OL in Ne by auto. destruct (A6 a b Nab La Lb Ne) as [R1|[Q|Q]].
      + left. apply (recd_mono s); auto.
      + right. left. apply QS. auto.
      + right. right. apply QS. auto.
    - exact A7.
    - change (l_cur s') with (l_cur s). assert ((cnt (l_lab s') <= cnt (l_lab s))%nat); [|lia]. apply cnt_le. intros c Hc. rewrite M1; auto.
    - intros l' Hl'. destruct (A9 l' Hl') as [a Ha]. exists a. rewrite M1; auto. lia.
  Qed.

  (** Between two iterations of a neighbour loop: what is known of the neighbours of [c] that have been looked at. *)
  Definition seen (s : lst) (c ni : cellt) : Prop := l_lab s ni <> 0 /\ (l_lab s ni = l_lab s c \/ recd s c ni).
  Lemma seen_mono s s' c ni : mono s s' -> l_lab s c <> 0 -> seen s c ni -> seen s' c ni.
  Proof.
    intros M Lc [A B]. pose proof M as [M1 M2 M3]. split; [rewrite M1; auto|]. destruct B as [B|B]; [left; rewrite !M1; auto|right; apply (recd_mono s); auto].
  Qed.

  (** A cell is done. *)
  Lemma done_ok X s c : LI (c :: X) s ->
    (forall n, In n (dirs D8) -> zdom w h (off c n) -> l_lab s (off c n) = 0 \/ seen s c (off c n) \/ que X s (off c n)) -> LI X s.
  Proof.
    intros I Hs. pose proof I as [A1 A2 A3 A4 A5 A6 A7 A8 A9]. constructor; auto.
    - intros v Hv. apply A3. right. exact Hv.
    - assert (HALF : forall b, nb8 c b -> l_lab s b <> 0 -> l_lab s c <> l_lab s b -> recd s c b \/ que X s b).
      { intros b N Lb Ne. destruct (nb_off _ _ N) as [n [Hn ->]]. destruct (A1 (off c n)) as [|[_ D]]; [contradiction|].
        destruct (Hs n Hn D) as [?|[[_ [?|?]]|?]]; auto; congruence. }
      intros a b N La Lb Ne. destruct (cell_eq_dec a c) as [->|Na]; [destruct (HALF b N Lb Ne); auto|].
      destruct (cell_eq_dec b c) as [->|Nb]; [destruct (HALF a (nb8_sym _ _ N) La) as [R|?]; auto; left; apply recd_sym; auto|].
      destruct (A6 a b N La Lb Ne) as [R|[[[E|Q]|Q]|[[E|Q]|Q]]]; auto; try congruence; right; [left|left|right|right]; unfold que; auto.
  Qed.

  (** ** ProcessTraceQue_onepass *)
  Lemma trace_fold cz c X : forall ns s z b, incl ns (dirs D8) -> sim s z -> LI (c :: X) s -> cz = l_dem s c ->
    exists s' z' b', fold_left (lt_visit w h size cz c) ns (s, b) = (s', b') /\ fold_left (zt_visit w h c) ns (z, b) = (z', b') /\ sim s' z' /\ LI (c :: X) s' /\
      mono s s' /\ l_dep s' = l_dep s /\ (forall v, In v (map snd (l_tr s)) -> In v (map snd (l_tr s'))) /\
      (forall u, l_lab s u = 0 -> l_lab s' u = 0 \/ seen s' c u \/ In u (map snd (l_tr s'))) /\
      (forall n, In n ns -> zdom w h (off c n) -> l_lab s' (off c n) = 0 \/ seen s' c (off c n) \/ In (off c n) (map snd (l_tr s'))).
  Proof.
    induction ns as [|n ns IH]; intros s z b Inc Sm I Hc; cbn [fold_left].
    - exists s, z, b. repeat (split; [solve [auto using mono_refl]|]). intros n [].
    - assert (Hn : In n (dirs D8)) by (apply Inc; left; auto). assert (Inc' : incl ns (dirs D8)) by (intros a Ha; apply Inc; right; auto).
      assert (LC : l_lab s c <> 0) by (apply (li_X _ _ I); left; auto).
      assert (STEP : exists s1 z1 b1, lt_visit w h size cz c (s, b) n = (s1, b1) /\ zt_visit w h c (z, b) n = (z1, b1) /\ sim s1 z1 /\ LI (c :: X) s1 /\
        mono s s1 /\ l_dep s1 = l_dep s /\ (forall v, In v (map snd (l_tr s)) -> In v (map snd (l_tr s1))) /\
        (forall u, l_lab s u = 0 -> l_lab s1 u = 0 \/ seen s1 c u \/ In u (map snd (l_tr s1))) /\
        (zdom w h (off c n) -> l_lab s1 (off c n) = 0 \/ seen s1 c (off c n) \/ In (off c n) (map snd (l_tr s1)))).
      { unfold lt_visit, zt_visit. set (ni := off c n). destruct (inR w h ni) eqn:IR; cbn [negb].
        2: { exists s, z, b. repeat (split; [solve [auto using mono_refl]|]). intros D. apply (inR_iff w h) in D. congruence. }
        apply (inR_iff w h) in IR. assert (N : nb8 c ni) by (apply off_nb; auto).
        destruct (meet_ok (c :: X) s c ni I N LC) as [I0 [M0 R0]]. pose proof (sim_meet s z c ni Sm) as Sm0.
        remember (l_meet size c ni s) as s0 eqn:ES0.
        assert (E1 : l_lab s0 = l_lab s) by (rewrite ES0; reflexivity). assert (E2 : l_dem s0 = l_dem s) by (rewrite ES0; reflexivity).
        assert (E3 : l_tr s0 = l_tr s) by (rewrite ES0; reflexivity). assert (E4 : l_dep s0 = l_dep s) by (rewrite ES0; reflexivity).
        assert (U0 : forall u, l_lab s u = 0 -> l_lab s0 u = 0) by (intros u; rewrite E1; auto).
        pose proof Sm0 as [S1 S2 S3 S4 S5]. rewrite <- (S1 ni). destruct (Z.eqb_spec (l_lab s0 ni) 0) as [L0|L1]; cbn [negb].
        2: { exists s0, z, b. repeat (split; [solve [auto]|]). split; [rewrite E3; auto|]. split; [auto|]. intros _. right. left. rewrite E1 in L1. split; [rewrite E1; auto|].
             destruct (Z.eq_dec (l_lab s ni) (l_lab s c)) as [EE|NN]; [left; rewrite E1; auto|right; auto]. }
        rewrite <- (S2 ni). assert (DC : z_dem z c = cz) by (rewrite <- S2, E2; auto). rewrite DC.
        assert (LC0 : l_lab s0 c <> 0) by (rewrite E1; auto).
        destruct (Z.ltb_spec cz (l_dem s0 ni)) as [Lt|Ge].
        - destruct (flag_ok (c :: X) s0 c ni (l_dem s0 ni) (l_tr s0 ++ [(l_dem s0 ni, ni)]) (l_dep s0) I0 LC0 N IR L0) as [I1 M1]; [rewrite E2; rewrite E2 in Lt; lia|left; auto|].
          set (s1 := mkL (l_dem s0) (cset (l_lab s0) ni (l_lab s0 c)) (l_pq s0) (l_tr s0 ++ [(l_dem s0 ni, ni)]) (l_dep s0) (l_g s0) (l_cur s0) (l_bad s0)).
          assert (DS : forall u, cset (l_dem s0) ni (l_dem s0 ni) u = l_dem s0 u) by (intros u; destruct (cell_eq_dec u ni) as [->|]; [apply cset_same|apply cset_other; auto]).
          assert (I2 : LI (c :: X) s1).
          { pose proof I1 as [B1 B2 B3 B4 B5 B6 B7 B8 B9]. cbn [l_lab l_dem l_pq l_tr l_dep l_g l_cur l_bad] in *. unfold s1. constructor; cbn [l_lab l_dem l_pq l_tr l_dep l_g l_cur l_bad]; auto.
            - intros z0 v Hv. destruct (B2 z0 v Hv) as [C1 C2]. rewrite DS in C2. auto.
            - intros a b0 La Eab. specialize (B4 a b0 La Eab). rewrite !DS in B4. revert B4. apply conn_mono. intros u Hu. split; auto.
            - intros l1 l2 v E. destruct (B5 l1 l2 v E) as [Lt' [a [b0 C]]]. split; auto. exists a, b0. rewrite !DS in C. exact C.
            - intros a b0 Nab La Lb Ne. destruct (B6 a b0 Nab La Lb Ne) as [[v [C1 C2]]|Q]; [left|right; exact Q]. exists v. cbn [l_lab l_dem l_g] in *. rewrite !DS in C2. auto. }
          assert (M2 : mono s s1).
          { apply (mono_trans _ s0); auto. destruct M1 as [C1 C2 C3]. constructor; auto. }
          exists s1. eexists. exists b. split; [reflexivity|]. split; [reflexivity|]. split; [|split; [exact I2|split; [exact M2|split; [exact E4|]]]].
          + constructor; cbn [l_lab l_dem l_pq l_tr l_dep z_lab z_dem z_pq z_tr z_dep s1]; auto.
            * intros u. unfold s1. cbn [l_lab]. destruct (cell_eq_dec u ni) as [->|]; [rewrite !cset_same; apply S1|rewrite !cset_other; auto].
            * unfold s1. cbn [l_tr]. rewrite map_app, S4. reflexivity.
          + assert (T1 : In ni (map snd (l_tr s1))) by (unfold s1; cbn [l_tr]; rewrite map_app, in_app_iff; right; left; auto).
            split; [intros v Hv; unfold s1; cbn [l_tr]; rewrite map_app, in_app_iff, E3; auto|]. split; [|auto].
            intros u Hu. destruct (cell_eq_dec u ni) as [->|Ne]; [auto|left]. unfold s1. cbn [l_lab]. rewrite cset_other by auto. rewrite E1. auto.
        - destruct b.
          + exists s0, z, true. repeat (split; [solve [auto]|]). split; [rewrite E3; auto|]. split; auto.
          + replace (existsb _ (dirs D8)) with (existsb (fun _ : nat => inR w h (off ni n) && negb (z_lab z (off ni n) =? 0) && (z_dem z (off ni n) <? l_dem s0 ni)) (dirs D8)).
            2: { rewrite <- (S1 (off ni n)), <- (S2 (off ni n)). reflexivity. }
            destruct (existsb _ (dirs D8)).
            * exists s0, z, false. repeat (split; [solve [auto]|]). split; [rewrite E3; auto|]. split; auto.
            * eexists. eexists. exists true. split; [reflexivity|]. split; [reflexivity|]. split; [|split; [|split; [|split; [exact E4|split; [cbn [l_tr]; rewrite E3; auto|split; cbn [l_lab]; auto]]]]].
              -- constructor; cbn [l_lab l_dem l_pq l_tr l_dep z_lab z_dem z_pq z_tr z_dep]; auto. rewrite S3. reflexivity.
              -- destruct I0 as [B1 B2 B3 B4 B5 B6 B7 B8 B9]. constructor; auto.
              -- destruct M0 as [C1 C2 C3]. constructor; auto. }
      destruct STEP as [s1 [z1 [b1 [F1 [F2 [Sm1 [I1 [M1 [D1 [T1 [U1 N1]]]]]]]]]]]. rewrite F1, F2.
      destruct (IH s1 z1 b1 Inc' Sm1 I1) as [s2 [z2 [b2 [G1 [G2 [Sm2 [I2 [M2 [D2 [T2 [U2 N2]]]]]]]]]]]; [rewrite (m_dem _ _ M1); auto|].
      exists s2, z2, b2. split; [exact G1|]. split; [exact G2|]. split; [exact Sm2|]. split; [exact I2|]. split; [eapply mono_trans; eauto|]. split; [congruence|]. split; [auto|].
      assert (LC1 : l_lab s1 c <> 0) by (rewrite (m_lab _ _ M1); auto).
      split.
      + intros u Hu. destruct (U1 u Hu) as [A|[A|A]]; [auto|right; left; eapply seen_mono; eauto|auto].
      + intros k [<-|Hk] D; [|auto]. destruct (N1 D) as [A|[A|A]]; [auto|right; left; eapply seen_mono; eauto|auto].
  Qed.

  Lemma trace_sim X s z z' : sim s z -> LI X s -> ProcessTraceQue_onepass w h z = Some z' ->
    exists s', ProcessTraceQueL w h size s = Some s' /\ sim s' z' /\ LI X s' /\ mono s s' /\ l_tr s' = [] /\ l_dep s' = l_dep s.
  Proof.
    unfold ProcessTraceQue_onepass, ProcessTraceQueL. generalize (S (Z.to_nat w * Z.to_nat h)) as fuel. generalize O as i. intros i fuel. revert i s z.
    induction fuel as [|f IH]; intros i s z Sm I E; cbn [while_pop] in *; unfold zt_pop at 1 in E; unfold lt_pop at 1; pose proof (s_tr _ _ Sm) as ST;
      destruct (l_tr s) as [|[cz c] q] eqn:TR; cbn [map snd] in ST; rewrite <- ST in E; try discriminate E.
    - injection E as <-. exists s. repeat (split; [solve [auto using mono_refl]|]). auto.
    - injection E as <-. exists s. repeat (split; [solve [auto using mono_refl]|]). auto.
    - cbn [fst snd] in *. set (s1 := mkL (l_dem s) (l_lab s) (l_pq s) q (l_dep s) (l_g s) (l_cur s) (l_bad s)).
      set (z1 := mkZ (z_dem z) (z_lab z) (z_pq z) (map snd q) (z_dep z)) in E.
      assert (CZ : l_lab s c <> 0 /\ cz = l_dem s c) by (apply (li_q _ _ I); left; rewrite TR; left; auto). destruct CZ as [LC CZ].
      assert (I1 : LI (c :: X) s1).
      { destruct I as [B1 B2 B3 B4 B5 B6 B7 B8 B9]. unfold s1. constructor; cbn [l_lab l_dem l_pq l_tr l_dep l_g l_cur l_bad]; auto.
        - intros z0 v Hv. apply B2. rewrite TR. cbn [In]. tauto.
        - intros v [<-|Hv]; auto.
        - intros a b N La Lb Ne. destruct (B6 a b N La Lb Ne) as [R|Q]; [left; exact R|right]. unfold que in *. rewrite TR in Q. cbn [map snd In l_tr l_dep] in *. tauto. }
      assert (Sm1 : sim s1 z1) by (destruct Sm; constructor; auto).
      destruct (trace_fold cz c X (dirs D8) s1 z1 false (incl_refl _) Sm1 I1 CZ) as [s2 [z2 [b2 [G1 [G2 [Sm2 [I2 [M2 [D2 [T2 [U2 N2]]]]]]]]]]].
      rewrite G1. rewrite G2 in E. cbn [fst] in *.
      assert (I3 : LI X s2).
      { apply (done_ok X s2 c I2). intros n Hn D. destruct (N2 n Hn D) as [A|[A|A]]; auto. right. right. right. left. exact A. }
      destruct (IH (S i) s2 z2 Sm2 I3 E) as [s3 [F1 [Sm3 [I4 [M4 [T4 D4]]]]]]. exists s3. split; [exact F1|]. split; [exact Sm3|]. split; [exact I4|].
      split; [|split; [exact T4|rewrite D4, D2; reflexivity]]. eapply mono_trans; [|exact M4]. destruct M2 as [C1 C2 C3]. constructor; auto.
  Qed.

  (** ** ProcessPit_onepass *)
  Lemma pit_fold cz c X : forall ns s z, incl ns (dirs D8) -> sim s z -> LI (c :: X) s -> cz = l_dem s c -> (forall e, In e (l_dep s) -> fst e = cz) ->
    exists s' z', fold_left (lp_visit w h size cz c) ns s = s' /\ fold_left (zp_visit w h cz c) ns z = z' /\ sim s' z' /\ LI (c :: X) s' /\
      mono s s' /\ (forall e, In e (l_dep s') -> fst e = cz) /\
      (forall n, In n ns -> zdom w h (off c n) -> seen s' c (off c n)).
  Proof.
    induction ns as [|n ns IH]; intros s z Inc Sm I Hc Hd; cbn [fold_left].
    - exists s, z. do 6 (split; [solve [auto using mono_refl]|]). intros n [].
    - assert (Hn : In n (dirs D8)) by (apply Inc; left; auto). assert (Inc' : incl ns (dirs D8)) by (intros a Ha; apply Inc; right; auto).
      assert (LC : l_lab s c <> 0) by (apply (li_X _ _ I); left; auto).
      assert (STEP : exists s1 z1, lp_visit w h size cz c s n = s1 /\ zp_visit w h cz c z n = z1 /\ sim s1 z1 /\ LI (c :: X) s1 /\ mono s s1 /\
        (forall e, In e (l_dep s1) -> fst e = cz) /\ (zdom w h (off c n) -> seen s1 c (off c n))).
      { unfold lp_visit, zp_visit. set (ni := off c n). destruct (inR w h ni) eqn:IR; cbn [negb].
        2: { exists s, z. do 6 (split; [solve [auto using mono_refl]|]). intros D. apply (inR_iff w h) in D. congruence. }
        apply (inR_iff w h) in IR. assert (N : nb8 c ni) by (apply off_nb; auto).
        destruct (meet_ok (c :: X) s c ni I N LC) as [I0 [M0 R0]]. pose proof (sim_meet s z c ni Sm) as Sm0.
        remember (l_meet size c ni s) as s0 eqn:ES0.
        assert (E1 : l_lab s0 = l_lab s) by (rewrite ES0; reflexivity). assert (E2 : l_dem s0 = l_dem s) by (rewrite ES0; reflexivity).
        assert (E3 : l_tr s0 = l_tr s) by (rewrite ES0; reflexivity). assert (E4 : l_dep s0 = l_dep s) by (rewrite ES0; reflexivity).
        pose proof Sm0 as [S1 S2 S3 S4 S5]. rewrite <- (S1 ni). destruct (Z.eqb_spec (l_lab s0 ni) 0) as [L0|L1]; cbn [negb].
        2: { exists s0, z. do 5 (split; [solve [auto]|]). split; [rewrite E4; auto|]. intros _. rewrite E1 in L1. split; [rewrite E1; auto|].
             destruct (Z.eq_dec (l_lab s ni) (l_lab s c)) as [EE|NN]; [left; rewrite E1; auto|right; auto]. }
        rewrite <- (S2 ni). assert (LC0 : l_lab s0 c <> 0) by (rewrite E1; auto). assert (NC : c <> ni) by (intros EE; rewrite <- EE in L0; contradiction).
        assert (SIMU : forall u, (cset (l_lab s0) ni (l_lab s0 c) u =? 0) = (cset (z_lab z) ni (z_lab z c) u =? 0)).
        { intros u. destruct (cell_eq_dec u ni) as [->|]; [rewrite !cset_same; apply S1|rewrite !cset_other; auto]. }
        destruct (Z.gtb_spec (l_dem s0 ni) cz) as [Lt|Ge].
        - destruct (flag_ok (c :: X) s0 c ni (l_dem s0 ni) (l_tr s0 ++ [(l_dem s0 ni, ni)]) (l_dep s0) I0 LC0 N IR L0) as [I1 M1]; [rewrite E2; rewrite E2 in Lt; lia|left; auto|].
          set (s1 := mkL (l_dem s0) (cset (l_lab s0) ni (l_lab s0 c)) (l_pq s0) (l_tr s0 ++ [(l_dem s0 ni, ni)]) (l_dep s0) (l_g s0) (l_cur s0) (l_bad s0)).
          assert (DS : forall u, cset (l_dem s0) ni (l_dem s0 ni) u = l_dem s0 u) by (intros u; destruct (cell_eq_dec u ni) as [->|]; [apply cset_same|apply cset_other; auto]).
          assert (I2 : LI (c :: X) s1).
          { pose proof I1 as [B1 B2 B3 B4 B5 B6 B7 B8 B9]. cbn [l_lab l_dem l_pq l_tr l_dep l_g l_cur l_bad] in *. unfold s1. constructor; cbn [l_lab l_dem l_pq l_tr l_dep l_g l_cur l_bad]; auto.
            - intros z0 v Hv. destruct (B2 z0 v Hv) as [C1 C2]. rewrite DS in C2. auto.
            - intros a b0 La Eab. specialize (B4 a b0 La Eab). rewrite !DS in B4. revert B4. apply conn_mono. intros u Hu. split; auto.
            - intros l1 l2 v E. destruct (B5 l1 l2 v E) as [Lt' [a [b0 C]]]. split; auto. exists a, b0. rewrite !DS in C. exact C.
            - intros a b0 Nab La Lb Ne. destruct (B6 a b0 Nab La Lb Ne) as [[v [C1 C2]]|Q]; [left|right; exact Q]. exists v. cbn [l_lab l_dem l_g] in *. rewrite !DS in C2. auto. }
          assert (M2 : mono s s1).
          { apply (mono_trans _ s0); auto. destruct M1 as [C1 C2 C3]. constructor; auto. }
          exists s1. eexists. split; [reflexivity|]. split; [reflexivity|]. split; [|split; [exact I2|split; [exact M2|split; [unfold s1; cbn [l_dep]; rewrite E4; auto|]]]].
          + constructor; unfold s1; cbn [l_lab l_dem l_pq l_tr l_dep z_lab z_dem z_pq z_tr z_dep]; auto. rewrite map_app, S4. reflexivity.
          + intros _. split; [unfold s1; cbn [l_lab]; rewrite cset_same; auto|left]. unfold s1. cbn [l_lab]. rewrite cset_same, cset_other by auto. reflexivity.
        - destruct (flag_ok (c :: X) s0 c ni cz (l_tr s0) (l_dep s0 ++ [(cz, ni)]) I0 LC0 N IR L0) as [I1 M1]; [rewrite E2; lia|right; auto|].
          eexists. eexists. split; [reflexivity|]. split; [reflexivity|]. split; [|split; [exact I1|split; [eapply mono_trans; eauto|split]]].
          + constructor; cbn [l_lab l_dem l_pq l_tr l_dep z_lab z_dem z_pq z_tr z_dep]; auto.
            * intros u. destruct (cell_eq_dec u ni) as [->|]; [rewrite !cset_same; reflexivity|rewrite !cset_other; auto].
            * rewrite map_app, S5. reflexivity.
          + cbn [l_dep]. intros e He. apply in_app_iff in He. destruct He as [He|[<-|[]]]; [rewrite E4 in He; auto|reflexivity].
          + intros _. split; [cbn [l_lab]; rewrite cset_same; auto|left]. cbn [l_lab]. rewrite cset_same, cset_other by auto. reflexivity. }
      destruct STEP as [s1 [z1 [F1 [F2 [Sm1 [I1 [M1 [D1 N1]]]]]]]]. rewrite F1, F2.
      destruct (IH s1 z1 Inc' Sm1 I1) as [s2 [z2 [G1 [G2 [Sm2 [I2 [M2 [D2 N2]]]]]]]]; [rewrite (m_dem _ _ M1); auto|exact D1|].
      exists s2, z2. split; [exact G1|]. split; [exact G2|]. split; [exact Sm2|]. split; [exact I2|]. split; [eapply mono_trans; eauto|]. split; [auto|].
      intros k [<-|Hk] D; [|auto]. assert (LC1 : l_lab s1 c <> 0) by (rewrite (m_lab _ _ M1); auto). eapply seen_mono; eauto.
  Qed.

  Lemma pit_sim cz X s z z' : sim s z -> LI X s -> (forall e, In e (l_dep s) -> fst e = cz) -> ProcessPit_onepass w h cz z = Some z' ->
    exists s', ProcessPitL w h size s = Some s' /\ sim s' z' /\ LI X s' /\ mono s s' /\ l_dep s' = [].
  Proof.
    unfold ProcessPit_onepass, ProcessPitL. generalize (S (Z.to_nat w * Z.to_nat h)) as fuel. generalize O as i. intros i fuel. revert i s z.
    induction fuel as [|f IH]; intros i s z Sm I Hd E; cbn [while_pop] in *; unfold zp_pop at 1 in E; unfold lp_pop at 1; pose proof (s_dep _ _ Sm) as ST;
      destruct (l_dep s) as [|[cz' c] q] eqn:TR; cbn [map snd] in ST; rewrite <- ST in E; try discriminate E.
    - injection E as <-. exists s. repeat (split; [solve [auto using mono_refl]|]). auto.
    - injection E as <-. exists s. repeat (split; [solve [auto using mono_refl]|]). auto.
    - assert (cz' = cz) by (apply (Hd (cz', c)); left; auto). subst cz'. cbn [fst snd] in *.
      set (s1 := mkL (l_dem s) (l_lab s) (l_pq s) (l_tr s) q (l_g s) (l_cur s) (l_bad s)).
      set (z1 := mkZ (z_dem z) (z_lab z) (z_pq z) (z_tr z) (map snd q)) in E.
      assert (CZ : l_lab s c <> 0 /\ cz = l_dem s c) by (apply (li_q _ _ I); right; rewrite TR; left; auto). destruct CZ as [LC CZ].
      assert (I1 : LI (c :: X) s1).
      { destruct I as [B1 B2 B3 B4 B5 B6 B7 B8 B9]. unfold s1. constructor; cbn [l_lab l_dem l_pq l_tr l_dep l_g l_cur l_bad]; auto.
        - intros z0 v Hv. apply B2. rewrite TR. cbn [In]. tauto.
        - intros v [<-|Hv]; auto.
        - intros a b N La Lb Ne. destruct (B6 a b N La Lb Ne) as [R|Q]; [left; exact R|right]. unfold que in *. rewrite TR in Q. cbn [map snd In l_tr l_dep] in *. tauto. }
      assert (Sm1 : sim s1 z1) by (destruct Sm; constructor; auto).
      destruct (pit_fold cz c X (dirs D8) s1 z1 (incl_refl _) Sm1 I1 CZ) as [s2 [z2 [G1 [G2 [Sm2 [I2 [M2 [D2 N2]]]]]]]]; [intros e He; apply Hd; right; exact He|].
      rewrite G1. rewrite G2 in E.
      assert (I3 : LI X s2) by (apply (done_ok X s2 c I2); auto).
      destruct (IH (S i) s2 z2 Sm2 I3 D2 E) as [s3 [F1 [Sm3 [I4 [M4 D4]]]]]. exists s3. split; [exact F1|]. split; [exact Sm3|]. split; [exact I4|].
      split; [|exact D4]. eapply mono_trans; [|exact M4]. destruct M2 as [C1 C2 C3]. constructor; auto.
  Qed.

  (** ** The main loop *)
  Lemma zm_none c ns : fold_left (zm_visit w h c) ns None = None.
  Proof. induction ns; cbn [fold_left]; auto. Qed.

  Lemma main_fold c X : forall ns s z z', incl ns (dirs D8) -> sim s z -> LI (snd c :: X) s -> fst c = l_dem s (snd c) -> l_dep s = [] ->
    fold_left (zm_visit w h c) ns (Some z) = Some z' ->
    exists s', fold_left (lm_visit w h size c) ns (Some s) = Some s' /\ sim s' z' /\ LI (snd c :: X) s' /\ mono s s' /\
      (forall n, In n ns -> zdom w h (off (snd c) n) -> seen s' (snd c) (off (snd c) n)).
  Proof.
    induction ns as [|n ns IH]; intros s z z' Inc Sm I Hc Hd E; cbn [fold_left] in *.
    - injection E as <-. exists s. do 4 (split; [solve [auto using mono_refl]|]). intros n [].
    - assert (Hn : In n (dirs D8)) by (apply Inc; left; auto). assert (Inc' : incl ns (dirs D8)) by (intros a Ha; apply Inc; right; auto).
      assert (LC : l_lab s (snd c) <> 0) by (apply (li_X _ _ I); left; auto).
      destruct (zm_visit w h c (Some z) n) as [z1|] eqn:EZ; [|rewrite zm_none in E; discriminate E].
      assert (STEP : exists s1, lm_visit w h size c (Some s) n = Some s1 /\ sim s1 z1 /\ LI (snd c :: X) s1 /\ mono s s1 /\ l_dep s1 = [] /\
        (zdom w h (off (snd c) n) -> seen s1 (snd c) (off (snd c) n))).
      { revert EZ. unfold lm_visit, zm_visit. set (ni := off (snd c) n). destruct (inR w h ni) eqn:IR; cbn [negb].
        2: { intros EZ. injection EZ as <-. exists s. do 5 (split; [solve [auto using mono_refl]|]). intros D. apply (inR_iff w h) in D. congruence. }
        apply (inR_iff w h) in IR. assert (N : nb8 (snd c) ni) by (apply off_nb; auto).
        destruct (meet_ok (snd c :: X) s (snd c) ni I N LC) as [I0 [M0 R0]]. pose proof (sim_meet s z (snd c) ni Sm) as Sm0.
        remember (l_meet size (snd c) ni s) as s0 eqn:ES0.
        assert (E1 : l_lab s0 = l_lab s) by (rewrite ES0; reflexivity). assert (E2 : l_dem s0 = l_dem s) by (rewrite ES0; reflexivity).
        assert (E3 : l_tr s0 = l_tr s) by (rewrite ES0; reflexivity). assert (E4 : l_dep s0 = []) by (rewrite ES0; exact Hd).
        pose proof Sm0 as [S1 S2 S3 S4 S5]. rewrite <- (S1 ni). destruct (Z.eqb_spec (l_lab s0 ni) 0) as [L0|L1]; cbn [negb].
        2: { intros EZ. injection EZ as <-. exists s0. do 5 (split; [solve [auto]|]). intros _. rewrite E1 in L1. split; [rewrite E1; auto|].
             destruct (Z.eq_dec (l_lab s ni) (l_lab s (snd c))) as [EE|NN]; [left; rewrite E1; auto|right; auto]. }
        rewrite <- (S2 ni). assert (LC0 : l_lab s0 (snd c) <> 0) by (rewrite E1; auto). assert (NC : snd c <> ni) by (intros EE; rewrite <- EE in L0; contradiction).
        assert (SIMU : forall u, (cset (l_lab s0) ni (l_lab s0 (snd c)) u =? 0) = (cset (z_lab z) ni (z_lab z (snd c)) u =? 0)).
        { intros u. destruct (cell_eq_dec u ni) as [->|]; [rewrite !cset_same; apply S1|rewrite !cset_other; auto]. }
        destruct (Z.leb_spec (l_dem s0 ni) (fst c)) as [Le|Gt].
        - destruct (flag_ok (snd c :: X) s0 (snd c) ni (fst c) (l_tr s0) (l_dep s0 ++ [(fst c, ni)]) I0 LC0 N IR L0) as [I1 M1]; [rewrite E2; lia|right; auto|].
          remember (mkL (cset (l_dem s0) ni (fst c)) (cset (l_lab s0) ni (l_lab s0 (snd c))) (l_pq s0) (l_tr s0) (l_dep s0 ++ [(fst c, ni)]) (l_g s0) (l_cur s0) (l_bad s0)) as s1 eqn:ES1.
          remember (mkZ (cset (z_dem z) ni (fst c)) (cset (z_lab z) ni (z_lab z (snd c))) (z_pq z) (z_tr z) (z_dep z ++ [ni])) as y1 eqn:EY1.
          assert (Sm1 : sim s1 y1).
          { subst s1 y1. constructor; cbn [l_lab l_dem l_pq l_tr l_dep z_lab z_dem z_pq z_tr z_dep]; auto.
            - intros u. destruct (cell_eq_dec u ni) as [->|]; [rewrite !cset_same; reflexivity|rewrite !cset_other; auto].
            - rewrite map_app, S5. reflexivity. }
          assert (SE : seen s1 (snd c) ni) by (subst s1; split; [cbn [l_lab]; rewrite cset_same; auto|left; cbn [l_lab]; rewrite cset_same, cset_other by auto; reflexivity]).
          destruct (ProcessPit_onepass w h (fst c) y1) as [y2|] eqn:EP; [|discriminate]. intros EZ.
          destruct (pit_sim (fst c) (snd c :: X) s1 y1 y2 Sm1 I1) as [s2 [F2 [Sm2 [I2 [M2 D2]]]]]; [subst s1; cbn [l_dep]; rewrite E4; intros e [<-|[]]; reflexivity|exact EP|].
          rewrite F2. destruct (trace_sim (snd c :: X) s2 y2 z1 Sm2 I2 EZ) as [s3 [F3 [Sm3 [I3 [M3 [T3 D3]]]]]].
          exists s3. split; [exact F3|]. split; [exact Sm3|]. split; [exact I3|]. assert (M13 : mono s1 s3) by (eapply mono_trans; eauto).
          split; [eapply mono_trans; [exact M0|eapply mono_trans; [exact M1|exact M13]]|]. split; [congruence|]. intros _. apply (seen_mono s1); auto.
          rewrite (m_lab _ _ M1); auto.
        - destruct (flag_ok (snd c :: X) s0 (snd c) ni (l_dem s0 ni) (l_tr s0 ++ [(l_dem s0 ni, ni)]) (l_dep s0) I0 LC0 N IR L0) as [I1 M1]; [rewrite E2; rewrite E2 in Gt; lia|left; auto|].
          remember (mkL (l_dem s0) (cset (l_lab s0) ni (l_lab s0 (snd c))) (l_pq s0) (l_tr s0 ++ [(l_dem s0 ni, ni)]) (l_dep s0) (l_g s0) (l_cur s0) (l_bad s0)) as s1 eqn:ES1.
          assert (DS : forall u, cset (l_dem s0) ni (l_dem s0 ni) u = l_dem s0 u) by (intros u; destruct (cell_eq_dec u ni) as [->|]; [apply cset_same|apply cset_other; auto]).
          assert (I2 : LI (snd c :: X) s1).
          { pose proof I1 as [B1 B2 B3 B4 B5 B6 B7 B8 B9]. cbn [l_lab l_dem l_pq l_tr l_dep l_g l_cur l_bad] in *. subst s1. constructor; cbn [l_lab l_dem l_pq l_tr l_dep l_g l_cur l_bad]; auto.
            - intros z0 v Hv. destruct (B2 z0 v Hv) as [C1 C2]. rewrite DS in C2. auto.
            - intros a b0 La Eab. specialize (B4 a b0 La Eab). rewrite !DS in B4. revert B4. apply conn_mono. intros u Hu. split; auto.
            - intros l1 l2 v E0. destruct (B5 l1 l2 v E0) as [Lt' [a [b0 C]]]. split; auto. exists a, b0. rewrite !DS in C. exact C.
            - intros a b0 Nab La Lb Ne. destruct (B6 a b0 Nab La Lb Ne) as [[v [C1 C2]]|Q]; [left|right; exact Q]. exists v. cbn [l_lab l_dem l_g] in *. rewrite !DS in C2. auto. }
          assert (M2 : mono s0 s1) by (subst s1; destruct M1 as [C1 C2 C3]; constructor; auto).
          assert (Sm1 : sim s1 (mkZ (z_dem z) (cset (z_lab z) ni (z_lab z (snd c))) (z_pq z) (z_tr z ++ [ni]) (z_dep z))).
          { subst s1. constructor; cbn [l_lab l_dem l_pq l_tr l_dep z_lab z_dem z_pq z_tr z_dep]; auto. rewrite map_app, S4. reflexivity. }
          assert (SE : seen s1 (snd c) ni) by (subst s1; split; [cbn [l_lab]; rewrite cset_same; auto|left; cbn [l_lab]; rewrite cset_same, cset_other by auto; reflexivity]).
          intros EZ. destruct (trace_sim (snd c :: X) s1 _ z1 Sm1 I2 EZ) as [s3 [F3 [Sm3 [I3 [M3 [T3 D3]]]]]].
          exists s3. split; [exact F3|]. split; [exact Sm3|]. split; [exact I3|]. split; [eapply mono_trans; [exact M0|eapply mono_trans; eauto]|].
          split; [rewrite D3; subst s1; exact E4|]. intros _. apply (seen_mono s1); auto. rewrite (m_lab _ _ M2); auto. }
      destruct STEP as [s1 [F1 [Sm1 [I1 [M1 [D1 N1]]]]]]. rewrite F1.
      destruct (IH s1 z1 z' Inc' Sm1 I1) as [s2 [G1 [Sm2 [I2 [M2 N2]]]]]; [rewrite (m_dem _ _ M1); auto|exact D1|exact E|].
      exists s2. split; [exact G1|]. split; [exact Sm2|]. split; [exact I2|]. split; [eapply mono_trans; eauto|].
      intros k [<-|Hk] D; [|auto]. apply (seen_mono s1); auto. rewrite (m_lab _ _ M1); auto.
  Qed.

  Lemma conn_ext lab dem lab' dem' z a b : (forall u, lab' u = lab u) -> (forall u, dem' u = dem u) -> conn lab dem z a b -> conn lab' dem' z a b.
  Proof. intros A B. apply conn_mono. intros u Hu. rewrite A, B. auto. Qed.
  Lemma LI_ext X s s' : (forall u, l_lab s' u = l_lab s u) -> (forall u, l_dem s' u = l_dem s u) -> l_tr s' = l_tr s -> l_dep s' = l_dep s -> l_g s' = l_g s ->
    l_cur s' = l_cur s -> l_bad s' = l_bad s -> LI X s -> LI X s'.
  Proof.
    intros EL ED ET EP EG EC EB [A1 A2 A3 A4 A5 A6 A7 A8 A9]. constructor.
    - intros c. rewrite EL, EC. auto.
    - intros z v. rewrite ET, EP, EL, ED. auto.
    - intros v. rewrite EL. auto.
    - intros a b. rewrite !EL, !ED. intros La E. apply (conn_ext (l_lab s) (l_dem s)); auto.
    - intros l1 l2 v. rewrite EG. intros E. destruct (A5 _ _ _ E) as [Lt [a [b C]]]. split; auto. exists a, b. rewrite !EL, !ED. exact C.
    - intros a b. rewrite !EL. intros N La Lb Ne. destruct (A6 a b N La Lb Ne) as [[v R]|Q]; [left; exists v; rewrite EG, !EL, !ED; exact R|right].
      unfold que in *. rewrite ET, EP. exact Q.
    - congruence.
    - rewrite EC. replace (cnt (l_lab s')) with (cnt (l_lab s)); auto. unfold cnt. f_equal. apply filter_ext. intros a. rewrite EL. reflexivity.
    - intros l. rewrite EC. intros Hl. destruct (A9 l Hl) as [a Ha]. exists a. rewrite EL. auto.
  Qed.

  Lemma start_ok c q s z : sim s z -> LI [] s -> l_tr s = [] -> l_dep s = [] -> zdom w h c -> (l_lab s c = 0 -> In c seeds) ->
    let s' := l_start w h c q s in
    LI [c] s' /\ sim s' (mkZ (z_dem z) (cset (z_lab z) c 10) q (z_tr z) (z_dep z)) /\ mono s s' /\ l_tr s' = [] /\ l_dep s' = [] /\ l_dem s' = l_dem s.
  Proof.
    intros Sm I T0 D0 D SE s'. pose proof Sm as [S1 S2 S3 S4 S5]. pose proof I as [A1 A2 A3 A4 A5 A6 A7 A8 A9].
    assert (SIM : forall l cur, l <> 0 -> sim (mkL (l_dem s) (cset (l_lab s) c l) q (l_tr s) (l_dep s) (l_g s) cur (l_bad s)) (mkZ (z_dem z) (cset (z_lab z) c 10) q (z_tr z) (z_dep z))).
    { intros l cur Hl. constructor; cbn [l_lab l_dem l_pq l_tr l_dep z_lab z_dem z_pq z_tr z_dep]; auto.
      intros u. destruct (cell_eq_dec u c) as [->|]; [rewrite !cset_same; destruct (Z.eqb_spec l 0); [contradiction|reflexivity]|rewrite !cset_other; auto]. }
    unfold s', l_start, GetNewLabelZhou. destruct (Z.eqb_spec (l_lab s c) 0) as [L0|L1]; cbn [negb].
    - set (P := fun n => inR w h (off c n) && negb (l_lab s (off c n) =? 0) && (l_dem s (off c n) <=? l_dem s c)).
      destruct (find P (dirs D8)) as [n|] eqn:FI.
      + apply find_some in FI. destruct FI as [Hn Pn]. unfold P in Pn. apply andb_true_iff in Pn. destruct Pn as [Pn Le]. apply andb_true_iff in Pn. destruct Pn as [_ NL].
        apply negb_true_iff, Z.eqb_neq in NL. apply Z.leb_le in Le. clear P.
        destruct (flag_ok [] s (off c n) c (l_dem s c) (l_tr s ++ [(l_dem s c, c)]) (l_dep s) I NL (nb8_sym _ _ (off_nb c n Hn)) D L0 Le) as [I1 M1]; [left; auto|].
        set (s1 := mkL (l_dem s) (cset (l_lab s) c (l_lab s (off c n))) q (l_tr s) (l_dep s) (l_g s) (l_cur s) (l_bad s)).
        assert (DS : forall u, cset (l_dem s) c (l_dem s c) u = l_dem s u) by (intros u; destruct (cell_eq_dec u c) as [->|]; [apply cset_same|apply cset_other; auto]).
        split; [|split; [apply SIM; auto|split; [|split; [exact T0|split; [exact D0|reflexivity]]]]].
        * destruct I1 as [B1 B2 B3 B4 B5 B6 B7 B8 B9]. cbn [l_lab l_dem l_pq l_tr l_dep l_g l_cur l_bad] in *. unfold s1. constructor; cbn [l_lab l_dem l_pq l_tr l_dep l_g l_cur l_bad]; auto.
          -- rewrite T0, D0. intros z0 v [[]|[]].
          -- intros v [<-|[]]. rewrite cset_same. auto.
          -- intros a b La Eab. specialize (B4 a b La Eab). rewrite !DS in B4. revert B4. apply conn_ext; auto.
          -- intros l1 l2 v E. destruct (B5 l1 l2 v E) as [Lt [a [b C]]]. split; auto. exists a, b. rewrite !DS in C. exact C.
          -- intros a b Nab La Lb Ne. destruct (B6 a b Nab La Lb Ne) as [[v [C1 C2]]|Q].
             ++ left. exists v. cbn [l_lab l_dem l_g] in *. rewrite !DS in C2. auto.
             ++ right. unfold que in *. cbn [l_tr l_dep] in *. rewrite T0, D0 in *. cbn in *. tauto.
        * destruct M1 as [C1 C2 C3]. constructor; auto.
      + clear P FI. assert (FR : forall u, l_lab s u <> l_cur s) by (intros u E; destruct (A1 u) as [Z0|[? _]]; lia).
        assert (NE : forall u, l_lab s u <> 0 -> u <> c) by (intros u Hu ->; contradiction).
        set (s1 := mkL (l_dem s) (cset (l_lab s) c (l_cur s)) q (l_tr s) (l_dep s) (l_g s) (l_cur s + 1) (l_bad s)).
        assert (ML : forall u, l_lab s u <> 0 -> l_lab s1 u = l_lab s u) by (intros u Hu; unfold s1; cbn [l_lab]; apply cset_other; auto).
        assert (MC : l_lab s1 c = l_cur s) by (unfold s1; cbn [l_lab]; apply cset_same).
        assert (MO : forall u, u <> c -> l_lab s1 u = l_lab s u) by (intros u Hu; unfold s1; cbn [l_lab]; apply cset_other; auto).
        assert (M : mono s s1) by (constructor; auto; apply gle_refl).
        split; [|split; [apply SIM; lia|split; [exact M|split; [exact T0|split; [exact D0|reflexivity]]]]].
        constructor.
        * intros u. destruct (cell_eq_dec u c) as [->|Ne]; [right; rewrite MC; unfold s1; cbn [l_cur]; split; [lia|exact D]|]. rewrite MO by auto.
          destruct (A1 u) as [|[? ?]]; [auto|right]. unfold s1. cbn [l_cur]. split; [lia|auto].
        * unfold s1. cbn [l_tr l_dep]. rewrite T0, D0. intros z0 v [[]|[]].
        * intros v [<-|[]]. rewrite MC. lia.
        * intros a b La Eab. destruct (cell_eq_dec a c) as [->|Na], (cell_eq_dec b c) as [->|Nb].
          -- apply conn_here; auto. lia.
          -- exfalso. rewrite MC, MO in Eab by auto. exact (FR b (eq_sym Eab)).
          -- exfalso. rewrite MC, MO in Eab by auto. exact (FR a Eab).
          -- rewrite MO in La by auto. rewrite !MO in Eab by auto. apply (conn_mono (l_lab s) (l_dem s)); [|apply A4; auto].
             intros u Hu. rewrite ML by auto. auto.
        * intros l1 l2 v E. destruct (A5 l1 l2 v E) as [Lt [a [b [B1 [B2 [B3 [B4 [B5 B6]]]]]]]]. split; [exact Lt|]. exists a, b. rewrite !ML by auto. auto 10.
        * intros a b Nab La Lb Ne. destruct (cell_eq_dec a c) as [->|Na]; [right; left; left; left; auto|]. destruct (cell_eq_dec b c) as [->|Nb]; [right; right; left; left; auto|].
          rewrite MO in La, Lb by auto. rewrite !MO in Ne by auto. destruct (A6 a b Nab La Lb Ne) as [R|Q]; [left; apply (recd_mono s); auto|].
          exfalso. unfold que in Q. rewrite T0, D0 in Q. cbn in Q. tauto.
        * exact A7.
        * assert (CL : (cnt (l_lab s1) < cnt (l_lab s))%nat) by (apply (cnt_lt _ _ c); auto; [intros u Hu; rewrite ML; auto|rewrite MC; lia]).
          unfold s1 at 1 2. cbn [l_cur]. lia.
        * unfold s1 at 1. cbn [l_cur]. intros l Hl. destruct (Z.eq_dec l (l_cur s)) as [->|Nl]; [exists c; auto|]. destruct (A9 l) as [a Ha]; [lia|]. exists a. rewrite ML; auto. lia.
    - set (s1 := mkL (l_dem s) (cset (l_lab s) c (l_lab s c)) q (l_tr s) (l_dep s) (l_g s) (l_cur s) (l_bad s)).
      assert (LS : forall u, l_lab s1 u = l_lab s u) by (intros u; unfold s1; cbn [l_lab]; destruct (cell_eq_dec u c) as [->|]; [apply cset_same|apply cset_other; auto]).
      split; [|split; [apply SIM; auto|split; [constructor; auto; apply gle_refl|split; [exact T0|split; [exact D0|reflexivity]]]]].
      apply (LI_ext [c] s s1); auto. constructor; auto.
      + intros v [<-|[]]. exact L1.
      + intros a b N La Lb Ne. destruct (A6 a b N La Lb Ne) as [R|[[[]|Q]|[[]|Q]]]; auto; right; [left|right]; right; exact Q.
  Qed.

  Lemma main_sim e0 (tb : nat -> nat) : forall fuel i s z, sim s z -> LI [] s -> l_tr s = [] -> l_dep s = [] -> (exists c0, ZI w h e0 c0 [] z) ->
    (forall v, zout w h v -> In v seeds) -> (total w h z <= fuel)%nat ->
    exists s' z', lm_loop tb w h size fuel i s = Some s' /\ sim s' z' /\ LI [] s' /\ l_tr s' = [] /\ l_dep s' = [] /\ l_pq s' = [] /\ (exists c0, ZI w h e0 c0 [] z').
  Proof.
    intros fuel i s z. revert i s z. induction fuel as [|f IH]; intros i s z Sm I T0 D0 ZZ SD Hm; cbn [lm_loop].
    all: assert (ZT : z_tr z = []) by (rewrite <- (s_tr _ _ Sm), T0; reflexivity).
    all: assert (ZD : z_dep z = []) by (rewrite <- (s_dep _ _ Sm), D0; reflexivity).
    all: rewrite (s_pq _ _ Sm); destruct (pq_pop (fun a b : Z * cellt => fst a >? fst b) (tb i) (z_pq z)) as [[c q]|] eqn:EP.
    - destruct (zm_step w h e0 tb i z c q ZZ ZT ZD EP) as [z' [_ [_ [_ [_ LT]]]]]. lia.
    - exists s, z. repeat (split; [solve [auto]|]). split; [|exact ZZ]. rewrite (s_pq _ _ Sm). eapply pq_pop_none; [|exact EP]. apply (min_by_key fst).
    - destruct (zm_step w h e0 tb i z c q ZZ ZT ZD EP) as [z' [EZ [ZZ' [ZT' [ZD' LT]]]]].
      destruct ZZ as [c0 ZZ]. apply pq_pop_some in EP. destruct EP as [PM MIN].
      assert (INC : In c (z_pq z)) by (apply (Permutation_in _ (Permutation_sym PM)); left; auto).
      assert (KC : fst c = z_dem z (snd c)) by (apply (zi_key _ _ _ _ _ _ ZZ); destruct c; exact INC).
      assert (PC : pend [] z (snd c)) by (right; left; apply in_map; auto).
      destruct (k_pend _ _ _ _ _ _ _ _ (zi_k _ _ _ _ _ _ ZZ) _ PC) as [FC _].
      assert (DC : zdom w h (snd c)) by (apply (k_dom _ _ _ _ _ _ _ _ (zi_k _ _ _ _ _ _ ZZ)); exact FC).
      destruct (start_ok (snd c) q s z Sm I T0 D0 DC) as [I1 [Sm1 [M1 [T1 [D1 E1]]]]].
      { intros L0. apply SD. destruct (zout_dec w h e0 (snd c)) as [O|NO]; auto. exfalso. rewrite (Fz_no w h e0) in FC; [discriminate FC| |auto].
        pose proof (s_lab _ _ Sm (snd c)) as SL. rewrite L0 in SL. cbn in SL. symmetry in SL. apply Z.eqb_eq in SL. exact SL. }
      destruct (main_fold c [] (dirs D8) (l_start w h (snd c) q s) (mkZ (z_dem z) (cset (z_lab z) (snd c) 10) q (z_tr z) (z_dep z)) z' (incl_refl _) Sm1 I1) as [s2 [F2 [Sm2 [I2 [M2 N2]]]]]; auto.
      { rewrite E1, (s_dem _ _ Sm). exact KC. }
      rewrite F2. apply (IH (S i) s2 z'); auto; [|rewrite <- (map_eq_nil snd (l_tr s2)); [reflexivity|rewrite (s_tr _ _ Sm2); exact ZT']|apply (map_eq_nil snd); rewrite (s_dep _ _ Sm2); exact ZD'|lia].
      apply (done_ok [] s2 (snd c) I2). auto.
    - exists s, z. repeat (split; [solve [auto]|]). split; [|exact ZZ]. rewrite (s_pq _ _ Sm). eapply pq_pop_none; [|exact EP]. apply (min_by_key fst).
  Qed.
End Tile.
