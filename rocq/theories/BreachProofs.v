(** Depression breaching: pits and edge cells. *)
From Coq Require Import ZArith List Lia Bool Permutation.
From Verif Require Import Base Res RasterSpec RasterFacts Kahn FlowModel FlowProofs TraceFlood ZhouModel ZhouProofs WeiModel WeiProofs BreachModel.
Open Scope Z_scope.

Section Breach.
  Variables (t : topology) (w h nd mx : Z) (e : cellt -> Z) (down : Z -> Z).
  Notation inside := (zdom w h).
  Definition nbt (a b : cellt) : Prop := adjacent t (fst a) (snd a) (fst b) (snd b).
  Lemma nbt_sym a b : nbt a b -> nbt b a.
  Proof. apply adjacent_sym. Qed.
  Lemma offt_nb c n : In n (dirs t) -> nbt c (offt t c n).
  Proof. intros H. apply adjacent_iff. exists n. auto. Qed.
  Lemma nb_offt a b : nbt a b -> exists n, In n (dirs t) /\ b = offt t a n.
  Proof. intros H. unfold nbt in H. rewrite adjacent_iff in H. destruct H as [n [A [B C]]]. exists n. split; auto. unfold offt. destruct b; cbn in *; congruence. Qed.
  Lemma nbt_near a b : nbt a b -> fst a - 1 <= fst b <= fst a + 1 /\ snd a - 1 <= snd b <= snd a + 1 /\ a <> b.
  Proof.
    unfold nbt, adjacent. destruct t; intros H.
    - destruct H as [A H]. split; [lia|]. split; [lia|]. intros ->. apply A. reflexivity.
    - split; [lia|]. split; [lia|]. intros ->. lia.
  Qed.

  Definition bdom (c : cellt) : Prop := inside c /\ e c <> nd.
  Definition bout (c : cellt) : Prop := zout w h c \/ exists n, inside n /\ nbt c n /\ e n = nd.
  Definition inner (c : cellt) : Prop := bdom c /\ ~ bout c.
  Definition innerb (c : cellt) : bool :=
    inR w h c && negb (e c =? nd) && negb (isEdgeCell w h (fst c) (snd c)) && forallb (fun n => negb (e (offt t c n) =? nd)) (dirs t).
  Definition minnb (c : cellt) : Z := fold_left (fun m n => Z.min (e (offt t c n)) m) (dirs t) mx.
  Definition raisedb (c : cellt) : bool := innerb c && (e c <? minnb c).
  Definition F (c : cellt) : Z := if raisedb c then down (minnb c) else e c.

  Hypothesis Hmx : forall c, bdom c -> e c <= mx.
  Hypothesis Hdown : forall z, down z <= z.
  Hypothesis Hge : forall z' z, z' < z -> z' <= down z.
  Hypothesis Hnd : (forall z, down z = z) \/ (forall c, bdom c -> nd < e c).

  Lemma inside_edge c : inside c -> (isEdgeCell w h (fst c) (snd c) = true <-> zout w h c).
  Proof. intros D. rewrite <- (edgeb_iff w h e c). unfold edgeb. apply (inR_iff w h) in D. rewrite D. reflexivity. Qed.
  Lemma inner_nb c n : inside c -> ~ zout w h c -> nbt c n -> inside n.
  Proof.
    intros D N A. apply nbt_near in A. destruct c as [x y], n as [x' y']. unfold zout, zdom, on_edge, in_raster in *. cbn [fst snd] in *. lia.
  Qed.
  Lemma innerb_iff c : innerb c = true <-> inner c.
  Proof.
    unfold innerb, inner, bdom, bout. rewrite !andb_true_iff, !negb_true_iff, Z.eqb_neq, forallb_forall, (inR_iff w h). split.
    - intros [[[A B] C] D]. split; [auto|]. intros [O|[n [H1 [H2 H3]]]].
      + apply inside_edge in O; auto. congruence.
      + destruct (nb_offt _ _ H2) as [k [Hk ->]]. specialize (D k Hk). apply negb_true_iff, Z.eqb_neq in D. contradiction.
    - intros [[A B] N]. assert (NZ : ~ zout w h c) by tauto. split; [split; [auto|]|].
      + destruct (isEdgeCell w h (fst c) (snd c)) eqn:E; auto. apply inside_edge in E; auto. contradiction.
      + intros k Hk. apply negb_true_iff, Z.eqb_neq. intros E. apply N. right. exists (offt t c k). split; [|split; [apply offt_nb; auto|auto]].
        apply (inner_nb c); auto. apply offt_nb; auto.
  Qed.
  Lemma inner_nbs c n : inner c -> nbt c n -> bdom n.
  Proof.
    intros [[A B] N] H. assert (I : inside n) by (apply (inner_nb c); auto; intros O; apply N; left; auto). split; auto. intros E. apply N. right. exists n. auto.
  Qed.
  Lemma bout_dec c : bdom c -> bout c \/ inner c.
  Proof.
    intros D. destruct (innerb c) eqn:E; [right; apply innerb_iff; auto|left]. unfold innerb in E. destruct D as [D1 D2]. pose proof D1 as D3. apply (inR_iff w h) in D3. rewrite D3 in E. apply Z.eqb_neq in D2. rewrite D2 in E. cbn [negb andb] in E.
    destruct (isEdgeCell w h (fst c) (snd c)) eqn:EE; [left; apply inside_edge; auto|]. cbn [negb andb] in E.
    assert (EX : exists n, In n (dirs t) /\ e (offt t c n) = nd).
    { revert E. generalize (dirs t). induction l as [|a q IH]; cbn [forallb]; [discriminate|]. destruct (Z.eqb_spec (e (offt t c a)) nd) as [X|X]; cbn [negb andb].
      - intros _. exists a. split; [left; auto|auto].
      - intros H. destruct (IH H) as [n [A B]]. exists n. split; [right; auto|auto]. }
    destruct EX as [n [Hn En]]. right. exists (offt t c n). split; [|split; [apply offt_nb; auto|auto]].
    apply (inner_nb c); auto; [|apply offt_nb; auto]. intros O. apply inside_edge in O; auto. congruence.
  Qed.
  Lemma dirs_ne : exists n, In n (dirs t).
  Proof. exists 1%nat. destruct t; cbn; auto. Qed.

  Lemma minnb_spec c : inner c -> (forall n, nbt c n -> minnb c <= e n) /\ exists n, nbt c n /\ minnb c = e n.
  Proof.
    intros I. unfold minnb.
    assert (G : forall ns m, incl ns (dirs t) -> let r := fold_left (fun m n => Z.min (e (offt t c n)) m) ns m in r <= m /\ (forall n, In n ns -> r <= e (offt t c n)) /\ (r = m \/ exists n, In n ns /\ r = e (offt t c n))).
    { induction ns as [|a ns IH]; intros m Inc; cbn [fold_left]; [split; [lia|]; split; [intros n []|auto]|].
      destruct (IH (Z.min (e (offt t c a)) m)) as [A [B C]]; [intros x Hx; apply Inc; right; auto|]. split; [lia|]. split.
      - intros n [<-|Hn]; [lia|auto].
      - destruct C as [C|[n [Hn C]]]; [|right; exists n; split; [right; auto|auto]]. destruct (Z.min_spec (e (offt t c a)) m) as [[_ E]|[_ E]]; [right; exists a; split; [left; auto|etransitivity; [exact C|exact E]]|left; etransitivity; [exact C|exact E]]. }
    destruct (G (dirs t) mx (incl_refl _)) as [A [B C]]. split.
    - intros n Hn. destruct (nb_offt _ _ Hn) as [k [Hk ->]]. auto.
    - destruct C as [C|[n [Hn C]]]; [|exists (offt t c n); split; [apply offt_nb; auto|exact C]].
      destruct dirs_ne as [k Hk]. exists (offt t c k). split; [apply offt_nb; auto|]. pose proof (B k Hk). pose proof (Hmx _ (inner_nbs c _ I (offt_nb c k Hk))). cbn zeta in *. lia.
  Qed.

  Lemma raised_iff c : raisedb c = true <-> inner c /\ forall n, nbt c n -> e c < e n.
  Proof.
    unfold raisedb. rewrite andb_true_iff, innerb_iff, Z.ltb_lt. split.
    - intros [I L]. split; auto. intros n N. pose proof (proj1 (minnb_spec c I) n N). lia.
    - intros [I H]. split; auto. destruct (proj2 (minnb_spec c I)) as [n [N E]]. rewrite E. auto.
  Qed.
  Lemma F_raised c : raisedb c = true -> F c = down (minnb c) /\ e c <= F c.
  Proof. intros R. unfold F. rewrite R. split; auto. apply Hge. unfold raisedb in R. apply andb_true_iff in R. destruct R as [_ R]. apply Z.ltb_lt in R. exact R. Qed.
  Lemma F_ge c : e c <= F c.
  Proof. destruct (raisedb c) eqn:R; [apply F_raised; auto|]. unfold F. rewrite R. lia. Qed.
  (** a raised cell stays not above its neighbours *)
  Lemma F_raised_le c n : raisedb c = true -> nbt c n -> F c <= e n.
  Proof. intros R N. pose proof R as R'. apply raised_iff in R'. destruct R' as [I _]. rewrite (proj1 (F_raised c R)). pose proof (Hdown (minnb c)). pose proof (proj1 (minnb_spec c I) n N). lia. Qed.
  Lemma raised_nb c n : raisedb c = true -> nbt c n -> raisedb n = false.
  Proof.
    intros R N. destruct (raisedb n) eqn:R'; auto. apply raised_iff in R, R'. destruct R as [_ A], R' as [_ B]. specialize (A n N). specialize (B c (nbt_sym _ _ N)). lia.
  Qed.
  Lemma F_data c : bdom c -> F c <> nd.
  Proof.
    intros D. destruct (raisedb c) eqn:R; [|unfold F; rewrite R; apply D]. destruct Hnd as [X|X].
    - rewrite (proj1 (F_raised c R)), X. apply raised_iff in R. destruct R as [I _]. destruct (proj2 (minnb_spec c I)) as [n [N E]]. rewrite E. apply (inner_nbs c n I N).
    - pose proof (proj2 (F_raised c R)). specialize (X c D). lia.
  Qed.
  Lemma F_not_inner c : ~ inner c -> F c = e c.
  Proof. intros N. unfold F. destruct (raisedb c) eqn:R; auto. apply raised_iff in R. tauto. Qed.

  (** ** The scan over the neighbours *)
  Lemma scan_ok dem c : forall ns m, incl ns (dirs t) -> (forall n, In n ns -> inside (offt t c n)) ->
    exists r, forM ns (lb_scan t w h nd dem c) (m, false) = Ok r /\ (snd r = true <-> exists n, In n ns /\ dem (offt t c n) = nd) /\
      (snd r = false -> fst r <= m /\ (forall n, In n ns -> fst r <= dem (offt t c n)) /\ (fst r = m \/ exists n, In n ns /\ fst r = dem (offt t c n))).
  Proof.
    assert (ST : forall ns m, forM ns (lb_scan t w h nd dem c) (m, true) = Ok (m, true)) by (induction ns as [|a ns IH]; intros m; [reflexivity|cbn [forM]; unfold lb_scan at 1; cbn [snd bind]; apply IH]).
    induction ns as [|a ns IH]; intros m Inc HI; cbn [forM].
    - exists (m, false). split; [reflexivity|]. cbn [fst snd]. split; [split; [discriminate|intros [n [[] _]]]|]. intros _. split; [lia|]. split; [intros n []|auto].
    - unfold lb_scan at 1. cbn [snd fst]. rewrite (cat_ok w h) by (apply HI; left; auto). cbn [bind]. destruct (Z.eqb_spec (dem (offt t c a)) nd) as [E|E]; cbn [bind].
      + rewrite ST. exists (m, true). split; [reflexivity|]. cbn [fst snd]. split; [split; [intros _; exists a; split; [left; auto|auto]|auto]|discriminate].
      + destruct (IH (Z.min (dem (offt t c a)) m)) as [r [E1 [E2 E3]]]; [intros x Hx; apply Inc; right; auto|intros n Hn; apply HI; right; auto|].
        exists r. split; [exact E1|]. split.
        * rewrite E2. split; [intros [n [A B]]; exists n; split; [right; auto|auto]|intros [n [[<-|A] B]]; [contradiction|exists n; auto]].
        * intros H. destruct (E3 H) as [A [B C]]. split; [lia|]. split; [intros n [<-|Hn]; [lia|auto]|].
          destruct C as [C|[n [Hn C]]]; [|right; exists n; split; [right; auto|auto]]. destruct (Z.min_spec (dem (offt t c a)) m) as [[_ X]|[_ X]]; rewrite X in C; [right; exists a; split; [left; auto|exact C]|left; exact C].
  Qed.

  (** ** The first pass *)
  Definition npits (p : cellt -> bool) : Z := Z.of_nat (length (filter p (cells w h))).
  Lemma npits_cset p c : inside c -> p c = false -> npits (cset p c true) = npits p + 1.
  Proof.
    intros D P. unfold npits. apply (zdom_cells w h) in D. pose proof (cells_NoDup w h) as ND. revert D ND. generalize (cells w h). induction l as [|a q IH]; intros D ND; [contradiction|].
    apply NoDup_cons_iff in ND. destruct ND as [NI ND]. cbn [filter]. destruct D as [->|D].
    - rewrite cset_same, P. cbn [length]. rewrite (filter_ext_length (cset p c true) p); [lia|]. intros b Hb. apply cset_other. intros ->. auto.
    - rewrite cset_other by (intros ->; auto). specialize (IH D ND). destruct (p a); cbn [length]; lia.
  Qed.

  Record PI (done : list cellt) (s : lst) : Prop := {
    p_done : forall c, In c done -> l_dem s c = F c;
    p_todo : forall c, ~ In c done -> l_dem s c = e c;
    p_vis : forall c, l_vis s c = true <-> In c done /\ bdom c /\ bout c;
    p_nd : NoDup (map snd (l_pq s));
    p_key : forall k v, In (k, v) (l_pq s) -> k = F v;
    p_pq : forall v, In v (map snd (l_pq s)) <-> l_vis s v = true;
    p_pit : forall c, l_pit s c = true -> In c done /\ inner c /\ forall n, nbt c n -> F c <= F n;
    p_nopit : forall c, In c done -> inner c -> l_pit s c = false -> exists n, nbt c n /\ (F n < F c \/ (F n <= F c /\ raisedb n = true /\ ((forall z, down z < z) -> F n < F c)));
    p_raised : forall c, In c done -> raisedb c = true -> l_pit s c = true;
    p_tot : l_tot s = npits (l_pit s);
    p_back : forall c, l_back s c = None;
    p_flood : l_flood s = [] }.

  Lemma p_cur done s n : PI done s -> l_dem s n = e n \/ l_dem s n = F n /\ In n done.
  Proof. intros P. destruct (in_dec (fun a b => match ceqb_spec a b with ReflectT _ p => left p | ReflectF _ p => right p end) n done) as [H|H]; [right; split; auto; apply (p_done _ _ P); auto|left; apply (p_todo _ _ P); auto]. Qed.
  Lemma p_nodata done s n : PI done s -> inside n -> (l_dem s n = nd <-> e n = nd).
  Proof.
    intros P D. destruct (p_cur _ _ n P) as [->|[-> _]]; [tauto|]. split; intros E.
    - destruct (Z.eq_dec (e n) nd); auto. exfalso. apply (F_data n); [split; auto|auto].
    - rewrite F_not_inner; auto. intros [[_ N] _]. contradiction.
  Qed.

  Lemma PI_skip done s c : PI done s -> ~ In c done -> ~ inner c -> (bdom c -> ~ bout c) -> PI (c :: done) s.
  Proof.
    intros P NI N1 N2. pose proof P as [A1 A2 A3 A4 A5 A6 A7 A8 A9 A10 A11 A12]. constructor; auto.
    - intros u [<-|Hu]; [|auto]. rewrite F_not_inner by auto. apply A2; auto.
    - intros u Hu. apply A2. intros H. apply Hu. right. auto.
    - intros u. rewrite A3. cbn [In]. split; [tauto|]. intros [[->|H] [B1 B2]]; [destruct (N2 B1 B2)|auto].
    - intros u Hu. destruct (A7 u Hu) as [H1 H2]. split; [right; auto|auto].
    - intros u [->|Hu] I; [contradiction|auto].
    - intros u [->|Hu] R; [apply raised_iff in R; tauto|auto].
  Qed.
  Lemma PI_edge done s c : PI done s -> ~ In c done -> bdom c -> bout c -> exists s', lb_edge w h c s = Ok s' /\ PI (c :: done) s'.
  Proof.
    intros P NI D O. unfold lb_edge. rewrite (cat_ok w h) by apply D. cbn [bind]. rewrite (put_ok w h) by apply D. cbn [bind]. eexists. split; [reflexivity|].
    pose proof P as [A1 A2 A3 A4 A5 A6 A7 A8 A9 A10 A11 A12]. assert (N1 : ~ inner c) by (intros [_ X]; contradiction).
    assert (FC : l_dem s c = F c) by (rewrite F_not_inner by auto; apply A2; auto).
    assert (NV : l_vis s c = false) by (destruct (l_vis s c) eqn:V; auto; apply A3 in V; tauto).
    constructor; cbn [l_dem l_vis l_pit l_back l_pq l_tot l_flood]; auto.
    - intros u [<-|Hu]; auto.
    - intros u Hu. apply A2. intros H. apply Hu. right. auto.
    - intros u. cbn [In]. destruct (cell_eq_dec u c) as [->|Ne]; [rewrite cset_same; tauto|rewrite cset_other by auto]. rewrite A3. split; [tauto|]. intros [[->|H] B]; [contradiction|auto].
    - cbn [map snd]. constructor; auto. intros H. apply A6 in H. congruence.
    - intros k v [H|H]; [injection H as <- <-; exact FC|auto].
    - intros v. cbn [map snd In]. destruct (cell_eq_dec v c) as [->|Ne]; [rewrite cset_same; tauto|rewrite cset_other by auto]. rewrite A6. split; [intros [->|H]; [contradiction|auto]|auto].
    - intros u Hu. destruct (A7 u Hu) as [H1 H2]. split; [right; auto|auto].
    - intros u [->|Hu] I; [contradiction|auto].
    - intros u [->|Hu] R; [apply raised_iff in R; tauto|auto].
  Qed.

  (** what the lowest neighbour tells about the cell *)
  Lemma low_cases done s c low : PI done s -> ~ In c done -> inner c -> low <= mx -> (forall n, nbt c n -> low <= l_dem s n) -> (low = mx \/ exists n, nbt c n /\ low = l_dem s n) ->
    (raisedb c = true /\ e c < low /\ low = minnb c) \/ (raisedb c = false /\ low <= e c).
  Proof.
    intros P NI I L1 L2 L3. destruct (raisedb c) eqn:R.
    - left. split; auto. assert (SAME : forall n, nbt c n -> l_dem s n = e n).
      { intros n N. destruct (p_cur _ _ n P) as [E|[E _]]; auto. rewrite E. unfold F. rewrite (raised_nb c n); auto. }
      destruct (minnb_spec c I) as [M1 [m [M2 M3]]]. assert (low = minnb c).
      { pose proof (L2 m M2). rewrite SAME in H by auto. destruct L3 as [->|[n [N ->]]].
        - pose proof (Hmx m (inner_nbs c m I M2)). lia.
        - rewrite SAME in * by auto. pose proof (M1 n N). lia. }
      split; auto. unfold raisedb in R. apply andb_true_iff in R. destruct R as [_ R]. apply Z.ltb_lt in R. lia.
    - right. split; auto. assert (EX : exists n, nbt c n /\ e n <= e c).
      { destruct (minnb_spec c I) as [M1 [m [M2 M3]]]. exists m. split; auto. rewrite <- M3. unfold raisedb in R. apply innerb_iff in I. rewrite I in R. cbn [andb] in R. apply Z.ltb_ge in R. exact R. }
      destruct EX as [n [N Le]]. pose proof (L2 n N). destruct (p_cur _ _ n P) as [E|[E _]]; [lia|]. destruct (raisedb n) eqn:Rn.
      + pose proof (F_raised_le n c Rn (nbt_sym _ _ N)). lia.
      + unfold F in E. rewrite Rn in E. lia.
  Qed.

  Lemma PI_inner done s c low dm pit tot : PI done s -> ~ In c done -> inner c -> low <= mx -> (forall n, nbt c n -> low <= l_dem s n) -> (low = mx \/ exists n, nbt c n /\ low = l_dem s n) ->
    (forall u, dm u = cset (l_dem s) c (if l_dem s c <? low then down low else l_dem s c) u) ->
    (l_dem s c <= low /\ pit = cset (l_pit s) c true /\ tot = l_tot s + 1 \/ low < l_dem s c /\ pit = l_pit s /\ tot = l_tot s) ->
    PI (c :: done) (mkL dm (l_vis s) pit (l_back s) (l_pq s) tot (l_flood s)).
  Proof.
    intros P NI I L1 L2 L3 Hd Hp. pose proof P as [A1 A2 A3 A4 A5 A6 A7 A8 A9 A10 A11 A12]. assert (CE := A2 c NI).
    pose proof (low_cases done s c low P NI I L1 L2 L3) as LC.
    assert (FC : dm c = F c).
    { rewrite Hd, cset_same, CE. unfold F. destruct LC as [[R [B E]]|[R B]]; rewrite R.
      - destruct (Z.ltb_spec (e c) low); [congruence|lia].
      - destruct (Z.ltb_spec (e c) low); [lia|reflexivity]. }
    assert (FNC : forall u, u <> c -> dm u = l_dem s u) by (intros u Hu; rewrite Hd; apply cset_other; auto).
    assert (PC0 : l_pit s c = false) by (destruct (l_pit s c) eqn:V; auto; apply A7 in V; tauto).
    constructor; cbn [l_dem l_vis l_pit l_back l_pq l_tot l_flood]; auto.
    - intros u [<-|Hu]; auto. rewrite FNC; [auto|]. intros ->. contradiction.
    - intros u Hu. cbn [In] in Hu. rewrite FNC by (intros ->; tauto). apply A2. tauto.
    - intros u. rewrite A3. cbn [In]. split; [tauto|]. intros [[->|H] [B1 B2]]; [destruct I; contradiction|auto].
    - intros u Hu. assert (CS : u = c /\ l_dem s c <= low \/ u <> c /\ l_pit s u = true).
      { destruct Hp as [[L [-> _]]|[L [-> _]]]; destruct (cell_eq_dec u c) as [->|Ne]; auto; [rewrite cset_other in Hu by auto; auto|congruence]. }
      destruct CS as [[-> L]|[Ne Hu']]; [|destruct (A7 u Hu') as [X Y]; split; [right; auto|auto]]. split; [left; auto|]. split; [auto|].
      intros n N. assert (FL : F c <= low). { rewrite <- FC, Hd, cset_same. destruct (Z.ltb_spec (l_dem s c) low); [apply Hdown|lia]. }
      pose proof (L2 n N). pose proof (F_ge n). destruct (p_cur _ _ n P) as [E|[E _]]; lia.
    - intros u [<-|Hu] Iu Pu.
      + destruct Hp as [[L [-> _]]|[L [-> _]]]; [rewrite cset_same in Pu; discriminate Pu|]. rewrite CE in L.
        destruct LC as [[R [B E]]|[R B]]; [lia|]. assert (Fc : F c = e c) by (unfold F; rewrite R; reflexivity).
        destruct L3 as [E|[n [N E]]]; [pose proof (Hmx c (proj1 I)); lia|]. exists n. split; auto.
        destruct (p_cur _ _ n P) as [E1|[E1 _]]; [|left; lia]. destruct (raisedb n) eqn:Rn.
        * right. split; [rewrite Fc; apply F_raised_le; auto; apply nbt_sym; auto|]. split; auto. intros ST. rewrite (proj1 (F_raised n Rn)), Fc.
          pose proof Rn as Rn'. apply raised_iff in Rn'. destruct Rn' as [In' _]. pose proof (proj1 (minnb_spec n In') c (nbt_sym _ _ N)). specialize (ST (minnb n)). lia.
        * left. unfold F at 1. rewrite Rn. lia.
      + apply A8; auto. destruct Hp as [[L [-> _]]|[L [-> _]]]; auto. rewrite cset_other in Pu; auto. intros ->. contradiction.
    - intros u [<-|Hu] R.
      + destruct Hp as [[L [-> _]]|[L [-> _]]]; [apply cset_same|]. rewrite CE in L. destruct LC as [[_ [B E]]|[R' B]]; [lia|congruence].
      + destruct Hp as [[L [-> _]]|[L [-> _]]]; [|auto]. destruct (cell_eq_dec u c) as [->|Ne]; [apply cset_same|rewrite cset_other; auto].
    - destruct Hp as [[L [-> ->]]|[L [-> ->]]]; auto. rewrite npits_cset; [lia|apply I|auto].
  Qed.

  (** the generic form of the two first passes *)
  Definition gb_cell (c : cellt) (s : lst) : res lst :=
    do z <- cat w h (l_dem s) c;
    if z =? nd then Ok s
    else if isEdgeCell w h (fst c) (snd c) then lb_edge w h c s
    else
      do r <- forM (dirs t) (lb_scan t w h nd (l_dem s) c) (mx, false);
      if snd r then lb_edge w h c s
      else
        do dm <- (if z <? fst r then put w h (l_dem s) c (down (fst r)) else Ok (l_dem s));
        do z' <- cat w h dm c;
        if z' <=? fst r
        then do p <- put w h (l_pit s) c true; Ok (mkL dm (l_vis s) p (l_back s) (l_pq s) (l_tot s + 1) (l_flood s))
        else Ok (mkL dm (l_vis s) (l_pit s) (l_back s) (l_pq s) (l_tot s) (l_flood s)).

  Lemma cell_common done s c : PI done s -> ~ In c done -> inside c ->
    (l_dem s c =? nd) = true /\ PI (c :: done) s \/
    (l_dem s c =? nd) = false /\ isEdgeCell w h (fst c) (snd c) = true /\ (exists s', lb_edge w h c s = Ok s' /\ PI (c :: done) s') \/
    (l_dem s c =? nd) = false /\ isEdgeCell w h (fst c) (snd c) = false /\ exists r, forM (dirs t) (lb_scan t w h nd (l_dem s) c) (mx, false) = Ok r /\
      (snd r = true /\ (exists s', lb_edge w h c s = Ok s' /\ PI (c :: done) s') \/
       snd r = false /\ inner c /\ fst r <= mx /\ (forall n, nbt c n -> fst r <= l_dem s n) /\ (fst r = mx \/ exists n, nbt c n /\ fst r = l_dem s n)).
  Proof.
    intros P NI D. destruct (Z.eqb_spec (l_dem s c) nd) as [E|E].
    - left. split; auto. apply (p_nodata _ _ c P D) in E. apply PI_skip; auto; [intros [[_ X] _]; contradiction|intros [_ X]; contradiction].
    - right. assert (BD : bdom c) by (split; auto; intros X; apply E, (p_nodata _ _ c P D); auto).
      destruct (isEdgeCell w h (fst c) (snd c)) eqn:ED.
      + left. split; auto. split; auto. apply PI_edge; auto. left. apply inside_edge; auto.
      + right. split; auto. split; auto. assert (NZ : ~ zout w h c) by (intros O; apply inside_edge in O; auto; congruence).
        assert (NB : forall n, In n (dirs t) -> inside (offt t c n)) by (intros n Hn; apply (inner_nb c); auto; apply offt_nb; auto).
        destruct (scan_ok (l_dem s) c (dirs t) mx (incl_refl _) NB) as [r [E1 [E2 E3]]]. exists r. split; [exact E1|]. destruct (snd r) eqn:SR.
        * left. split; auto. apply PI_edge; auto. destruct (proj1 E2 eq_refl) as [n [Hn En]]. right. exists (offt t c n). split; [auto|]. split; [apply offt_nb; auto|]. apply (p_nodata _ _ _ P (NB n Hn)); auto.
        * right. split; auto. assert (I : inner c).
          { destruct (bout_dec c BD) as [O|I]; auto. exfalso. destruct O as [O|[n [H1 [H2 H3]]]]; [contradiction|]. destruct (nb_offt _ _ H2) as [k [Hk ->]].
            assert (X : false = true) by (apply E2; exists k; split; auto; apply (p_nodata _ _ _ P H1); auto). discriminate X. }
          destruct (E3 eq_refl) as [B1 [B2 B3]]. split; [auto|]. split; [auto|]. split.
          -- intros n N. destruct (nb_offt _ _ N) as [k [Hk ->]]. auto.
          -- destruct B3 as [B3|[n [Hn B3]]]; auto. right. exists (offt t c n). split; auto. apply offt_nb; auto.
  Qed.

  Lemma gb_cell_ok done s c : PI done s -> ~ In c done -> inside c -> exists s', gb_cell c s = Ok s' /\ PI (c :: done) s'.
  Proof.
    intros P NI D. unfold gb_cell. rewrite (cat_ok w h _ _ D). cbn [bind]. destruct (cell_common done s c P NI D) as [[-> H]|[[-> [-> H]]|[-> [-> [r [E H]]]]]]; [eauto|exact H|].
    rewrite E. cbn [bind]. destruct H as [[-> H]|[-> [I [B1 [B2 B3]]]]]; [exact H|].
    set (dm := if l_dem s c <? fst r then cset (l_dem s) c (down (fst r)) else l_dem s).
    assert (ED : (if l_dem s c <? fst r then put w h (l_dem s) c (down (fst r)) else Ok (l_dem s)) = Ok dm).
    { unfold dm. destruct (l_dem s c <? fst r); auto. apply (put_ok w h); auto. }
    rewrite ED. cbn [bind]. rewrite (cat_ok w h _ _ D). cbn [bind].
    assert (HD : forall u, dm u = cset (l_dem s) c (if l_dem s c <? fst r then down (fst r) else l_dem s c) u).
    { intros u. unfold dm. destruct (l_dem s c <? fst r); auto. destruct (cell_eq_dec u c) as [->|Ne]; [rewrite cset_same; auto|rewrite cset_other; auto]. }
    assert (DC : (dm c <=? fst r) = (l_dem s c <=? fst r)).
    { rewrite HD, cset_same. destruct (Z.ltb_spec (l_dem s c) (fst r)); auto. pose proof (Hdown (fst r)). destruct (Z.leb_spec (down (fst r)) (fst r)), (Z.leb_spec (l_dem s c) (fst r)); lia. }
    rewrite DC. destruct (Z.leb_spec (l_dem s c) (fst r)).
    - rewrite (put_ok w h) by auto. cbn [bind]. eexists. split; [reflexivity|]. apply (PI_inner done s c (fst r)); auto.
    - eexists. split; [reflexivity|]. apply (PI_inner done s c (fst r)); auto.
  Qed.

  Lemma first_pass (cell : cellt -> lst -> res lst) : (forall done s c, PI done s -> ~ In c done -> inside c -> exists s', cell c s = Ok s' /\ PI (c :: done) s') ->
    forall dem0, (forall c, dem0 c = e c) -> exists s, forM (scan w h) cell (mkL dem0 (fun _ => false) (fun _ => false) (fun _ => None) [] 0 []) = Ok s /\ PI (scan w h) s.
  Proof.
    intros HC dem0 H0.
    assert (G : forall q done s, PI done s -> NoDup q -> (forall c, In c q -> ~ In c done /\ inside c) -> exists s', forM q cell s = Ok s' /\ PI (rev q ++ done) s').
    { induction q as [|c q IH]; intros done s P ND HQ; cbn [forM rev app]; [eauto|]. apply NoDup_cons_iff in ND. destruct ND as [NI ND].
      destruct (HQ c (or_introl eq_refl)) as [Q1 Q2]. destruct (HC done s c P Q1 Q2) as [s1 [E1 P1]]. rewrite E1. cbn [bind].
      destruct (IH (c :: done) s1 P1 ND) as [s2 [E2 P2]].
      - intros u Hu. destruct (HQ u (or_intror Hu)) as [Q3 Q4]. split; auto. intros [->|X]; contradiction.
      - exists s2. split; [exact E2|]. rewrite <- app_assoc. exact P2. }
    destruct (G (scan w h) [] (mkL dem0 (fun _ => false) (fun _ => false) (fun _ => None) [] 0 [])) as [s [E P]].
    - constructor; cbn [l_dem l_vis l_pit l_back l_pq l_tot l_flood]; auto; try discriminate; try contradiction; try tauto.
      + intros c. split; [discriminate|intros [[] _]].
      + constructor.
      + intros v. split; [contradiction|discriminate].
      + unfold npits. assert (forall q : list cellt, filter (fun _ => false) q = []) as -> by (induction q; auto). reflexivity.
    - apply scan_NoDup.
    - intros c Hc. split; auto. apply scan_inside; auto.
    - exists s. split; [exact E|]. rewrite app_nil_r in P. clear - P Hmx.
      assert (EQ : forall c, In c (rev (scan w h)) <-> In c (scan w h)) by (intros c; symmetry; apply in_rev).
      destruct P as [A1 A2 A3 A4 A5 A6 A7 A8 A9 A10 A11 A12]. constructor; auto.
      + intros c Hc. apply A1. apply EQ; auto.
      + intros c Hc. apply A2. rewrite EQ; auto.
      + intros c. rewrite <- EQ. apply A3.
      + intros c Hc. rewrite <- EQ. apply A7. auto.
      + intros c Hc. apply A8. apply EQ; auto.
      + intros c Hc. apply A9. apply EQ; auto.
  Qed.
End Breach.

Lemma cb_cell_ok t w h nd mx e : (forall c, bdom w h nd e c -> e c <= mx) -> forall done s c, PI t w h nd mx e (fun z => z) done s -> ~ In c done -> zdom w h c ->
  exists s', cb_cell t w h nd mx c s = Ok s' /\ PI t w h nd mx e (fun z => z) (c :: done) s'.
Proof.
  intros Hmx done s c P NI D. unfold cb_cell. rewrite (cat_ok w h _ _ D). cbn [bind].
  assert (H1 : forall z : Z, z <= z) by lia. assert (H2 : forall z' z : Z, z' < z -> z' <= z) by lia.
  destruct (cell_common t w h nd mx e (fun z => z)) with (done := done) (s := s) (c := c) as [[-> H]|[[-> [-> H]]|[-> [-> [r [E H]]]]]]; auto; [eauto|].
  rewrite E. cbn [bind]. destruct H as [[-> H]|[-> [I [B1 [B2 B3]]]]]; [exact H|]. destruct (Z.leb_spec (l_dem s c) (fst r)) as [L|L].
  - rewrite !(put_ok w h) by auto. cbn [bind]. eexists. split; [reflexivity|]. apply (PI_inner t w h nd mx e (fun z => z) Hmx H1 H2 (or_introl (fun z => eq_refl)) done s c (fst r)); auto.
    intros u. destruct (cell_eq_dec u c) as [->|Ne]; [rewrite !cset_same|rewrite !cset_other; auto]. destruct (Z.ltb_spec (l_dem s c) (fst r)); lia.
  - eexists. split; [reflexivity|]. destruct s as [a1 a2 a3 a4 a5 a6 a7]. cbn [l_dem l_vis l_pit l_back l_pq l_tot l_flood] in *.
    apply (PI_inner t w h nd mx e (fun z => z) Hmx H1 H2 (or_introl (fun z => eq_refl)) done (mkL a1 a2 a3 a4 a5 a6 a7) c (fst r)); auto. cbn [l_dem].
    intros u. destruct (Z.ltb_spec (a1 c) (fst r)); [lia|]. destruct (cell_eq_dec u c) as [->|Ne]; [rewrite cset_same|rewrite cset_other]; auto.
Qed.
