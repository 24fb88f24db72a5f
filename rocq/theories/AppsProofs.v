From Coq Require Import ZArith List Lia Bool Permutation.
From Verif Require Import Base Res RasterSpec RasterFacts FlowSpec FlowModel FlowProofs FlatsSpec FlatsModel FlatsProofs FlatsProofs3
  PFModel PropertiesPF PropertiesFlow PropertiesFlats AppsModel AppsSpec.
Open Scope Z_scope.

(** ** Filled surfaces *)
Lemma filled_drains t w h e r : (forall x y, in_raster w h x y -> drainage_level t w h e x y (r x y)) ->
  forall L x y, drains t w h e L x y -> drains t w h r L x y.
Proof.
  intros H L x y D. assert (R : forall x y, drains t w h e L x y -> r x y <= L).
  { intros a b D'. apply (H a b); auto. eapply drains_raster; eauto. }
  induction D as [x y E Le|x y x' y' I Le A D IH].
  - apply drains_edge; auto. apply R. apply drains_edge; auto.
  - eapply drains_step; eauto. apply R. eapply drains_step; eauto.
Qed.

Lemma filled_flats nd w h r : (forall x y, in_raster w h x y -> drains D8 w h r (r x y) x y) ->
  (forall p, no_flow_cell r nd w h p \/ ~ no_flow_cell r nd w h p) ->
  forall p, no_flow_cell r nd w h p -> drainable r nd w h (no_flow_cell r nd w h) p.
Proof.
  intros HD DEC. set (flat := no_flow_cell r nd w h).
  assert (G : forall L x y, drains D8 w h r L x y -> r x y = L -> flat (x, y) -> drainable r nd w h flat (x, y)).
  { intros L x y D. induction D as [x y E Le|x y x' y' I Le A D IH]; intros EL F.
    - exfalso. destruct F as [_ [NE _]]. apply NE. exact E.
    - pose proof (drains_here _ _ _ _ _ _ _ D) as L1. pose proof F as F0. destruct F0 as [[F1 F2] [F3 F4]].
      assert (T : touching (x, y) (x', y')) by exact A. specialize (F4 _ T). unfold elev_at in *. cbn [fst snd] in *.
      assert (E : r x' y' = r x y) by lia.
      assert (Hd' : has_data r nd w h (x', y')).
      { split; [exact (drains_raster _ _ _ _ _ _ _ D)|]. unfold elev_at. cbn [fst snd]. rewrite E. exact F2. }
      assert (LS : level_step r nd w h (x', y') (x, y)).
      { split; [exact Hd'|]. split; [split; [exact F1|exact F2]|]. split; [|exact E].
        apply adjacent_sym in A. exact A. }
      destruct (DEC (x', y')) as [F'|F'].
      + destruct (IH ltac:(lia) F') as [q [Q1 Q2]]. exists q. split; auto. eapply same_flat_step; eauto.
      + exists (x', y'). split; [|apply sflat_step; exact LS]. split; [exact Hd'|]. split; [exact F'|]. exists (x, y). split; auto. }
  intros [x y] F. apply (G (r x y)); auto. apply HD. exact (proj1 (proj1 F)).
Qed.

(** ** Following directions *)
Lemma toward_fun d p q q' : toward d (fst p) (snd p) (fst q) (snd q) -> toward d (fst p) (snd p) (fst q') (snd q') -> q = q'.
Proof.
  destruct q as [a b], q' as [a' b']. cbn [fst snd]. intros T T'. apply toward_iff in T. apply toward_iff in T'.
  destruct T as [_ [-> ->]], T' as [_ [-> ->]]. reflexivity.
Qed.
Lemma gives_fun fd fnd w h p q q' : gives fd fnd w h p q -> gives fd fnd w h p q' -> q = q'.
Proof. intros [_ [_ T]] [_ [_ T']]. eapply toward_fun; eauto. Qed.
Lemma passes_first fd fnd w h p q : passes fd fnd w h p q -> p = q \/ exists s, gives fd fnd w h p s /\ passes fd fnd w h s q.
Proof.
  intros P. induction P as [p|p q r P IH G]; auto. right. destruct IH as [->|[s [Gs Ps]]].
  - exists r. split; [exact G|apply passes_here].
  - exists s. split; [exact Gs|eapply passes_on; eauto].
Qed.
Lemma passes_cons fd fnd w h p q r : gives fd fnd w h p q -> passes fd fnd w h q r -> passes fd fnd w h p r.
Proof.
  intros G P. induction P as [q|q r s P IH Gs]; [eapply passes_on; [apply passes_here|exact G]|].
  eapply passes_on; [apply IH; exact G|exact Gs].
Qed.
Lemma passes_trans fd fnd w h p q r : passes fd fnd w h p q -> passes fd fnd w h q r -> passes fd fnd w h p r.
Proof. intros P Q. induction Q as [q|q r s Q IH G]; auto. eapply passes_on; [apply IH; exact P|exact G]. Qed.
Lemma passes_linear fd fnd w h p q : passes fd fnd w h p q -> forall r, passes fd fnd w h p r ->
  passes fd fnd w h q r \/ passes fd fnd w h r q.
Proof.
  intros P. induction P as [p|p q s P IH G]; intros r R; auto.
  destruct (IH r R) as [X|X].
  - apply passes_first in X. destruct X as [->|[s' [G' X]]].
    + right. eapply passes_on; [apply passes_here|exact G].
    + rewrite (gives_fun _ _ _ _ _ _ _ G G'). auto.
  - right. eapply passes_on; eauto.
Qed.
Lemma exit_stops fd fnd w h p q : exit_cell fd fnd w h p -> passes fd fnd w h p q -> q = p.
Proof.
  intros [D [s [T N]]] P. apply passes_first in P. destruct P as [->|[s' [G _]]]; auto.
  exfalso. apply N. destruct G as [_ [D' T']]. rewrite (toward_fun _ _ _ _ T T'). exact D'.
Qed.

(** no cycles and no cell without direction: every path ends at an exit *)
Lemma finite_bound (f : cell -> Z) w h : exists B, 0 <= B /\ forall p, inside w h p -> Z.abs (f p) <= B.
Proof.
  assert (G : forall l : list cell, exists B, 0 <= B /\ forall p, In p l -> Z.abs (f p) <= B).
  { induction l as [|a l [B [B0 HB]]]; [exists 0; split; [lia|intros p []]|].
    exists (Z.max B (Z.abs (f a))). split; [lia|]. intros p [<-|Hp]; [lia|]. specialize (HB p Hp). lia. }
  destruct (G (cells w h)) as [B [B0 HB]]. exists B. split; [exact B0|]. intros [x y] Hp. apply HB. apply cells_In. exact Hp.
Qed.

Lemma exits_reached fd fnd w h (key1 key2 : cell -> Z) :
  (forall p, data fd fnd w h p -> 1 <= fd (fst p) (snd p) <= 8) ->
  (forall p q, gives fd fnd w h p q -> key1 q < key1 p \/ (key1 q = key1 p /\ key2 q < key2 p)) ->
  forall p, data fd fnd w h p -> exists q, passes fd fnd w h p q /\ exit_cell fd fnd w h q.
Proof.
  intros HC HK. destruct (finite_bound key1 w h) as [B1 [B10 H1]]. destruct (finite_bound key2 w h) as [B2 [B20 H2]].
  assert (IND : forall n p, data fd fnd w h p -> (key1 p + B1) * (2 * B2 + 1) + (key2 p + B2) <= Z.of_nat n ->
     exists q, passes fd fnd w h p q /\ exit_cell fd fnd w h q).
  { induction n as [|n IH]; intros p D Hn;
      (assert (T : exists q, toward (fd (fst p) (snd p)) (fst p) (snd p) (fst q) (snd q));
       [specialize (HC p D); eexists (_, _); cbn [fst snd]; apply toward_iff; split; [exact HC|split; reflexivity]|]);
      destruct T as [q T];
      (assert (DD : data fd fnd w h q \/ ~ data fd fnd w h q);
       [destruct (inside_dec w h q) as [I|I]; [|right; intros [X _]; apply I; exact X];
        destruct (Z.eq_dec (fd (fst q) (snd q)) fnd) as [E|E]; [right; intros [_ X]; contradiction|left; split; auto]|]);
      (destruct DD as [DD|DD]; [|exists p; split; [apply passes_here|split; [exact D|exists q; auto]]]);
      (assert (G : gives fd fnd w h p q) by (split; [exact D|split; [exact DD|exact T]])); pose proof (HK _ _ G) as K;
      pose proof (H1 _ (proj1 D)); pose proof (H2 _ (proj1 D)); pose proof (H1 _ (proj1 DD)); pose proof (H2 _ (proj1 DD)).
    - exfalso. assert (0 <= (key1 q + B1) * (2 * B2 + 1)) by nia. destruct K as [K|[K1 K2]]; nia.
    - destruct (IH q DD) as [x [P X]]; [destruct K as [K|[K1 K2]]; nia|].
      exists x. split; auto. eapply passes_cons; eauto. }
  intros p D. apply (IND (Z.to_nat ((key1 p + B1) * (2 * B2 + 1) + (key2 p + B2))) p D).
  pose proof (H1 _ (proj1 D)); pose proof (H2 _ (proj1 D)). nia.
Qed.

(** Disjoint lists of upstream cells add up. *)
Definition zsum_of (f : cell -> Z) (l : list cell) : Z := fold_right (fun p s => f p + s) 0 l.
Lemma disjoint_union (R : cell -> cell -> Prop) (k : cell -> Z) (X : list cell) :
  NoDup X -> (forall x, In x X -> exists U, NoDup U /\ (forall q, In q U <-> R q x) /\ k x = Z.of_nat (length U)) ->
  (forall q x x', In x X -> In x' X -> R q x -> R q x' -> x = x') ->
  exists L, NoDup L /\ (forall q, In q L <-> exists x, In x X /\ R q x) /\ Z.of_nat (length L) = zsum_of k X.
Proof.
  induction X as [|x X IH]; intros ND HU HD.
  - exists []. split; [constructor|]. split; [|reflexivity]. intros q. split; [intros []|intros [y [[] _]]].
  - inversion ND as [|? ? Nx NX]; subst. destruct IH as [L [L1 [L2 L3]]]; auto.
    { intros y Hy. apply HU. right; auto. } { intros q a b Ha Hb. apply HD; right; auto. }
    destruct (HU x (or_introl eq_refl)) as [U [U1 [U2 U3]]]. exists (U ++ L). split; [|split].
    + clear - U1 L1 U2 L2 HD Nx. assert (DJ : forall q, In q U -> In q L -> False).
      { intros q Hq Hl. apply U2 in Hq. apply L2 in Hl. destruct Hl as [y [Hy Ry]]. apply Nx.
        rewrite (HD q x y (or_introl eq_refl) (or_intror Hy) Hq Ry). exact Hy. }
      clear U2. induction U as [|u U IHU]; auto. inversion U1; subst. cbn [app]. constructor.
      * intros Hin. apply in_app_or in Hin. destruct Hin; [contradiction|]. apply (DJ u); auto. left; auto.
      * apply IHU; auto. intros q Hq. apply DJ. right; auto.
    + intros q. rewrite in_app_iff, U2, L2. split.
      * intros [H|[y [Hy H]]]; [exists x; split; auto; left; auto|exists y; split; auto; right; auto].
      * intros [y [[<-|Hy] H]]; [left; auto|right; exists y; auto].
    + rewrite app_length, Nat2Z.inj_add, L3. cbn [zsum_of fold_right]. fold (zsum_of k X). lia.
Qed.

(** ** rd_d8_flowdirs *)
Lemma flowdirs_main tb top e nd w h o1 o2 : 0 < w -> 0 < h ->
  Permutation o1 (cells w h) -> Permutation o2 (interior_cells w h) ->
  exists r fd, rd_d8_flowdirs tb top e nd w h o1 o2 = Some (Ok (r, fd)) /\
    (forall x y, in_raster w h x y -> drainage_level D8 w h e x y (r x y)) /\
    (forall p, inside w h p -> (elev_at r p = nd -> fd (fst p) (snd p) = 255) /\
                               (elev_at r p <> nd -> 1 <= fd (fst p) (snd p) <= 8)) /\
    (forall p q, data fd 255 w h p -> toward (fd (fst p) (snd p)) (fst p) (snd p) (fst q) (snd q) -> inside w h q ->
       elev_at r q <= elev_at r p) /\
    (forall p, ~ looping fd 255 w h p) /\
    (forall p, data fd 255 w h p -> exists q, passes fd 255 w h p q /\ exit_cell fd 255 w h q).
Proof.
  intros Hw Hh P1 P2. destruct (C02_improved_minimax tb D8 w h e Hw Hh) as [r [E HR]].
  destruct (C38_flat_directions top r nd w h o1 o2 [] P1 P2) as [fd [mask [E2 [HM H]]]].
  exists r, fd. split; [unfold rd_d8_flowdirs; rewrite E; exact E2|]. split; [exact HR|].
  set (flat := no_flow_cell r nd w h) in *.
  assert (DEC : forall p, flat p \/ ~ flat p).
  { intros q. destruct (inside_dec w h q) as [Hq|Hq]; [|right; intros F; apply Hq; exact (proj1 (proj1 F))].
    destruct (d8_flow_directions_ok r nd w h o1) as [fd1 [E1 _]].
    { intros [a b] Hab. apply cells_In. eapply Permutation_in; eauto. }
    destruct (resolve_flats_barnes_ok r nd w h o1 fd1 P1 E1) as [S _].
    destruct (S q Hq) as [_ [X _]]. unfold flat. rewrite <- X. lia. }
  assert (HD : forall p, flat p -> drainable r nd w h flat p).
  { apply filled_flats; auto. intros x y I. eapply filled_drains; [exact HR|]. apply HR; auto. }
  assert (CODE : forall p, inside w h p -> (elev_at r p = nd -> fd (fst p) (snd p) = 255) /\
                               (elev_at r p <> nd -> 1 <= fd (fst p) (snd p) <= 8)).
  { intros p I. destruct (H p I) as [A1 [A2 [_ A4]]]. split; [exact A1|]. intros N. destruct (DEC p) as [F|F].
    - destruct (A4 F (HD p F)) as [q [T _]]. apply toward_iff in T. apply T.
    - apply A2; auto. split; auto. }
  split; [exact CODE|].
  assert (DAT : forall p, data fd 255 w h p <-> has_data r nd w h p).
  { intros p. split; intros [I N]; (split; [exact I|]); destruct (CODE p I) as [C1 C2].
    - intros X. apply N. apply C1. exact X.
    - specialize (C2 N). lia. }
  (* what a direction leads to *)
  assert (STEP : forall p q, data fd 255 w h p -> toward (fd (fst p) (snd p)) (fst p) (snd p) (fst q) (snd q) -> inside w h q ->
     elev_at r q < elev_at r p \/ (elev_at r q = elev_at r p /\ val mask q < val mask p)).
  { intros p q D T I. pose proof (proj1 (DAT p) D) as Dp. destruct (H p (proj1 Dp)) as [_ [A2 [_ A4]]].
    destruct (DEC p) as [F|F].
    - destruct (A4 F (HD p F)) as [q' [T' [Hs [Hm _]]]]. rewrite <- (toward_fun _ _ _ _ T T') in Hs, Hm. right. split; auto.
      symmetry. apply Hs.
    - destruct (A2 Dp F) as [R1 [R2 R3]]. left. destruct (isEdgeCell w h (fst p) (snd p)) eqn:HE.
      + apply on_edge_iff in HE; [|exact (proj1 Dp)]. specialize (R2 HE). exfalso.
        apply toward_iff in T. apply toward_iff in R2. destruct T as [_ [T1 T2]], R2 as [_ [R4 R5]]. unfold val in *.
        destruct p as [x y], q as [x' y']. cbn [fst snd] in *.
        assert (x' = x + outward x w) by lia. assert (y' = y + outward y h) by lia.
        clear - I HE H0 H1. revert H0 H1. unfold inside, outward, on_edge, in_raster in *. cbn [fst snd] in *.
        destruct (Z.eqb_spec x 0); destruct (Z.eqb_spec y 0); destruct (Z.eqb_spec x (w - 1)); destruct (Z.eqb_spec y (h - 1)); lia.
      + apply edge_false in HE; [|exact (proj1 Dp)]. destruct (R3 (proj1 Dp) HE) as [[R0 _]|[xd [yd [Td [Hlt _]]]]]; [lia|].
        assert (EQ : q = (xd, yd)) by (eapply toward_fun; [exact T|exact Td]). subst q. exact Hlt. }
  split; [|split].
  - intros p q D T I. destruct (STEP p q D T I) as [?|[? _]]; lia.
  - apply (C38_flat_directions_drain top r nd w h o1 o2 [] r fd P1 P2 E2).
  - apply (exits_reached fd 255 w h (elev_at r) (val mask)).
    + intros p D. apply CODE; [exact (proj1 D)|]. apply (proj1 (DAT p) D).
    + intros p q [D [D' T]]. apply STEP; auto. exact (proj1 D').
Qed.

(** The totals of an accumulation over an acyclic network whose paths all end. *)
Lemma accumulation_total fd fnd w h : codes_ok fd fnd w h -> (forall p, ~ looping fd fnd w h p) ->
  (forall p, data fd fnd w h p -> exists q, passes fd fnd w h p q /\ exit_cell fd fnd w h q) ->
  forall (area : cell -> Z), (forall p, data fd fnd w h p -> upstream_count fd fnd w h p (area p)) ->
  exists X L, NoDup X /\ (forall p, In p X <-> exit_cell fd fnd w h p) /\
    NoDup L /\ (forall p, In p L <-> data fd fnd w h p) /\ zsum_of area X = Z.of_nat (length L).
Proof.
  intros HC HL HE area HA.
  assert (XD : forall p, exit_cell fd fnd w h p \/ ~ exit_cell fd fnd w h p).
  { intros p. assert (DDec : forall q, data fd fnd w h q \/ ~ data fd fnd w h q).
    { intros q. destruct (inside_dec w h q) as [I|I]; [|right; intros [X _]; apply I; exact X].
      destruct (Z.eq_dec (fd (fst q) (snd q)) fnd) as [E|E]; [right; intros [_ X]; contradiction|left; split; auto]. }
    destruct (DDec p) as [D|D]; [|right; intros [X _]; contradiction].
    destruct (Z.eq_dec (fd (fst p) (snd p)) 0) as [Z0|Z0].
    { right. intros [_ [q [T _]]]. apply toward_iff in T. lia. }
    assert (C := HC (fst p) (snd p) (proj1 D) (proj2 D)).
    assert (T : exists q, toward (fd (fst p) (snd p)) (fst p) (snd p) (fst q) (snd q)).
    { eexists (_, _); cbn [fst snd]; apply toward_iff; split; [lia|split; reflexivity]. }
    destruct T as [q T]. destruct (DDec q) as [Dq|Dq].
    - right. intros [_ [q' [T' N]]]. apply N. rewrite <- (toward_fun _ _ _ _ T T'). exact Dq.
    - left. split; [exact D|exists q; auto]. }
  assert (FX : forall l : list cell, exists X, incl X l /\ (NoDup l -> NoDup X) /\ forall p, In p X <-> In p l /\ exit_cell fd fnd w h p).
  { induction l as [|a l [X [I [N HX]]]]; [exists []; split; [intros ? []|split; [auto|intros p; split; [intros []|intros [[] _]]]]|].
    destruct (XD a) as [A|A].
    - exists (a :: X). split; [intros q [<-|Hq]; [left; auto|right; apply I; auto]|]. split.
      + intros ND. inversion ND; subst. constructor; auto.
      + intros p. cbn [In]. rewrite HX. intuition (subst; auto).
    - exists X. split; [intros q Hq; right; apply I; auto|]. split; [intros ND; inversion ND; auto|].
      intros p. cbn [In]. rewrite HX. split; [intuition|]. intros [[->|Hp] E]; [contradiction|auto]. }
  destruct (FX (cells w h)) as [X [_ [NX HX]]]. specialize (NX (cells_NoDup w h)).
  assert (HX' : forall p, In p X <-> exit_cell fd fnd w h p).
  { intros p. rewrite HX. split; [intros [_ E]; exact E|]. intros E. split; [|exact E]. destruct p as [x y]. apply cells_In. exact (proj1 (proj1 E)). }
  destruct (disjoint_union (fun q x => data fd fnd w h q /\ passes fd fnd w h q x) area X NX) as [L [L1 [L2 L3]]].
  - intros x Hx. apply HX' in Hx. destruct (HA x (proj1 Hx)) as [U [U1 [U2 U3]]]. exists U. auto.
  - intros q x x' Hx Hx' [_ R] [_ R']. apply HX' in Hx. apply HX' in Hx'.
    destruct (passes_linear _ _ _ _ _ _ R _ R') as [P|P]; [symmetry|]; eapply exit_stops; eauto.
  - exists X, L. split; [exact NX|]. split; [exact HX'|]. split; [exact L1|]. split; [|symmetry; exact L3].
    intros p. rewrite L2. split; [intros [x [_ [D _]]]; exact D|]. intros D. destruct (HE p D) as [q [P E]].
    exists q. split; [apply HX'; exact E|]. auto.
Qed.

(** ** rd_loop_check *)
Lemma tables n x y : 1 <= n <= 8 -> toward n x y (x + nth (Z.to_nat n) d8x 0) (y + nth (Z.to_nat n) d8y 0).
Proof.
  intros H. assert (C : n = 1 \/ n = 2 \/ n = 3 \/ n = 4 \/ n = 5 \/ n = 6 \/ n = 7 \/ n = 8) by lia.
  destruct C as [->|[->|[->|[->|[->|[->|[->| ->]]]]]]]; cbn [Z.to_nat Pos.to_nat Pos.iter_op Nat.add nth d8x d8y];
    apply toward_iff; (split; [lia|]); cbn; split; lia.
Qed.

Lemma moves_inv fd fnd w h k p r : moves fd fnd w h (S k) p r -> exists q, data fd fnd w h p /\
  toward (fd (fst p) (snd p)) (fst p) (snd p) (fst q) (snd q) /\ inside w h q /\ moves fd fnd w h k q r.
Proof. intros M. inversion M; subst. eauto. Qed.

Lemma follow_ok fd fnd w h maxlen : codes_ok fd fnd w h -> forall k x y, in_raster w h x y ->
  exists out b, follow fd fnd w h maxlen k x y = Ok (out, b) /\ (b = true <-> path_at_least fd fnd w h k (x, y)) /\
    ~ In Blank out /\ (maxlen < 10 -> 0 <= maxlen - Z.of_nat k -> out = []).
Proof.
  intros HC. induction k as [|k IH]; intros x y I.
  - exists [], true. split; [reflexivity|]. split; [|split; [intros []|auto]]. split; auto. intros _. exists (x, y). constructor.
  - cbn [follow]. set (o := if u64 (maxlen - 10) <? maxlen - Z.of_nat k then [Line x y (fd x y)] else []).
    assert (NB : ~ In Blank o) by (unfold o; destruct (_ <? _); cbn; intuition discriminate).
    assert (NO : maxlen < 10 -> 0 <= maxlen - Z.of_nat (S k) -> o = []).
    { intros Hm Hk. unfold o, u64. rewrite <- (Z.mod_unique (maxlen - 10) (2 ^ 64) (-1) (maxlen - 10 + 2 ^ 64)); [|lia|lia].
      destruct (Z.ltb_spec (maxlen - 10 + 2 ^ 64) (maxlen - Z.of_nat k)); auto. lia. }
    destruct (Z.eqb_spec (fd x y) fnd) as [E|E]; cbn [orb].
    { exists o, false. split; [reflexivity|]. split; [|auto]. split; [discriminate|]. intros [q M]. apply moves_inv in M. destruct M as [q' [D _]].
      exfalso. apply D. exact E. }
    unfold NO_FLOW. destruct (Z.eqb_spec (fd x y) 0) as [E0|E0].
    { exists o, false. split; [reflexivity|]. split; [|auto]. split; [discriminate|]. intros [q M]. apply moves_inv in M. destruct M as [q' [_ [T _]]].
      cbn [fst snd] in T. apply toward_iff in T. lia. }
    assert (C := HC x y I E). destruct (Z.ltb_spec (fd x y) 0); [lia|]. destruct (Z.ltb_spec 8 (fd x y)); [lia|]. cbn [orb].
    assert (T := tables (fd x y) x y ltac:(lia)). set (nx := x + _) in *. set (ny := y + _) in *.
    destruct (inGrid w h nx ny) eqn:G; cbn [negb].
    + apply in_raster_iff in G. destruct (IH nx ny G) as [out [b [F [B1 [B2 B3]]]]]. rewrite F. cbn [bind fst snd].
      exists (o ++ out), b. split; [reflexivity|]. split; [|split].
      * rewrite B1. split.
        -- intros [q M]. exists q. apply (moves_S fd fnd w h k (x, y) (nx, ny) q); [split; [exact I|exact E]|exact T|exact G|exact M].
        -- intros [q M]. apply moves_inv in M. destruct M as [q' [D [T' [I' M']]]]. exists q.
           assert (Q : q' = (nx, ny)) by (exact (toward_fun (fd x y) (x, y) q' (nx, ny) T' T)). subst q'. exact M'.
      * intros X. apply in_app_or in X. destruct X; contradiction.
      * intros Hm Hk. rewrite NO by auto. rewrite B3 by (auto; lia). reflexivity.
    + exists o, false. split; [reflexivity|]. split; [|auto]. split; [discriminate|]. intros [q M].
      apply moves_inv in M. destruct M as [q' [D [T' [I' M']]]]. exfalso.
      assert (Q : q' = (nx, ny)) by (exact (toward_fun (fd x y) (x, y) q' (nx, ny) T' T)). subst q'.
      apply in_raster_iff in I'. cbn [fst snd] in I'. congruence.
Qed.

Lemma FollowPath_ok fd fnd w h x y : codes_ok fd fnd w h -> 0 < w < 2 ^ 31 -> in_raster w h x y ->
  exists out, FollowPath fd fnd w h x y = Ok out /\
    (In Blank out <-> 10 <= w /\ path_at_least fd fnd w h (Z.to_nat w) (x, y)) /\ (w < 10 -> out = []).
Proof.
  intros HC Hw I. destruct (follow_ok fd fnd w h w HC (Z.to_nat w) x y I) as [out [b [F [B1 [B2 B3]]]]].
  unfold FollowPath. rewrite F. cbn [bind fst snd]. eexists. split; [reflexivity|].
  assert (2 ^ 31 = 2147483648) by reflexivity. assert (2 ^ 64 = 18446744073709551616) by reflexivity.
  destruct (Z_lt_ge_dec w 10) as [L|L].
  - assert (U : u64 (w - 10) = w - 10 + 2 ^ 64).
    { unfold u64. symmetry. apply (Z.mod_unique _ _ (-1)); lia. }
    rewrite U. destruct (Z.ltb_spec (w - 10 + 2 ^ 64) (w + 1)); [lia|]. rewrite andb_false_r, app_nil_r.
    split; [|intros _; apply B3; lia]. split; [intros X; contradiction|lia].
  - assert (U : u64 (w - 10) = w - 10) by (unfold u64; apply Z.mod_small; lia).
    rewrite U. destruct (Z.ltb_spec (w - 10) (w + 1)); [|lia]. rewrite andb_true_r. split; [|lia].
    rewrite in_app_iff. split.
    + intros [X|X]; [contradiction|]. destruct b; [|destruct X]. split; [lia|]. apply B1; reflexivity.
    + intros [_ X]. right. apply B1 in X. subst b. left; reflexivity.
Qed.

Lemma loop_check_ok fd fnd w h : codes_ok fd fnd w h -> 0 < w < 2 ^ 31 ->
  exists out, rd_loop_check fd fnd w h = Ok out /\
    (In Blank out <-> 10 <= w /\ exists p, inside w h p /\ path_at_least fd fnd w h (Z.to_nat w) p) /\ (w < 10 -> out = []).
Proof.
  intros HC Hw. unfold rd_loop_check. set (ps := list_prod _ _).
  assert (HP : forall p, In p ps <-> in_raster w h (snd p) (fst p)).
  { intros [y x]. unfold ps. rewrite in_prod_iff, !zrange_In. unfold in_raster. cbn [fst snd]. lia. }
  destruct (forM_inv (fun done out => (In Blank out <-> 10 <= w /\ exists p, In (snd p, fst p) done /\ path_at_least fd fnd w h (Z.to_nat w) p) /\ (w < 10 -> out = []))
    (fun p out => do o <- FollowPath fd fnd w h (snd p) (fst p); Ok (out ++ o)) ps) with (s := @nil printed) as [out [E [H1 H2]]].
  - intros done i rest s Eq [A B]. assert (I : in_raster w h (snd i) (fst i)) by (apply HP; rewrite Eq; apply in_or_app; right; left; auto).
    destruct (FollowPath_ok fd fnd w h _ _ HC Hw I) as [o [F [O1 O2]]]. rewrite F. cbn [bind]. eexists. split; [reflexivity|]. split.
    + rewrite in_app_iff, A, O1. split.
      * intros [[L [p [Hp P]]]|[L P]]; (split; [exact L|]); [exists p; split; auto; apply in_or_app; auto|].
        exists (snd i, fst i). cbn [fst snd]. split; [apply in_or_app; right; left; destruct i; reflexivity|exact P].
      * intros [L [p [Hp P]]]. apply in_app_or in Hp. destruct Hp as [Hp|[Hp|[]]]; [left; split; auto; exists p; auto|].
        right. split; [exact L|]. subst i. cbn [fst snd]. destruct p; exact P.
    + intros L. rewrite B, O2 by auto. reflexivity.
  - split; [|auto]. split; [intros []|intros [_ [p [[] _]]]].
  - exists out. split; [exact E|]. split; [|exact H2]. rewrite H1. split; intros [L [p [Hp P]]]; (split; [exact L|]); exists p; (split; [|exact P]).
    + apply HP in Hp. exact Hp.
    + apply HP. exact Hp.
Qed.

Lemma loops_endless fd fnd w h q p : looping fd fnd w h q -> passes fd fnd w h p q -> data fd fnd w h p ->
  forall k, path_at_least fd fnd w h k p.
Proof.
  intros [z [Pz Gz]] P D k. assert (S : passes fd fnd w h p z) by (eapply passes_trans; eauto). clear P D.
  revert p S. induction k as [|k IH]; intros p S; [exists p; constructor|].
  apply passes_first in S. destruct S as [->|[s [G S]]].
  - destruct (IH q Pz) as [r M]. exists r. destruct Gz as [D [D' T]]. eapply moves_S; [exact D|exact T|exact (proj1 D')|exact M].
  - destruct (IH s S) as [r M]. exists r. destruct G as [D [D' T]]. eapply moves_S; [exact D|exact T|exact (proj1 D')|exact M].
Qed.
