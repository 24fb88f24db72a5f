(** MoveWaterIntoPits: water balance, independence of the schedule, flow directions of a hierarchy. *)
From Coq Require Import ZArith List Lia Bool Permutation QArith Qcanon.
From Verif Require Import Base Res QcTac Kahn RasterSpec RasterFacts FlowModel FlowSpec FlowProofs FlatsSpec FlatsProofs
  DHModel DHSpec FSMModel FSMSpec FSMPits.
Open Scope Z_scope.

(** *** sums *)
Lemma qsum_cset (v : cellt -> Qc) (f : cellt -> bool) c b : forall L, NoDup L -> In c L ->
  qsum (map (fun p => if f p then cset v c b p else 0%Qc) L) =
  (qsum (map (fun p => if f p then v p else 0%Qc) L) + (if f c then b - v c else 0))%Qc.
Proof.
  induction L as [|a L IH]; intros HN Hc; [destruct Hc|]. inversion HN; subst. unfold qsum in *. cbn [map fold_right].
  assert (Hsame : ~ In c L -> map (fun p => if f p then cset v c b p else 0%Qc) L = map (fun p => if f p then v p else 0%Qc) L).
  { intros Hn. apply map_ext_in. intros p Hp. unfold cset, kupd. destruct (ceqb_spec p c); [subst; contradiction|reflexivity]. }
  destruct Hc as [->|Hc].
  - rewrite Hsame by auto. unfold cset, kupd. destruct (ceqb_spec c c); [|congruence]. destruct (f c); ring.
  - rewrite IH by auto. unfold cset, kupd. destruct (ceqb_spec a c); [subst; contradiction|]. ring.
Qed.

Definition wat (wv : list Qc) (i : Z) : Qc := match ix wv i with Some a => a | None => 0%Qc end.
Definition wsum (F : Z -> bool) (wv : list Qc) : Qc :=
  qsum (map (fun i => if F i then wat wv i else 0%Qc) (zrange 0 (length wv))).
Definition fsum (f : cellt -> bool) (w h : Z) (v : cellt -> Qc) : Qc :=
  qsum (map (fun p => if f p then v p else 0%Qc) (cells w h)).

Lemma wsum_wr F wv wv' i b : 0 <= i < Z.of_nat (length wv) -> length wv' = length wv ->
  (forall j, ix wv' j = if j =? i then Some b else ix wv j) ->
  wsum F wv' = (wsum F wv + (if F i then b - wat wv i else 0))%Qc.
Proof.
  intros Hi HL HI. unfold wsum. rewrite HL.
  assert (G : forall L, NoDup L ->
     qsum (map (fun j => if F j then wat wv' j else 0%Qc) L) =
     (qsum (map (fun j => if F j then wat wv j else 0%Qc) L) + (if existsb (Z.eqb i) L then if F i then b - wat wv i else 0 else 0))%Qc).
  { induction L as [|a L IH]; intros HN; cbn [map existsb]; [unfold qsum; cbn; ring|]. inversion HN; subst.
    unfold qsum in *. cbn [fold_right]. rewrite IH by auto. unfold wat at 1. rewrite HI.
    destruct (Z.eqb_spec a i) as [->|Hne].
    - rewrite Z.eqb_refl. cbn [orb]. replace (existsb (Z.eqb i) L) with false.
      + destruct (F i); ring.
      + symmetry. apply not_true_is_false. intros X. apply existsb_exists in X. destruct X as [y [Y1 Y2]]. apply Z.eqb_eq in Y2. congruence.
    - destruct (Z.eqb_spec i a); [congruence|]. cbn [orb]. fold (wat wv a). destruct (F a); ring. }
  rewrite G by apply zrange_NoDup. f_equal.
  replace (existsb (Z.eqb i) (zrange 0 (length wv))) with true; [reflexivity|]. symmetry. apply existsb_exists. exists i.
  split; [apply zrange_In; lia|apply Z.eqb_refl].
Qed.

Lemma wsum_all wv : wsum (fun _ => true) wv = qsum wv.
Proof.
  unfold wsum. f_equal. apply ix_ext; [rewrite map_length, zrange_length; reflexivity|].
  rewrite map_length, zrange_length. intros i Hi. unfold ix at 1. destruct (Z.ltb_spec i 0); [lia|].
  rewrite nth_error_map.
  assert (ZN : forall k a j, (j < k)%nat -> nth_error (zrange a k) j = Some (a + Z.of_nat j)).
  { induction k as [|k IH]; intros a j Hj; [lia|]. destruct j as [|j]; cbn [zrange nth_error]; [f_equal; lia|].
    rewrite IH by lia. f_equal. lia. }
  rewrite ZN by lia. cbn [option_map]. replace (0 + Z.of_nat (Z.to_nat i)) with i by lia. unfold wat.
  destruct (proj2 (ix_some_iff wv i) Hi) as [a ->]. reflexivity.
Qed.
Lemma wsum_one wv l a : ix wv l = Some a -> wsum (fun i => i =? l) wv = a.
Proof.
  intros Hl. unfold wsum.
  assert (Hr : 0 <= l < Z.of_nat (length wv)) by (apply ix_some_iff; eauto).
  assert (G : forall L, NoDup L -> qsum (map (fun i => if i =? l then wat wv i else 0%Qc) L) = if existsb (Z.eqb l) L then a else 0%Qc).
  { induction L as [|b L IH]; intros HN; cbn [map existsb]; [reflexivity|]. inversion HN; subst. unfold qsum in *. cbn [fold_right].
    rewrite IH by auto. rewrite (Z.eqb_sym b l). destruct (Z.eqb_spec l b) as [<-|]; cbn [orb].
    - unfold wat. rewrite Hl. replace (existsb (Z.eqb l) L) with false; [ring|]. symmetry. apply not_true_is_false.
      intros X. apply existsb_exists in X. destruct X as [y [Y1 Y2]]. apply Z.eqb_eq in Y2. congruence.
    - ring. }
  rewrite G by apply zrange_NoDup. replace (existsb (Z.eqb l) (zrange 0 (length wv))) with true; [reflexivity|].
  symmetry. apply existsb_exists. exists l. split; [apply zrange_In; lia|apply Z.eqb_refl].
Qed.

Section Balance.
  Variables (fd lab : grid Z) (w h : Z) (n : nat).
  Variables (f : cellt -> bool) (F : Z -> bool).
  Hypothesis dirs_good : directions_ok fd w h.
  Hypothesis labs_good : forall p, inside w h p -> 0 <= elev_at lab p < Z.of_nat n.
  (** the marked cells are closed under flow and deliver to the marked depressions *)
  Hypothesis f_flow : forall p q, flows fd w h p q -> f p = f q.
  Hypothesis f_lab : forall p, inside w h p -> f p = F (elev_at lab p).

  Definition bal (s : mstate) : Qc := (fsum f w h (k_val (m_k s)) + wsum F (m_wv s))%Qc.
  Definition minv (v : Qc) (s : mstate) : Prop :=
    (forall c, In c (k_q (m_k s)) -> inside w h c) /\ length (m_wv s) = n /\ bal s = v.

  Lemma mwp_step_bal v c s : inside w h c -> minv v s -> forall s', mwp_step lab fd w h c s = Ok s' -> minv v s'.
  Proof.
    intros Hc [Q [L B]] s' E. unfold mwp_step in E. rewrite gat_in in E by exact Hc. cbn [bind] in E.
    change (fd (fst c) (snd c)) with (elev_at fd c) in E.
    pose proof (code_range fd w h dirs_good c Hc) as Hr.
    assert (HcV : In c (cells w h)) by (apply cells_inside; auto).
    assert (Hpit : forall r, (if qlt 0 (k_val (m_k s) c)
        then do l <- gat w h lab (fst c) (snd c); do a <- rd (m_wv s) l; do wv' <- wr (m_wv s) l (a + k_val (m_k s) c)%Qc;
             Ok (mkM (mkK (k_dep (m_k s)) (cset (k_val (m_k s)) c 0%Qc) (k_q (m_k s))) wv')
        else Ok s) = Ok r -> minv v r).
    { intros r Er. destruct (qltP 0 (k_val (m_k s) c)) as [P|P]; [|inversion Er; subst; split; auto].
      rewrite gat_in in Er by exact Hc. cbn [bind] in Er. change (lab (fst c) (snd c)) with (elev_at lab c) in Er.
      pose proof (labs_good c Hc) as Hl. rewrite <- L in Hl. destruct (rd_in _ _ Hl) as [a [Ea Ia]]. rewrite Ea in Er. cbn [bind] in Er.
      destruct (wr_in (m_wv s) (elev_at lab c) (a + k_val (m_k s) c)%Qc Hl) as [wv' [Ew [Lw Iw]]]. rewrite Ew in Er. cbn [bind] in Er.
      injection Er as <-. split; [exact Q|]. split; [cbn [m_wv]; lia|]. unfold bal in *. cbn [m_k m_wv k_val].
      rewrite (wsum_wr F (m_wv s) wv' _ _ Hl Lw Iw). unfold fsum. rewrite qsum_cset by (auto using cells_NoDup).
      rewrite (f_lab c Hc). unfold wat. rewrite Ia. fold (fsum f w h (k_val (m_k s))). rewrite <- B.
      destruct (F (elev_at lab c)); ring. }
    unfold NO_FLOW in E. destruct (Z.eqb_spec (elev_at fd c) 0) as [E0|E0]; cbn [negb bind] in E.
    - cbn in E. apply Hpit. exact E.
    - destruct (tgt_inside fd w h dirs_good c Hc E0) as [Ht Hf].
      rewrite off8_ok in E by lia. cbn [bind fst snd] in E. unfold flat in E. pose proof Ht as Hg. apply inside_grid in Hg.
      unfold tgt in Hg. cbn [fst snd] in Hg. rewrite Hg in E. cbn [bind] in E. fold (tgt fd c) in E.
      destruct (_ * w + _ =? 0); [apply Hpit; exact E|]. injection E as <-. split; [|split].
      + cbn [m_k k_q]. intros m Hm. destruct (_ =? 0); [|auto]. apply in_app_iff in Hm. destruct Hm as [Hm|[<-|[]]]; auto.
      + exact L.
      + unfold bal in *. cbn [m_k m_wv k_val]. destruct (qltP 0 (k_val (m_k s) c)) as [P|P]; [|exact B].
        unfold fsum. rewrite qsum_cset by (auto using cells_NoDup). rewrite qsum_cset by (auto using cells_NoDup; apply cells_inside; auto).
        fold (fsum f w h (k_val (m_k s))). rewrite <- B. rewrite <- (f_flow _ _ Hf). unfold cset, kupd.
        destruct (ceqb_spec c (tgt fd c)) as [Ec|]; [|destruct (f c); ring].
        exfalso. rewrite <- Ec in Hf. destruct Hf as [_ [_ T]]. inversion T; lia.
  Qed.

  Lemma mwp_loop_bal v : forall fuel i s s', minv v s -> whileR mpop (mwp_step lab fd w h) fuel i s = Some (Ok s') -> minv v s'.
  Proof.
    induction fuel as [|fu IH]; intros i s s' H E; cbn [whileR] in E; unfold mpop at 1 in E; unfold kpop at 1 in E;
      destruct (k_q (m_k s)) as [|c q] eqn:Eq; try (injection E as <-; exact H); [discriminate|].
    destruct (mwp_step _ _ _ _ _ _) as [s1| |] eqn:E1; try discriminate.
    apply (IH (S i) s1 s'); [|exact E]. destruct H as [Q [L B]].
    refine (mwp_step_bal v c (mkM (mkK (k_dep (m_k s)) (k_val (m_k s)) q) (m_wv s)) _ _ s1 E1).
    - apply Q. rewrite Eq. left; auto.
    - split; [|split; [exact L|exact B]]. cbn [m_k k_q]. intros m Hm. apply Q. rewrite Eq. right; auto.
  Qed.

  Lemma mwp_balance order wv wtd wtd' wv' : length wv = n ->
    MoveWaterIntoPits lab fd w h order wv wtd = Some (Ok (wtd', wv')) ->
    (fsum f w h wtd' + wsum F wv' = fsum f w h wtd + wsum F wv)%Qc.
  Proof.
    intros HL E. unfold MoveWaterIntoPits in E. destruct (mwp_deps fd w h order) as [d| |]; try discriminate.
    destruct (whileR mpop _ _ _ _) as [[s'| |]|] eqn:EW; try discriminate. injection E as <- <-.
    apply (mwp_loop_bal (fsum f w h wtd + wsum F wv)%Qc) in EW; [apply EW|].
    split; [|split; [exact HL|reflexivity]]. cbn [m_k k_q]. intros c Hc. apply filter_In in Hc.
    destruct c. apply scan_In, Hc.
  Qed.
End Balance.

(** *** the schedule of the dependency loop does not matter *)
Definition meq (a b : mstate) : Prop := keq (m_k a) (m_k b) /\ m_wv a = m_wv b.
Definition req {A} (R : A -> A -> Prop) (a b : res A) : Prop :=
  match a, b with Ok x, Ok y => R x y | Thrown, Thrown => True | Undef, Undef => True | _, _ => False end.
Lemma mwp_step_eq lab fd w h c a b : meq a b -> req meq (mwp_step lab fd w h c a) (mwp_step lab fd w h c b).
Proof.
  intros [[H1 [H2 H3]] H4]. unfold mwp_step. destruct (gat w h fd (fst c) (snd c)) as [nd| |]; cbn [bind req]; auto.
  destruct (if negb _ then _ else _) as [[i n]| |]; cbn [bind req]; auto.
  rewrite !H2, H4. destruct (i =? NO_FLOW).
  - destruct (qlt 0 _); [|split; [split; [|split]|]; auto].
    destruct (gat w h lab _ _) as [l| |]; cbn [bind req]; auto. destruct (rd _ _); cbn [bind req]; auto.
    destruct (wr _ _ _); cbn [bind req]; auto. split; [|reflexivity]. cbn [m_k]. split; [|split]; cbn [k_dep k_val k_q]; auto.
    intros m. unfold cset, kupd. destruct (ceqb m c); auto.
  - cbn [req]. split; [|reflexivity]. cbn [m_k]. split; [|split]; cbn [k_dep k_val k_q].
    + intros m. unfold cset, kupd. rewrite H1. destruct (ceqb m n); auto.
    + intros m. destruct (qlt 0 _); [|auto]. unfold cset, kupd. rewrite !H2. destruct (ceqb m c), (ceqb m n); auto.
    + unfold cset, kupd. rewrite H1, H3. destruct (ceqb n n); auto.
Qed.
Lemma mwp_loop_eq lab fd w h : forall fuel i a b, meq a b ->
  match whileR mpop (mwp_step lab fd w h) fuel i a, whileR mpop (mwp_step lab fd w h) fuel i b with
  | Some x, Some y => req meq x y | None, None => True | _, _ => False end.
Proof.
  assert (MP : forall i a b, meq a b -> (mpop i a = None /\ mpop i b = None) \/
    exists c a' b', mpop i a = Some (c, a') /\ mpop i b = Some (c, b') /\ meq a' b').
  { intros i a b [[H1 [H2 H3]] H4]. unfold mpop, kpop. rewrite H3. destruct (k_q (m_k b)) as [|c q]; [auto|right].
    do 3 eexists. split; [reflexivity|]. split; [reflexivity|]. split; [split; [exact H1|split; [exact H2|reflexivity]]|exact H4]. }
  induction fuel as [|f IH]; intros i a b H; cbn [whileR];
    destruct (MP i a b H) as [[-> ->]|[c [a' [b' [-> [-> H']]]]]]; try exact I; try exact H.
  pose proof (mwp_step_eq lab fd w h c a' b' H') as X0.
  destruct (mwp_step lab fd w h c a'), (mwp_step lab fd w h c b'); cbn [req] in X0; try contradiction; try exact I. apply IH. exact X0.
Qed.

(** *** flow directions of a depression hierarchy *)
Lemma flows_det fd w h p q r : flows fd w h p q -> flows fd w h p r -> q = r.
Proof.
  intros [_ [_ A]] [_ [_ B]]. apply toward_iff in A. apply toward_iff in B. destruct A as [_ [A1 A2]], B as [_ [B1 B2]].
  destruct q, r; cbn [fst snd] in *; congruence.
Qed.
Lemma flows_on_left fd w h p q r : flows fd w h p q -> flows_on fd w h q r -> flows_on fd w h p r.
Proof. intros F H. revert F. induction H as [|a b c H IH K]; intros F; [eapply fo_step; [constructor|exact F]|]. eapply fo_step; eauto. Qed.
Lemma flows_on_inv fd w h p r : flows_on fd w h p r -> p = r \/ exists q, flows fd w h p q /\ flows_on fd w h q r.
Proof.
  induction 1 as [|p q r H IH F]; [auto|]. right. destruct IH as [->|[x [A B]]].
  - exists r. split; [auto|constructor].
  - exists x. split; [auto|]. eapply fo_step; eauto.
Qed.
Lemma flows_on_trans fd w h p q r : flows_on fd w h p q -> flows_on fd w h q r -> flows_on fd w h p r.
Proof. intros H K. revert H. induction K as [|a b c K IH P]; intros H; [auto|]. eapply fo_step; [apply IH; exact H|exact P]. Qed.
Lemma circulates_next fd w h p q : circulates fd w h p -> flows fd w h p q -> circulates fd w h q.
Proof.
  intros [r [A B]] F. exists p. split; [|exact F].
  apply flows_on_inv in A. destruct A as [->|[x [A1 A2]]].
  - rewrite (flows_det _ _ _ _ _ _ F B). constructor.
  - rewrite (flows_det _ _ _ _ _ _ F A1). eapply fo_step; eauto.
Qed.
Lemma goes_flows_on fd w h p q : goes_through fd w h p q -> flows_on fd w h p q.
Proof. induction 1 as [|p q r H IH P]; [constructor|]. eapply fo_step; [exact IH|apply P]. Qed.

Lemma runs_flows w h dem lab fd p r : runs_to D8 w h dem lab fd p r ->
  p = r \/ exists q, flows fd w h p q /\ elev_at lab q = elev_at lab p /\ runs_to D8 w h dem lab fd q r.
Proof.
  intros H. inversion H as [|a n q b Hp Hn E Eq L D R]; subst; [auto|right].
  set (q := (fst p + dx D8 n, snd p + dy D8 n)) in *. exists q. split; [|split; auto].
  assert (Hq : inside w h q) by (inversion R; auto).
  split; [auto|]. split; [auto|]. apply toward_iff. rewrite E, Nat2Z.id. apply dirs8_iff in Hn. split; [lia|auto].
Qed.

Lemma watershed_directions w h dem lab0 lab fd pits :
  watersheds D8 w h dem lab0 (fun _ _ => 0) lab fd pits ->
  directions_ok fd w h /\ (forall p, ~ circulates fd w h p) /\
  (forall p q, flows fd w h p q -> elev_at lab p = elev_at lab q).
Proof.
  intros WS.
  assert (Hend : forall p r, inside w h p -> runs_to D8 w h dem lab fd p r ->
    ((elev_at lab p = 0 /\ ocean_cell w h lab0 r) \/ exists k, elev_at lab p = Z.of_nat k + 1 /\ nth_error pits k = Some r) -> elev_at fd r = 0).
  { intros p r Hp _ [[_ O]|[k [_ K]]]; [apply (ws_ocean _ _ _ _ _ _ _ _ _ WS r O)|apply (ws_pit _ _ _ _ _ _ _ _ _ WS k r K)]. }
  split; [|split].
  - intros p Hp. destruct (ws_drain _ _ _ _ _ _ _ _ _ WS p Hp) as [r [R X]]. pose proof (Hend p r Hp R X) as E.
    apply runs_flows in R. destruct R as [->|[q [F _]]]; eauto.
  - intros p Hc.
    assert (Hp : inside w h p) by (destruct Hc as [q [_ [_ [H _]]]]; auto).
    destruct (ws_drain _ _ _ _ _ _ _ _ _ WS p Hp) as [r [R X]]. pose proof (Hend p r Hp R X) as E. clear X Hp.
    induction R as [p Hp|p n q r Hp Hn En Eq L D R IH].
    + destruct Hc as [x [A B]]. apply flows_on_inv in A. destruct A as [->|[y [[_ [_ A]] _]]]; [destruct B as [_ [_ A]]|];
        rewrite E in A; inversion A.
    + apply IH; [|exact E]. apply (circulates_next fd w h p q Hc).
      assert (R0 : runs_to D8 w h dem lab fd p r) by (eapply runs_step; eauto).
      assert (Hq : inside w h q) by (inversion R; auto).
      split; [auto|]. split; [auto|]. apply toward_iff. rewrite En, Nat2Z.id, Eq. apply dirs8_iff in Hn. split; [lia|auto].
  - intros p q F. destruct F as [Hp [Hq T]]. assert (F : flows fd w h p q) by (split; auto).
    destruct (ws_drain _ _ _ _ _ _ _ _ _ WS p Hp) as [r [R X]]. pose proof (Hend p r Hp R X) as E.
    apply runs_flows in R. destruct R as [->|[x [F' [L _]]]].
    + rewrite E in T. inversion T.
    + rewrite (flows_det _ _ _ _ _ _ F F'). auto.
Qed.
