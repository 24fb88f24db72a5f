(** The producer of parallel_d8_accum: the network of perimeter cells. *)
From Coq Require Import ZArith List Lia Bool Permutation.
From Verif Require Import Base Res Kahn RasterSpec RasterFacts FlowModel FlowSpec FlowProofs ZhouModel ZhouProofs PPFModel PPFSpec PPFMaster PPFTop PAKahn PAModel PATile PAPath PASpec PAGeo.
Open Scope Z_scope.

Lemma forM_flat {T I S} (ts : list T) (l : T -> list I) (big : T -> bool) (b : T * I -> S -> res S) : (forall t, In t ts -> big t = false) ->
  forall s, forM ts (fun t s => if big t then Undef else forM (l t) (fun i s => b (t, i) s) s) s = forM (flat_map (fun t => map (pair t) (l t)) ts) b s.
Proof.
  induction ts as [|t ts IH]; intros HB s; [reflexivity|]. cbn [forM flat_map]. rewrite forM_app. rewrite (HB t (or_introl eq_refl)).
  assert (E : forM (l t) (fun i s => b (t, i) s) s = forM (map (pair t) (l t)) b s).
  { clear. revert s. induction (l t) as [|i q IH]; intros s; [reflexivity|]. cbn [map forM]. destruct (b (t, i) s); cbn [bind]; auto. }
  rewrite E. destruct (forM (map (pair t) (l t)) b s); cbn [bind]; auto. apply IH. intros; apply HB; right; auto.
Qed.
Lemma forM_ext {I S} (b b' : I -> S -> res S) l : (forall i s, In i l -> b i s = b' i s) -> forall s, forM l b s = forM l b' s.
Proof.
  induction l as [|i l IH]; intros HE s; [reflexivity|]. cbn [forM]. rewrite HE by (left; auto). destruct (b' i s); cbn [bind]; auto. apply IH. intros; apply HE; right; auto.
Qed.

Section Master.
  Variables (L : layout) (fnd : Z).
  Hypothesis HL : proper L.
  Let Hbw : 0 < bw L := proj1 (proj2 (proj2 HL)).
  Let Hbh : 0 < bh L := proj2 (proj2 (proj2 HL)).
  Hypothesis Hcodes : codes_ok (whole L fnd) fnd (W L) (PPFModel.H L).
  Hypothesis Hrows : two_rows L.
  Hypothesis Hfits : fits L.
  Hypothesis HF : flipH L = false.
  Hypothesis Hpinch : no_pinch L.
  Hypothesis Hseam : forall P, present L P -> at_seam L P -> ~ trapped L fnd P.
  Notation tww t := (tw L (fst t)).
  Notation thh t := (th L (snd t)).
  Notation TL := (tiles L).
  Notation ed t := (tile_edges L (fst t) (snd t)).
  Notation tfd := (tfd L).
  Notation datG := (data (whole L fnd) fnd (W L) (PPFModel.H L)).
  Notation datT t := (data (tfd t) fnd (tww t) (thh t)).
  Notation recvG := (FlowProofs.recv (whole L fnd) fnd (W L) (PPFModel.H L)).
  Notation recvT t := (FlowProofs.recv (tfd t) fnd (tww t) (thh t)).
  Notation tgG := (target (whole L fnd)).
  Notation tgT t := (target (tfd t)).
  Notation exitsT t := (exits (tfd t) fnd (tww t) (thh t)).
  Notation loopsT t := (loops (tfd t) fnd (tww t) (thh t)).
  Notation onT t := (onb (tfd t) fnd (tww t) (thh t)).
  Notation posT t := (pos (tww t) (thh t)).
  Notation serT t := (ser (tww t) (thh t)).
  Notation rimT t := (rim (tww t) (thh t)).
  Notation lenT t := (plen (tww t) (thh t)).
  Notation folT t := (followed (tww t) (thh t) (ed t)).
  Notation belowG := (below_loop (whole L fnd) fnd (W L) (PPFModel.H L)).
  Notation tile := (Z * Z)%type.

  Variable a : tile -> cellt -> Z.
  Variable jobs : Z -> Z -> pjob.
  Hypothesis Hj : forall t, In t TL -> pspec (tfd t) fnd (tww t) (thh t) (ed t) (a t) (jobs (fst t) (snd t)).

  Lemma codesT t : In t TL -> codes_ok (tfd t) fnd (tww t) (thh t).
  Proof. intros Ht. apply (tcodes L fnd HL Hcodes HF t Ht). Qed.
  Lemma w1 t : In t TL -> 1 <= tww t.
  Proof. apply tw1. exact HL. Qed.
  Lemma h2 t : In t TL -> 2 <= thh t.
  Proof. apply th2; auto. Qed.
  Lemma len_t t : In t TL -> 2 <= lenT t <= 65528.
  Proof. apply plen_fits; auto. Qed.
  Lemma fol_loop t c : In t TL -> folT t c -> ~ loopsT t c.
  Proof.
    intros Ht F LP. apply (Hseam (gl L t c)).
    - apply (gl_present L Hbw Hbh t c Ht (proj1 F)).
    - apply followed_seam; auto.
    - apply loops_trapped; auto. exact (proj1 F).
  Qed.
  Lemma exits_only t c e : exitsT t c -> reach (recvT t) c e -> e = c.
  Proof.
    intros [_ [_ X]] R. destruct (reach_inv (recvT t) c e R) as [|[u [E _]]]; [auto|]. apply edge_target in E. destruct E as [_ [_ [D _]]]. destruct X. apply D.
  Qed.

  Definition nodes : list node := flat_map (fun t => map (pair t) (zrange 0 (Z.to_nat (lenT t)))) TL.
  Lemma nodes_In t s : In (t, s) nodes <-> In t TL /\ 0 <= s < lenT t.
  Proof.
    unfold nodes. rewrite in_flat_map. split.
    - intros [u [Hu I]]. apply in_map_iff in I. destruct I as [i [E I]]. injection E as <- <-. apply zrange_In in I. pose proof (len_t u Hu). split; [auto|lia].
    - intros [Ht Hs]. exists t. split; [auto|]. apply in_map. apply zrange_In. lia.
  Qed.
  Lemma nodes_NoDup : NoDup nodes.
  Proof.
    unfold nodes. apply flat_map_NoDup; [apply tiles_NoDup| |].
    - intros t _. apply FinFun.Injective_map_NoDup; [intros x y E; congruence|apply zrange_NoDup].
    - intros t u n _ _ A B. apply in_map_iff in A. apply in_map_iff in B. destruct A as [i [<- _]], B as [k [E _]]. congruence.
  Qed.
  Lemma neqb_spec m n : reflect (m = n) (neqb m n).
  Proof.
    destruct m as [t s], n as [u r]. unfold neqb. cbn [fst snd]. destruct (teqb t u) eqn:E; cbn [andb].
    - apply teqb_spec in E. subst. destruct (Z.eqb_spec s r); constructor; congruence.
    - constructor. intros X. injection X as -> _. rewrite (proj2 (teqb_spec u u) eq_refl) in E. discriminate.
  Qed.

  (** the place a cell leads to outside its tile *)
  Notation nxt t c := (gl L t (tgT t c)).
  Definition nodeof (P : cellt) : node := (tl L P, serT (tl L P) (lo L P)).
  Definition down_ok (t : tile) (s : Z) (o : option node) : Prop :=
    match o with
    | Some m => folT t (posT t s) /\ serT t (posT t s) = s /\
        ((exists e, e <> posT t s /\ reach (recvT t) (posT t s) e /\ exitsT t e /\ m = (t, serT t e)) \/
         (exitsT t (posT t s) /\ present L (nxt t (posT t s)) /\ m = nodeof (nxt t (posT t s))))
    | None => ~ (folT t (posT t s) /\ serT t (posT t s) = s) \/ (forall e, reach (recvT t) (posT t s) e -> ~ exitsT t e) \/
              (exitsT t (posT t s) /\ ~ present L (nxt t (posT t s)))
    end.

  Lemma vat_ix {A} (l : list A) i v : ix l i = Some v -> vat l i = Ok v.
  Proof. unfold vat. intros ->. reflexivity. Qed.
  Lemma w16_small z : 0 <= z < 65536 -> w16 z = z.
  Proof. intros Hz. apply Z.mod_small. exact Hz. Qed.

  Lemma nxt_present t c : In t TL -> exitsT t c -> nb8 (gl L t c) (nxt t c).
  Proof.
    intros Ht X. rewrite <- (tg_gl L fnd HL HF t c Ht (proj1 (proj1 X))). apply tg_nb. rewrite <- (tfd_whole L fnd HL HF t c Ht (proj1 (proj1 X))).
    pose proof (codesT t Ht _ _ (proj1 (proj1 X)) (proj2 (proj1 X))). destruct X as [_ [X _]]. lia.
  Qed.
  Lemma down_spec t s : In t TL -> 0 <= s < lenT t -> exists o, DownstreamCell L jobs (t, s) = Ok o /\ down_ok t s o.
  Proof.
    intros Ht Hs. destruct (Hj t Ht) as [NL NA NF AX FX LX]. set (j := jobs (fst t) (snd t)) in *. destruct (LX s Hs) as [v [LV LK]].
    pose proof (len_t t Ht) as LT. set (c := posT t s) in *. pose proof (pos_rim _ _ (w1 t Ht) (h2 t Ht) s Hs) as RM. fold c in RM.
    unfold DownstreamCell. destruct t as [gx gy]. cbn [fst snd] in *. fold j. destruct (Nat.eqb_spec (length (p_links j)) (length (p_fd j))) as [_|X]; [|lia]. cbn [negb].
    rewrite (vat_ix _ _ _ LV). cbn [bind].
    destruct LK as [[F [CN LK]]|[NF' ->]]; [|exists None; split; [reflexivity|left; exact NF']].
    destruct LK as [[e [Re [Xe ->]]]|[NX ->]]; [|exists None; split; [reflexivity|right; left; exact NX]].
    rewrite (vat_ix _ _ _ (FX s Hs)). fold c. cbn [bind].
    destruct (ceqb_spec e c) as [EE|NE]; [subst e|].
    - change (FLOW_EXTERNAL =? FLOW_TERMINATES) with false. change (FLOW_EXTERNAL =? FLOW_EXTERNAL) with true. cbv iota.
      pose proof Xe as [[Rc Nc] [C0 Xc]]. unfold NO_FLOW. rewrite (proj2 (Z.eqb_neq _ _) C0).
      pose proof (pos_ok _ _ (w1 (gx, gy) Ht) (h2 (gx, gy) Ht) s Hs) as PO. cbn [fst snd] in PO. rewrite PO. fold c. cbn [bind]. rewrite off8_ok by (apply (codesT (gx, gy) Ht); auto). cbn [bind fst snd]. cbv zeta.
      change (fst c + dx D8 (Z.to_nat (tfd (gx, gy) (fst c) (snd c)))) with (fst (tgT (gx, gy) c)). change (snd c + dy D8 (Z.to_nat (tfd (gx, gy) (fst c) (snd c)))) with (snd (tgT (gx, gy) c)).
      pose proof (tg_bound (tfd (gx, gy)) c) as TB. unfold in_raster in Rc, Xc. cbn [fst snd] in Rc.
      pose proof (nxt_present (gx, gy) c Ht Xe) as NB. set (g := tgT (gx, gy) c) in *.
      pose proof (proj1 (tiles_In L (gx, gy)) Ht) as [TX [TY _]]. cbn [fst snd] in TX, TY.
      assert (BX : -1 <= fst g <= tw L gx) by lia. assert (BY : -1 <= snd g <= th L gy) by lia.
      match goal with |- context[negb ?b] => assert (EB : b = true) by (rewrite !orb_true_iff, !Z.eqb_eq; cbn [fst snd] in Xc; lia); rewrite EB; clear EB end. cbn [negb].
      pose proof (axis_move (W L) (bw L) gx (fst g) Hbw TX BX) as AX1. pose proof (axis_move (PPFModel.H L) (bh L) gy (snd g) Hbh TY BY) as AY1. cbv zeta in AX1, AY1.
      change (part (W L) (bw L) gx) with (tw L gx) in AX1. change (part (PPFModel.H L) (bh L) gy) with (th L gy) in AY1.
      change (ceil (W L) (bw L)) with (gridwidth L) in AX1. change (ceil (PPFModel.H L) (bh L)) with (gridheight L) in AY1.
      set (gnx := if fst g =? tw L gx then gx + 1 else if fst g =? -1 then gx - 1 else gx) in *.
      set (gny := if snd g =? th L gy then gy + 1 else if snd g =? -1 then gy - 1 else gy) in *.
      change (part (W L) (bw L) gnx) with (tw L gnx) in AX1. change (part (PPFModel.H L) (bh L) gny) with (th L gny) in AY1.
      set (nx' := if fst g =? tw L gx then 0 else if fst g =? -1 then tw L gnx - 1 else fst g) in *.
      set (ny' := if snd g =? th L gy then 0 else if snd g =? -1 then th L gny - 1 else snd g) in *.
      assert (NP : forall o, ~ present L (gl L (gx, gy) g) -> o = None -> down_ok (gx, gy) s o).
      { intros o NP ->. right. right. split; [exact Xe|]. exact NP. }
      destruct AX1 as [[GX NX]|[GX [PX [DX MX]]]].
      { match goal with |- context[if ?b then Ok None else _] => replace b with true end.
        - eexists. split; [reflexivity|]. apply NP; [|reflexivity]. intros [[X _] _]. apply NX. exact X.
        - symmetry. rewrite !orb_true_iff, !Z.ltb_lt, !Z.eqb_eq. lia. }
      destruct AY1 as [[GY NY]|[GY [PY [DY MY]]]].
      { match goal with |- context[if ?b then Ok None else _] => replace b with true end.
        - eexists. split; [reflexivity|]. apply NP; [|reflexivity]. intros [[_ X] _]. apply NY. exact X.
        - symmetry. rewrite !orb_true_iff, !Z.ltb_lt, !Z.eqb_eq. lia. }
      match goal with |- context[if ?b then Ok None else _] => replace b with false end.
      2:{ symmetry. rewrite !orb_false_iff, !Z.ltb_ge, !Z.eqb_neq. lia. }
      destruct (nul L gnx gny) eqn:NU.
      { eexists. split; [reflexivity|]. apply NP; [|reflexivity]. intros [_ X]. unfold gl in X. cbn [fst snd] in X. rewrite DX, DY in X. congruence. }
      assert (HP : present L (gl L (gx, gy) g)) by (split; [split; [exact PX|exact PY]|unfold gl; cbn [fst snd]; rewrite DX, DY; exact NU]).
      assert (ET : tl L (gl L (gx, gy) g) = (gnx, gny)) by (unfold tl, gl; cbn [fst snd]; rewrite DX, DY; reflexivity).
      assert (EL : lo L (gl L (gx, gy) g) = (nx', ny')) by (unfold lo, gl; cbn [fst snd]; rewrite MX, MY; reflexivity).
      destruct (gl_present L Hbw Hbh (gx, gy) c Ht Rc) as [HPc [ETc _]].
      assert (TN : tl L (gl L (gx, gy) g) <> (gx, gy)) by (apply (exits_tl L fnd HL); auto).
      destruct (cross_rim L HL (gl L (gx, gy) c) (gl L (gx, gy) g) HPc HP NB) as [_ RM']; [rewrite ETc; congruence|].
      destruct (present_tile L Hbw Hbh _ HP) as [TP' _]. rewrite ET, EL in *. cbn [fst snd] in RM'.
      rewrite (ser_ok _ _ (nx', ny') RM'). cbn [bind]. pose proof (ser_range _ _ (w1 _ TP') (h2 _ TP') _ RM') as SR. cbn [fst snd] in SR. pose proof (len_t _ TP') as LT'. cbn [fst snd] in LT'.
      rewrite w16_small by lia. destruct (Hj _ TP') as [_ _ NF2 _ _ _]. cbn [fst snd] in NF2. rewrite NF2. rewrite (proj2 (Z.ltb_lt _ _)) by lia. cbn [negb].
      rewrite (proj2 (Z.eqb_neq (ser (tw L gnx) (th L gny) (nx', ny')) FLOW_NO_DOWNSTREAM)) by (change FLOW_NO_DOWNSTREAM with 65535; lia).
      eexists. split; [reflexivity|]. cbn [down_ok]. split; [exact F|]. split; [exact CN|]. right. split; [exact Xe|]. split; [exact HP|]. unfold nodeof. change (nxt (gx, gy) (posT (gx, gy) s)) with (gl L (gx, gy) g).
      rewrite ET, EL. reflexivity.
    - pose proof (exits_rim _ _ _ _ _ Xe) as RE. pose proof (ser_range _ _ (w1 _ Ht) (h2 _ Ht) _ RE) as SR. cbn [fst snd] in SR.
      rewrite w16_small by lia. assert (K : forall k, 65533 <= k -> (ser (tw L gx) (th L gy) e =? k) = false) by (intros k Hk; apply Z.eqb_neq; lia).
      rewrite !K; [|change FLOW_NO_DOWNSTREAM with 65535; lia|change FLOW_EXTERNAL with 65533; lia|change FLOW_TERMINATES with 65534; lia].
      assert (C0 : tfd (gx, gy) (fst c) (snd c) <> 0).
      { destruct (reach_inv (recvT (gx, gy)) c e Re) as [X|[u [E _]]]; [congruence|]. apply edge_target in E. tauto. }
      unfold NO_FLOW. rewrite (proj2 (Z.eqb_neq _ _) C0). eexists. split; [reflexivity|]. cbn [down_ok]. split; [exact F|]. split; [exact CN|]. left. exists e. auto.
  Qed.

  Definition dwn (n : node) : option node := match DownstreamCell L jobs n with Ok o => o | _ => None end.
  Lemma dwn_eq n : In n nodes -> DownstreamCell L jobs n = Ok (dwn n) /\ down_ok (fst n) (snd n) (dwn n).
  Proof.
    destruct n as [t s]. intros I. apply nodes_In in I. destruct (down_spec t s) as [o [E D]]; [tauto|tauto|]. unfold dwn. rewrite E. auto.
  Qed.
  (** the link leads to another tile *)
  Definition crossb (n m : node) : bool := negb (teqb (fst m) (fst n)).
  Definition mout (n : node) : list (node * bool) := if existsb (neqb n) nodes then match dwn n with Some m => [(m, crossb n m)] | None => [] end else [].
  Lemma mout_in n : In n nodes -> mout n = match dwn n with Some m => [(m, crossb n m)] | None => [] end.
  Proof.
    intros I. unfold mout. replace (existsb (neqb n) nodes) with true; [auto|]. symmetry. apply existsb_exists. exists n. split; [auto|]. destruct (neqb_spec n n); congruence.
  Qed.
  Lemma medge_iff n m : edge mout n m <-> In n nodes /\ dwn n = Some m.
  Proof.
    unfold edge. split.
    - intros [u I]. unfold mout in I. destruct (existsb (neqb n) nodes) eqn:B; [|destruct I]. apply existsb_exists in B. destruct B as [x [Ix B]]. destruct (neqb_spec n x); [|discriminate]. subst x.
      split; [auto|]. destruct (dwn n); [|destruct I]. destruct I as [E|[]]. congruence.
    - intros [I D]. rewrite mout_in, D by auto. exists (crossb n m). left. auto.
  Qed.
  Lemma mout_single n : (length (mout n) <= 1)%nat.
  Proof. unfold mout. destruct (existsb _ _); [destruct (dwn n)|]; cbn; lia. Qed.

  (** cells and nodes *)
  Definition cellof (n : node) : cellt := gl L (fst n) (posT (fst n) (snd n)).
  Lemma pos_dom t s : In t TL -> 0 <= s < lenT t -> tdom L t (posT t s).
  Proof. intros Ht Hs. apply (pos_rim _ _ (w1 t Ht) (h2 t Ht) s Hs). Qed.
  Lemma cell_pos t s : In t TL -> 0 <= s < lenT t -> present L (cellof (t, s)) /\ tl L (cellof (t, s)) = t /\ lo L (cellof (t, s)) = posT t s.
  Proof. intros Ht Hs. apply (gl_present L Hbw Hbh t _ Ht). apply pos_dom; auto. Qed.
  Lemma nodeof_ok P : present L P -> rimT (tl L P) (lo L P) -> In (nodeof P) nodes /\ cellof (nodeof P) = P /\ serT (tl L P) (posT (tl L P) (snd (nodeof P))) = snd (nodeof P) /\ posT (tl L P) (snd (nodeof P)) = lo L P.
  Proof.
    intros HP RM. destruct (present_tile L Hbw Hbh P HP) as [TP DP]. unfold nodeof, cellof. cbn [fst snd]. rewrite pos_ser by auto using w1, h2.
    split; [|split; [apply gl_lo; auto|auto]]. apply nodes_In. split; [auto|]. apply ser_range; auto using w1, h2.
  Qed.
  (** a link to another tile *)
  Lemma cross_iff n m : In n nodes -> (edge mout n m /\ fst m <> fst n <->
    folT (fst n) (posT (fst n) (snd n)) /\ serT (fst n) (posT (fst n) (snd n)) = snd n /\ exitsT (fst n) (posT (fst n) (snd n)) /\
    present L (nxt (fst n) (posT (fst n) (snd n))) /\ m = nodeof (nxt (fst n) (posT (fst n) (snd n)))).
  Proof.
    intros I. destruct (dwn_eq n I) as [_ D]. destruct n as [t s]. cbn [fst snd] in *. apply nodes_In in I. destruct I as [Ht Hs]. rewrite medge_iff. split.
    - intros [[_ E] NE]. rewrite E in D. cbn [down_ok] in D. destruct D as [F [CN [[e [_ [_ [_ ->]]]]|[X [HP ->]]]]]; [cbn [fst] in NE; congruence|]. auto.
    - intros [F [CN [X [HP ->]]]]. cbn [nodeof fst]. split; [|apply (exits_tl L fnd HL); auto]. split; [apply nodes_In; auto|]. destruct (dwn (t, s)) as [m|]; cbn [down_ok] in D.
      + destruct D as [_ [_ [[e [NE [R [_ _]]]]|[_ [_ ->]]]]]; [exfalso; apply NE; apply (exits_only t); auto|auto].
      + exfalso. destruct D as [D|[D|[_ D]]]; [apply D; auto|apply (D _ (reach_refl _ _)); auto|auto].
  Qed.
  (** a link within a tile *)
  Lemma same_iff t s m : In (t, s) nodes -> (edge mout (t, s) m /\ fst m = t <->
    folT t (posT t s) /\ serT t (posT t s) = s /\ exists e, e <> posT t s /\ reach (recvT t) (posT t s) e /\ exitsT t e /\ m = (t, serT t e)).
  Proof.
    intros I. destruct (dwn_eq _ I) as [_ D]. cbn [fst snd] in D. rewrite medge_iff. apply nodes_In in I as I'. destruct I' as [Ht Hs]. split.
    - intros [[_ E] NE]. rewrite E in D. cbn [down_ok] in D. destruct D as [F [CN [X|[X [HP ->]]]]]; [auto|]. exfalso. apply (exits_tl L fnd HL t _ Ht X HP). exact NE.
    - intros [F [CN [e [NE [R [X ->]]]]]]. split; [|auto]. split; [auto|]. destruct (dwn (t, s)) as [m|]; cbn [down_ok] in D.
      + destruct D as [_ [_ [[e' [NE' [R' [X' ->]]]]|[X' _]]]]; [|exfalso; apply NE; apply (exits_only t); auto].
        f_equal. f_equal. f_equal. destruct (reach_linear (recvT t) (recv_single _ _ _ _) _ _ R _ R') as [Q|Q]; [apply (exits_only t e); auto|symmetry; apply (exits_only t e'); auto].
      + exfalso. destruct D as [D|[D|[X' _]]]; [apply D; auto|apply (D e R X)|apply NE; apply (exits_only t); auto].
  Qed.
  Lemma out_nodes d m : In d nodes -> edge mout d m -> In m nodes.
  Proof.
    intros I E. destruct d as [t s]. destruct (teqb (fst m) t) eqn:T.
    - apply teqb_spec in T. destruct (proj1 (same_iff t s m I) (conj E T)) as [_ [_ [e [_ [_ [X ->]]]]]]. apply nodes_In in I. apply nodes_In. split; [tauto|].
      apply ser_range; [apply w1; tauto|apply h2; tauto|apply (exits_rim _ _ _ _ _ X)].
    - assert (NE : fst m <> t) by (intros X; apply teqb_spec in X; congruence).
      destruct (proj1 (cross_iff (t, s) m I) (conj E NE)) as [_ [_ [X [HP ->]]]]. cbn [fst snd] in *. apply nodes_In in I. destruct I as [Ht Hs].
      apply nodeof_ok; [auto|]. destruct (cell_pos t s Ht Hs) as [HPc [ETc _]].
      apply (cross_rim L HL (cellof (t, s)) _ HPc HP); [apply nxt_present; auto|]. rewrite ETc. intros Y. symmetry in Y. revert Y. apply (exits_tl L fnd HL); auto.
  Qed.

  (** ** The number of links that end in a node *)
  Lemma indeg_filter m l : indeg neqb mout l m = length (filter (fun d => match mout d with [] => false | e :: _ => neqb (fst e) m end) l).
  Proof.
    induction l as [|d l IH]; [reflexivity|]. cbn [indeg filter]. rewrite IH. unfold cnt. pose proof (mout_single d) as MS. destruct (mout d) as [|e [|e' q]]; cbn [filter length] in *; [lia| |lia].
    destruct (neqb (fst e) m); cbn [length]; lia.
  Qed.
  Definition givers (m : node) : list node := filter (fun d => match mout d with [] => false | e :: _ => neqb (fst e) m end) nodes.
  Lemma givers_In m d : In d (givers m) <-> In d nodes /\ edge mout d m.
  Proof.
    unfold givers. rewrite filter_In. pose proof (mout_single d) as MS. unfold edge. destruct (mout d) as [|e [|e' q]]; cbn [length] in MS; [| |lia].
    - split; [intros [_ X]; discriminate|intros [_ [w []]]].
    - destruct (neqb_spec (fst e) m) as [E|E]; split; intros [I X]; split; auto; try discriminate.
      + exists (snd e). left. rewrite <- E. apply surjective_pairing.
      + destruct X as [w [X|[]]]. rewrite X in E. cbn in E. congruence.
  Qed.
  Lemma filter_split {B} (f : B -> bool) l : length l = (length (filter f l) + length (filter (fun b => negb (f b)) l))%nat.
  Proof. induction l as [|b l IH]; [reflexivity|]. cbn [filter length]. destruct (f b); cbn [negb length]; lia. Qed.
  Lemma indeg_small m : In m nodes -> Z.of_nat (indeg neqb mout nodes m) <= 65535.
  Proof.
    intros I. rewrite indeg_filter. fold (givers m). rewrite (filter_split (fun d : node => teqb (fst d) (fst m)) (givers m)). destruct m as [t s]. cbn [fst].
    pose proof I as I'. apply nodes_In in I'. destruct I' as [Ht Hs].
    assert (A : (length ((t, s) :: filter (fun d : node => teqb (fst d) t) (givers (t, s))) <= length (map (pair t) (zrange 0 (Z.to_nat (lenT t)))))%nat).
    { apply NoDup_incl_length.
      { constructor; [|apply NoDup_filter, NoDup_filter, nodes_NoDup]. intros Id. apply filter_In in Id. destruct Id as [Id _]. apply givers_In in Id. destruct Id as [_ Id].
        destruct (proj1 (same_iff t s (t, s) I) (conj Id eq_refl)) as [F [CN [e [NE [R [X EE]]]]]]. apply NE. injection EE as EE. rewrite EE. symmetry. apply pos_ser; apply (exits_rim _ _ _ _ _ X). }
      intros [u r] [Id|Id]; [injection Id as <- <-; apply in_map, zrange_In; lia|]. apply filter_In in Id. destruct Id as [Id E]. cbn [fst] in E. apply teqb_spec in E. subst u.
      apply givers_In in Id. destruct Id as [Id _]. apply nodes_In in Id. apply in_map. apply zrange_In. lia. }
    assert (B : (length (filter (fun d : node => negb (teqb (fst d) t)) (givers (t, s))) <= length (map (fun n => nodeof (ZhouModel.off (cellof (t, s)) n)) (dirs D8)))%nat).
    { apply NoDup_incl_length; [apply NoDup_filter, NoDup_filter, nodes_NoDup|]. intros [u r] Id. apply filter_In in Id. destruct Id as [Id E]. cbn [fst] in E. apply negb_true_iff in E.
      assert (NE : fst (t, s) <> fst (u, r)) by (cbn; intros <-; rewrite (proj2 (teqb_spec t t) eq_refl) in E; discriminate).
      apply givers_In in Id. destruct Id as [Id Ed]. destruct (proj1 (cross_iff (u, r) (t, s) Id) (conj Ed NE)) as [F [CN [X [HP EN]]]]. cbn [fst snd] in *.
      apply nodes_In in Id. destruct Id as [Hu Hr]. destruct (cell_pos u r Hu Hr) as [HPc [ETc ELc]]. pose proof (nxt_present u _ Hu X) as NB.
      assert (TN : tl L (cellof (u, r)) <> tl L (nxt u (posT u r))) by (rewrite ETc; intros Y; symmetry in Y; revert Y; apply (exits_tl L fnd HL); auto).
      destruct (cross_rim L HL (cellof (u, r)) _ HPc HP NB TN) as [R1 R2]. destruct (nodeof_ok _ HP R2) as [_ [EC _]]. rewrite <- EN in EC.
      destruct (nb_off (cellof (t, s)) (cellof (u, r))) as [n [Hn En]]; [rewrite EC; apply nb8_sym; exact NB|].
      apply in_map_iff. exists n. split; [|exact Hn]. rewrite <- En. unfold nodeof. rewrite ETc, ELc, CN. reflexivity. }
    rewrite map_length, zrange_length in A. cbn [length] in A. rewrite map_length in B. change (length (dirs D8)) with 8%nat in B. pose proof (len_t t Ht) as LN. unfold node in *. set (p := length _) in A |- *. set (q := length _) in B |- *. clear - A B LN. lia.
  Qed.

  (** ** p_deps *)
  Lemma size_t t : In t TL -> psize jobs t = lenT t /\ Z.of_nat (length (p_fd (job_of jobs t))) = lenT t.
  Proof. intros Ht. destruct (Hj t Ht). auto. Qed.
  Lemma there_in m : In m nodes -> there jobs m = true.
  Proof.
    destruct m as [t s]. intros I. apply nodes_In in I. destruct I as [Ht Hs]. unfold there. cbn [fst snd]. rewrite (proj1 (size_t t Ht)). rewrite andb_true_iff, Z.leb_le, Z.ltb_lt. lia.
  Qed.
  Lemma indeg_le l l' m : (forall d, In d l -> In d l') -> NoDup l -> (indeg neqb mout l m <= indeg neqb mout l' m)%nat.
  Proof. intros SUB ND. destruct (NoDup_incl_split l l' ND SUB) as [R P]. rewrite (indeg_perm neqb mout _ _ m P), indeg_app. lia. Qed.
  Lemma deps_ok : exists dep, p_deps L jobs = Ok dep /\ forall m, In m nodes -> dep m = Z.of_nat (indeg neqb mout nodes m).
  Proof.
    unfold p_deps.
    set (b := fun n d => do o <- DownstreamCell L jobs n; match o with None => Ok d | Some m => if there jobs m then Ok (kupd neqb d m (w16 (d m + 1))) else Thrown end).
    rewrite (forM_ext _ (fun t d => if 65536 <=? lenT t then Undef else forM (zrange 0 (Z.to_nat (lenT t))) (fun s d => b (t, s) d) d)).
    2:{ intros t d Ht. cbv zeta. rewrite (proj2 (size_t t Ht)). reflexivity. }
    rewrite (forM_flat TL (fun t => zrange 0 (Z.to_nat (lenT t))) (fun t => 65536 <=? lenT t) b) by (intros t Ht; pose proof (len_t t Ht); apply Z.leb_gt; lia). fold nodes.
    destruct (forM_inv (fun done d => forall m, In m nodes -> d m = Z.of_nat (indeg neqb mout done m)) b nodes) with (s := fun _ : node => 0) as [dep [E A]].
    - intros done n rest d EN A. assert (I : In n nodes) by (rewrite EN; apply in_app_iff; right; left; auto). unfold b. rewrite (proj1 (dwn_eq n I)). cbn [bind].
      assert (IN : forall m, indeg neqb mout (done ++ [n]) m = (indeg neqb mout done m + cnt neqb m (mout n))%nat) by (intros m; rewrite indeg_app; cbn [indeg]; lia).
      pose proof (mout_in n I) as MO. destruct (dwn n) as [m|] eqn:D.
      + assert (Em : edge mout n m) by (apply medge_iff; auto). pose proof (out_nodes n m I Em) as Im. rewrite there_in by auto. eexists. split; [reflexivity|].
        intros m' I'. rewrite IN, MO. unfold cnt, kupd. cbn [filter fst]. destruct (neqb_spec m' m) as [->|NE].
        * destruct (neqb_spec m m); [|congruence]. cbn [length]. rewrite A by auto.
          assert (LE : (indeg neqb mout (done ++ [n]) m <= indeg neqb mout nodes m)%nat).
          { rewrite EN. change (n :: rest) with ([n] ++ rest). rewrite app_assoc, (indeg_app neqb mout (done ++ [n]) rest). lia. }
          rewrite IN, MO in LE. unfold cnt in LE. cbn [filter fst] in LE. destruct (neqb_spec m m) in LE; [|congruence]. cbn [length] in LE. pose proof (indeg_small m Im). rewrite w16_small; lia.
        * destruct (neqb_spec m m'); [congruence|]. cbn [length]. rewrite A by auto. lia.
      + exists d. split; [reflexivity|]. intros m' I'. rewrite IN, MO. cbn [cnt filter length]. rewrite A by auto. unfold cnt. cbn. lia.
    - intros m _. reflexivity.
    - exists dep. auto.
  Qed.

  (** ** p_sources *)
  Definition ext (n : node) : Prop := folT (fst n) (posT (fst n) (snd n)) /\ serT (fst n) (posT (fst n) (snd n)) = snd n /\ exitsT (fst n) (posT (fst n) (snd n)).
  Lemma link_ext t s v : In (t, s) nodes -> ix (p_links (job_of jobs t)) s = Some v -> (v = FLOW_EXTERNAL <-> ext (t, s)).
  Proof.
    intros I LV. apply nodes_In in I. destruct I as [Ht Hs]. destruct (Hj t Ht) as [NL NA NF AX FX LX]. destruct (LX s Hs) as [v' [LV' LK]]. unfold job_of in LV. rewrite LV in LV'. injection LV' as <-.
    unfold ext. cbn [fst snd]. destruct LK as [[F [CN LK]]|[NFo ->]]; [|split; [discriminate|intros [A [B _]]; exfalso; apply NFo; auto]].
    destruct LK as [[e [Re [Xe ->]]]|[NX ->]].
    - destruct (ceqb_spec e (posT t s)) as [EE|NE]; [rewrite EE in Xe; split; auto|]. pose proof (exits_rim _ _ _ _ _ Xe) as RE. pose proof (ser_range _ _ (w1 t Ht) (h2 t Ht) _ RE) as SR. pose proof (len_t t Ht).
      rewrite w16_small by lia. split; [change FLOW_EXTERNAL with 65533; lia|]. intros [_ [_ X]]. exfalso. apply NE, (exits_only t); auto.
    - split; [discriminate|]. intros [_ [_ X]]. exfalso. apply (NX _ (reach_refl _ _) X).
  Qed.
  Definition init_ok (n : node) (v : Z * Z) : Prop := (ext n /\ v = (a (fst n) (posT (fst n) (snd n)), 0)) \/ (~ ext n /\ v = (0, 0)).
  Lemma sources_ok dep : exists s, p_sources L jobs (mkK dep (fun n => (nth (Z.to_nat (snd n)) (p_accum (job_of jobs (fst n))) 0, 0)) []) = Ok s /\
    k_dep s = dep /\ (forall n, In n nodes -> init_ok n (k_val s n)) /\ NoDup (k_q s) /\ (forall n, In n (k_q s) <-> In n nodes /\ dep n = 0).
  Proof.
    unfold p_sources.
    set (b := fun (n : node) (s : @kst node (Z * Z)) => let q := if k_dep s n =? 0 then n :: k_q s else k_q s in
        do l <- vat (p_links (job_of jobs (fst n))) (snd n);
        if negb (l =? FLOW_EXTERNAL)
        then do a <- vat (p_accum (job_of jobs (fst n))) (snd n); Ok (mkK (k_dep s) (kupd neqb (k_val s) n (0, snd (k_val s n))) q)
        else Ok (mkK (k_dep s) (k_val s) q)).
    set (s0 := mkK _ _ _).
    rewrite (forM_ext _ (fun t d => if 65536 <=? lenT t then Undef else forM (zrange 0 (Z.to_nat (lenT t))) (fun s d => b (t, s) d) d)).
    2:{ intros t d Ht. rewrite (proj1 (size_t t Ht)). reflexivity. }
    rewrite (forM_flat TL (fun t => zrange 0 (Z.to_nat (lenT t))) (fun t => 65536 <=? lenT t) b) by (intros t Ht; pose proof (len_t t Ht); apply Z.leb_gt; lia). fold nodes.
    destruct (forM_inv (fun done s => k_dep s = dep /\ (forall n, In n done -> init_ok n (k_val s n)) /\ (forall n, ~ In n done -> k_val s n = k_val s0 n) /\ NoDup (k_q s) /\ (forall n, In n (k_q s) <-> In n done /\ dep n = 0)) b nodes)
      with (s := s0) as [s [E [A1 [A2 [A3 [A4 A5]]]]]].
    - intros done n rest s EN [A1 [A2 [A3 [A4 A5]]]]. assert (I : In n nodes) by (rewrite EN; apply in_app_iff; right; left; auto).
      assert (ND : ~ In n done) by (pose proof nodes_NoDup as ND; rewrite EN in ND; apply NoDup_remove_2 in ND; intros X; apply ND, in_app_iff; auto).
      destruct n as [t i]. pose proof I as I'. apply nodes_In in I'. destruct I' as [Ht Hi]. destruct (Hj t Ht) as [NL NA NF AX FX LX]. destruct (LX i Hi) as [v [LV _]].
      pose proof (link_ext t i v I LV) as LE. unfold b. cbn [fst snd]. unfold job_of at 1 2. rewrite (vat_ix _ _ _ LV). cbn [bind]. cbv zeta. destruct s as [kd kv kq]. cbn [k_dep k_val k_q] in *. subst kd.
      set (q := if dep (t, i) =? 0 then (t, i) :: kq else kq).
      assert (Q : NoDup q /\ forall n, In n q <-> In n (done ++ [(t, i)]) /\ dep n = 0).
      { unfold q. destruct (Z.eqb_spec (dep (t, i)) 0) as [Z0|Z0]; split.
        - constructor; [rewrite A5; tauto|auto].
        - intros n. rewrite in_app_iff. cbn [In]. rewrite A5. split; [intros [<-|[X Y]]; auto|intros [[X|[X|[]]] Y]; auto].
        - auto.
        - intros n. rewrite in_app_iff. cbn [In]. rewrite A5. split; [tauto|intros [[X|[X|[]]] Y]; [auto|subst n; contradiction]]. }
      assert (Q' : forall n, In n q <-> In n (done ++ [(t, i)]) /\ dep n = 0).
      { apply Q. }
      destruct (Z.eqb_spec v FLOW_EXTERNAL) as [EV|EV]; cbn [negb].
      + eexists. split; [reflexivity|]. cbn [k_dep k_val k_q]. split; [auto|]. split; [|split; [|split; [apply Q|apply Q]]].
        * intros n In'. apply in_app_iff in In'. cbn [In] in In'. destruct In' as [In'|[<-|[]]]; [auto|]. rewrite A3 by auto. left. split; [apply LE; auto|]. cbn [s0 k_val fst snd]. f_equal.
          specialize (AX i Hi). unfold ix in AX. destruct (Z.ltb_spec i 0); [lia|]. unfold job_of. apply nth_error_nth. exact AX.
        * intros n In'. apply A3. intros X. apply In', in_app_iff. auto.
      + unfold job_of. rewrite (vat_ix _ _ _ (AX i Hi)). cbn [bind]. eexists. split; [reflexivity|]. cbn [k_dep k_val k_q]. split; [auto|]. split; [|split; [|split; [apply Q|apply Q]]].
        * intros n In'. apply in_app_iff in In'. cbn [In] in In'. unfold kupd. destruct (neqb_spec n (t, i)) as [->|NE].
          -- right. split; [rewrite <- LE; auto|]. rewrite A3 by auto. reflexivity.
          -- destruct In' as [In'|[X|[]]]; [auto|congruence].
        * intros n In'. unfold kupd. destruct (neqb_spec n (t, i)) as [->|NE]; [exfalso; apply In', in_app_iff; right; left; auto|]. apply A3. intros X. apply In', in_app_iff. auto.
    - split; [reflexivity|]. split; [intros n []|]. split; [auto|]. split; [constructor|]. intros n. split; [intros []|intros [[] _]].
    - exists s. auto.
  Qed.

  (** ** The worklist *)
  Definition padd (x y : Z * Z) : Z * Z := (fst x + fst y, snd x + snd y).
  Definition pg (_ : node) (x : Z * Z) (b : bool) : Z * Z := (fst x, if b then fst x else 0).
  Lemma padd_comm x y : padd x y = padd y x.
  Proof. unfold padd. f_equal; lia. Qed.
  Lemma padd_assoc x y z : padd x (padd y z) = padd (padd x y) z.
  Proof. unfold padd. cbn [fst snd]. f_equal; lia. Qed.
  Lemma padd_zero x : padd x (0, 0) = x.
  Proof. destruct x. unfold padd. cbn [fst snd]. f_equal; lia. Qed.
  Notation kb := (kbody neqb padd mout pg (fun _ x => x)).
  Notation KI := (kinv neqb padd (0, 0) mout pg (fun _ x => x) nodes).

  Lemma step_ok init P X s c q : KI init P X s -> k_q s = c :: q -> In c nodes ->
    exists s', p_step L jobs c (mkK (k_dep s) (k_val s) q) = Ok s' /\ kperm s' (kb c (mkK (k_dep s) (k_val s) q)).
  Proof.
    intros K EQ I. unfold p_step. rewrite (proj1 (dwn_eq c I)). cbn [bind]. unfold kbody. rewrite (mout_in c I). destruct (dwn c) as [m|] eqn:D; cbn [fold_left k_val k_dep k_q].
    - assert (Em : edge mout c m) by (apply medge_iff; auto). pose proof (out_nodes c m I Em) as Im. rewrite there_in by auto. cbn [negb].
      assert (NP : ~ In c P) by (apply (ki_q _ _ _ _ _ _ _ _ _ _ _ K c); rewrite EQ; left; auto).
      assert (DM : 1 <= k_dep s m <= 65535).
      { rewrite (ki_dep _ _ _ _ _ _ _ _ _ _ _ K m Im). pose proof (ki_ord _ _ _ _ _ _ _ _ _ _ _ K) as HO.
        assert (LE : (indeg neqb mout (c :: P) m <= indeg neqb mout nodes m)%nat).
        { apply indeg_le; [intros d [<-|Hd]; [auto|apply (ordered_incl mout nodes P HO); auto]|constructor; [auto|apply (ordered_nodup mout nodes P HO)]]. }
        cbn [indeg] in LE. pose proof (proj2 (cnt_pos neqb neqb_spec m (mout c)) Em). pose proof (indeg_small m Im). lia. }
      unfold kupd at 1. destruct (neqb_spec m m); [|congruence]. rewrite w16_small by lia. change (w16 (-1)) with 65535. destruct (Z.eqb_spec (k_dep s m - 1) 65535); [lia|].
      eexists. split; [reflexivity|]. unfold relax. cbn [k_dep k_val k_q fst snd]. split; [|split]; cbn [k_dep k_val k_q].
      + reflexivity.
      + intros n0. unfold kupd, padd, pg, crossb. cbn [fst snd]. assert (KC : (if neqb m c then k_val s c else k_val s m) = k_val s m) by (destruct (neqb_spec m c); congruence).
        rewrite KC. destruct (neqb_spec n0 m) as [->|NE].
        * destruct (teqb (fst m) (fst c)); reflexivity.
        * destruct (neqb_spec n0 c); congruence.
      + unfold kupd. destruct (neqb_spec m m); [|congruence]. destruct (_ =? 0); [apply Permutation_cons_append|apply Permutation_refl].
    - eexists. split; [reflexivity|]. split; [reflexivity|]. split; [|apply Permutation_refl]. intros n. cbn [k_val]. unfold kupd. destruct (neqb_spec n c); congruence.
  Qed.

  (** [n] passes to [m]; between tiles *)
  Definition em (n m : node) : bool := match mout n with [] => false | e :: _ => neqb (fst e) m end.
  Lemma em_iff n m : In n nodes -> (em n m = true <-> edge mout n m).
  Proof. intros I. pose proof (givers_In m n) as G. unfold givers in G. rewrite filter_In in G. unfold em. tauto. Qed.
  Lemma insum_fst X d m : fst (insum neqb padd (0, 0) mout pg X d m) = if em d m then fst (X d) else 0.
  Proof.
    unfold insum, em. pose proof (mout_single d) as MS. destruct (mout d) as [|[m' b] [|e q]]; cbn [length] in MS; [reflexivity| |lia]. cbn [filter fst]. destruct (neqb m' m); cbn; lia.
  Qed.
  Lemma insum_snd X d m : In d nodes -> snd (insum neqb padd (0, 0) mout pg X d m) = if em d m && crossb d m then fst (X d) else 0.
  Proof.
    intros I. unfold insum, em. rewrite (mout_in d I). destruct (dwn d) as [m'|]; [|reflexivity]. cbn [filter fst]. destruct (neqb_spec m' m) as [->|NE]; cbn [map asum snd andb]; [|reflexivity].
    unfold padd, pg. cbn [snd]. destruct (crossb d m); lia.
  Qed.
  Lemma asum_pair {B} (f : B -> Z * Z) l : asum padd (0, 0) (map f l) = (zsum (fun b => fst (f b)) l, zsum (fun b => snd (f b)) l).
  Proof. induction l as [|b l IH]; [reflexivity|]. cbn [map asum]. rewrite IH. reflexivity. Qed.

  Record final (acc ain : node -> Z) : Prop := {
    f_acc : forall n, In n nodes -> ~ loop_upstream mout nodes n -> ext n -> acc n = a (fst n) (posT (fst n) (snd n)) + zsum (fun d => if em d n then acc d else 0) nodes;
    f_acc0 : forall n, In n nodes -> ~ loop_upstream mout nodes n -> ~ ext n -> acc n = zsum (fun d => if em d n then acc d else 0) nodes;
    f_ain : forall n, In n nodes -> ~ loop_upstream mout nodes n -> ain n = zsum (fun d => if em d n && crossb d n then acc d else 0) nodes;
    f_in : forall n, In n nodes -> ain n <> 0 -> exists d, In d nodes /\ edge mout d n /\ fst n <> fst d }.

  Lemma calc_final : exists acc ain, Calculations L jobs = Ok ain /\ final acc ain.
  Proof.
    unfold Calculations. destruct deps_ok as [dep [-> DP]]. cbn [bind]. destruct (sources_ok dep) as [s [ES [SD [SV [SQ SI]]]]]. match goal with |- context[bind ?e _] => replace e with (Ok s) by (symmetry; exact ES) end. cbn [bind].
    assert (EL : length (flat_map (fun t => zrange 0 (Z.to_nat (psize jobs t))) TL) = length nodes).
    { unfold nodes. rewrite !flat_map_concat_map. clear - Hj. assert (G : forall l, (forall t, In t l -> In t TL) -> length (concat (map (fun t => zrange 0 (Z.to_nat (psize jobs t))) l)) = length (concat (map (fun t => map (pair t) (zrange 0 (Z.to_nat (lenT t)))) l))).
      { induction l as [|t l IH]; intros HI; [reflexivity|]. cbn [map concat]. rewrite !app_length, IH by (intros; apply HI; right; auto). rewrite map_length, !zrange_length. unfold psize. destruct (Hj t (HI t (or_introl eq_refl))) as [NL _ _ _ _ _]. unfold job_of. lia. }
      apply G. auto. }
    rewrite EL.
    assert (GS : good_start neqb mout nodes (k_val s) s).
    { split; [intros m Hm; rewrite SD; apply DP; auto|]. split; [reflexivity|]. split; [exact SQ|]. rewrite SD. exact SI. }
    destruct (any_spec neqb padd (0, 0) mout pg (fun _ x => x) neqb_spec padd_comm padd_assoc padd_zero nodes nodes_NoDup out_nodes (p_step L jobs) (k_val s) (step_ok (k_val s)) s (length nodes) GS (le_n _))
      as [P [X [s' [-> [HO [HP [Hdec [HX Hno]]]]]]]].
    cbn [bind]. exists (fun n => fst (X n)), (fun n => snd (k_val s' n)). split; [reflexivity|].
    assert (EQ : forall n, In n P -> X n = k_val s' n /\ X n = padd (k_val s n) (zsum (fun d => if em d n then fst (X d) else 0) nodes, zsum (fun d => if em d n && crossb d n then fst (X d) else 0) nodes)).
    { intros n Hn. destruct (HX n Hn) as [E1 E2]. split; [auto|]. rewrite E1. f_equal. unfold inflow. rewrite asum_pair. f_equal; apply zsum_ext; intros d Hd; [apply insum_fst|apply insum_snd; auto]. }
    split.
    - intros n Hn NL EX. destruct (EQ n) as [_ E]; [apply HP; auto|]. rewrite E. cbn [padd fst]. destruct (SV n Hn) as [[_ ->]|[NX _]]; [reflexivity|contradiction].
    - intros n Hn NL EX. destruct (EQ n) as [_ E]; [apply HP; auto|]. rewrite E at 1. cbn [padd fst]. destruct (SV n Hn) as [[X' _]|[_ ->]]; [contradiction|reflexivity].
    - intros n Hn NL. destruct (EQ n) as [E' E]; [apply HP; auto|]. rewrite <- E', E. cbn [padd snd]. destruct (SV n Hn) as [[_ ->]|[_ ->]]; cbn [snd]; lia.
    - intros n Hn NZ.
      assert (G : exists l, (forall d, In d l -> In d nodes) /\ snd (k_val s' n) = zsum (fun d => if em d n && crossb d n then fst (X d) else 0) l).
      { destruct (Hdec n Hn) as [Pn|Ln].
        - exists nodes. split; [auto|]. destruct (EQ n Pn) as [E' E]. rewrite <- E', E. cbn [padd snd]. destruct (SV n Hn) as [[_ ->]|[_ ->]]; cbn [snd]; lia.
        - exists P. split; [apply (ordered_incl mout nodes P HO)|]. rewrite Hno by (intros C; apply HP in C; tauto). unfold inflow. rewrite asum_pair. cbn [padd snd].
          replace (snd (k_val s n)) with 0 by (destruct (SV n Hn) as [[_ ->]|[_ ->]]; reflexivity). rewrite Z.add_0_l. apply zsum_ext. intros d Hd. apply insum_snd. apply (ordered_incl mout nodes P HO). exact Hd. }
      destruct G as [l [SUB E]]. rewrite E in NZ.
      assert (EX : exists d, In d l /\ (if em d n && crossb d n then fst (X d) else 0) <> 0).
      { clear E SUB. induction l as [|d l IH]; [exfalso; apply NZ; reflexivity|]. rewrite zsum_cons in NZ. destruct (Z.eq_dec (if em d n && crossb d n then fst (X d) else 0) 0) as [Z0|Z0].
        - destruct IH as [d' [H1 H2]]; [lia|]. exists d'. split; [right; auto|auto].
        - exists d. split; [left; auto|auto]. }
      destruct EX as [d [Hd Nd]]. exists d. pose proof (SUB d Hd) as Id. destruct (em d n) eqn:EM; cbn [andb] in Nd; [|congruence]. destruct (crossb d n) eqn:CB; [|congruence].
      split; [auto|]. split; [apply em_iff; auto|]. unfold crossb in CB. apply negb_true_iff in CB. intros Y. apply teqb_spec in Y. congruence.
  Qed.

  (** ** Loops of links are loops of cells *)
  Lemma medge_dat n m : In n nodes -> edge mout n m -> datG (cellof n).
  Proof.
    intros I E. destruct n as [t s]. pose proof I as I'. apply nodes_In in I'. destruct I' as [Ht Hs]. unfold cellof. cbn [fst snd]. apply (dat_gl L fnd HL HF t); [exact Ht|apply pos_dom; auto|].
    destruct (teqb (fst m) t) eqn:T.
    - apply teqb_spec in T. destruct (proj1 (same_iff t s m I) (conj E T)) as [_ [_ [e [NE [R _]]]]]. destruct (reach_inv (recvT t) _ _ R) as [X|[u [X _]]]; [congruence|]. apply edge_target in X. tauto.
    - assert (NE : fst m <> t) by (intros X; apply teqb_spec in X; congruence). destruct (proj1 (cross_iff (t, s) m I) (conj E NE)) as [_ [_ [X _]]]. apply X.
  Qed.
  Lemma cross_cell n m : In n nodes -> edge mout n m -> fst m <> fst n -> present L (cellof m) /\ cellof m = tgG (cellof n) /\ nb8 (cellof n) (cellof m) /\ tl L (cellof n) = fst n /\ tl L (cellof m) = fst m /\ m = nodeof (cellof m) /\ rimT (fst m) (lo L (cellof m)).
  Proof.
    intros I E NE. destruct n as [t s]. cbn [fst] in NE. destruct (proj1 (cross_iff (t, s) m I) (conj E NE)) as [_ [_ [X [HP EM]]]]. cbn [fst snd] in *. apply nodes_In in I. destruct I as [Ht Hs].
    destruct (cell_pos t s Ht Hs) as [HPc [ETc ELc]]. pose proof (nxt_present t _ Ht X) as NB. fold (cellof (t, s)) in NB. change (gl L t (posT t s)) with (cellof (t, s)) in NB.
    assert (TN : tl L (cellof (t, s)) <> tl L (nxt t (posT t s))) by (rewrite ETc; intros Y; symmetry in Y; revert Y; apply (exits_tl L fnd HL); auto).
    destruct (cross_rim L HL _ _ HPc HP NB TN) as [_ R2]. destruct (nodeof_ok _ HP R2) as [_ [EC _]]. rewrite EM, EC. split; [exact HP|]. split; [|split; [exact NB|split; [exact ETc|split; [reflexivity|split; [reflexivity|exact R2]]]]].
    unfold cellof. cbn [fst snd]. rewrite (tg_gl L fnd HL HF t _ Ht (pos_dom t s Ht Hs)). reflexivity.
  Qed.
  Lemma medge_reach n m : In n nodes -> edge mout n m -> datG (cellof m) -> exists Q, reach recvG (cellof n) Q /\ edge recvG Q (cellof m).
  Proof.
    intros I E D. destruct (teqb (fst m) (fst n)) eqn:T.
    - apply teqb_spec in T. destruct n as [t s]. cbn [fst] in T. destruct (proj1 (same_iff t s m I) (conj E T)) as [_ [_ [e [NE [R [X ->]]]]]]. apply nodes_In in I. destruct I as [Ht Hs].
      unfold cellof. cbn [fst snd]. rewrite pos_ser by (apply (exits_rim _ _ _ _ _ X)). inversion R as [v|v d m' R' E']; subst; [congruence|].
      exists (gl L t d). split; [apply (reach_out L fnd HL HF); auto|apply (edge_out L fnd HL HF); auto].
    - assert (NE : fst m <> fst n) by (intros X; apply teqb_spec in X; congruence). destruct (cross_cell n m I E NE) as [HP [EC _]]. exists (cellof n). split; [constructor|].
      pose proof (medge_dat n m I E) as Dn. apply edge_target. split; [exact Dn|]. rewrite <- EC. split; [|split; [exact D|reflexivity]].
      destruct n as [t s]. destruct (proj1 (cross_iff (t, s) m I) (conj E NE)) as [_ [_ [[_ [X _]] _]]]. cbn [fst snd] in X. apply nodes_In in I. rewrite (tfd_whole L fnd HL HF t _ (proj1 I) (pos_dom t s (proj1 I) (proj2 I))) in X. exact X.
  Qed.
  Lemma mreach n m : reach mout n m -> In n nodes -> datG (cellof m) -> In m nodes /\ reach recvG (cellof n) (cellof m).
  Proof.
    induction 1 as [v|v d m R IH E]; intros I D; [split; [auto|constructor]|].
    assert (Id : In d nodes). { apply medge_iff in E. tauto. }
    destruct IH as [_ R']; [exact I|apply (medge_dat d m Id E)|]. split; [apply (out_nodes d m Id E)|]. destruct (medge_reach d m Id E D) as [Q [R2 E2]].
    eapply reach_step; [eapply reach_trans; [exact R'|exact R2]|exact E2].
  Qed.
  Lemma mloop m : loop_upstream mout nodes m -> datG (cellof m) -> belowG (cellof m).
  Proof.
    intros [v [Iv [[d [R E]] R']]] D. assert (Id : In d nodes) by (apply medge_iff in E; tauto).
    assert (Dv : datG (cellof v)).
    { destruct (reach_inv mout v d R) as [->|[u [E' _]]]; [apply (medge_dat d d Id E)|apply (medge_dat v u Iv E')]. }
    apply (Hloop _ _ _ _ Hcodes). exists (cellof v). split; [apply dcells_In; exact Dv|]. split; [|apply (mreach v m R' Iv D)].
    destruct (medge_reach d v Id E Dv) as [Q [R2 E2]]. exists Q. split; [|exact E2]. eapply reach_trans; [|exact R2]. apply (mreach v d R Iv). apply (medge_dat d v Id E).
  Qed.

  (** ** The balance of the accumulation on the whole raster *)
  Variables acc ain : node -> Z.
  Hypothesis FIN : final acc ain.
  Notation ebG := (eb (whole L fnd) fnd (W L) (PPFModel.H L)).
  Notation ebT t := (eb (tfd t) fnd (tww t) (thh t)).
  Notation dcT t := (FlowProofs.dcells (tfd t) fnd (tww t) (thh t)).
  Notation dcG := (FlowProofs.dcells (whole L fnd) fnd (W L) (PPFModel.H L)).
  Hypothesis HA : forall t c, In t TL -> datT t c -> ~ below_loop (tfd t) fnd (tww t) (thh t) c -> a t c = 1 + zsum (fun d => if ebT t d c then a t d else 0) (dcT t).
  Definition FA (P : cellt) : Z := a (tl L P) (lo L P) + zsum (fun s => if onT (tl L P) (posT (tl L P) s) (lo L P) then ain (tl L P, s) else 0) (zrange 0 (Z.to_nat (lenT (tl L P)))).

  (** where water enters a tile *)
  Lemma enters t s : In t TL -> 0 <= s < lenT t -> ain (t, s) <> 0 -> folT t (posT t s) /\ serT t (posT t s) = s /\ ~ loopsT t (posT t s).
  Proof.
    intros Ht Hs NZ. destruct (f_in _ _ FIN (t, s)) as [d [Id [E NE]]]; [apply nodes_In; auto|auto|]. cbn [fst] in NE.
    destruct (cross_cell d (t, s) Id E NE) as [HP [_ [NB [T1 [T2 [EN RM]]]]]]. cbn [fst] in *. destruct (cell_pos t s Ht Hs) as [_ [_ EL]].
    assert (HPd : present L (cellof d)) by (destruct d as [u r]; apply nodes_In in Id; apply cell_pos; tauto).
    pose proof (cross_followed L HL Hpinch (cellof (t, s)) (cellof d) HP HPd (nb8_sym _ _ NB)) as CF. rewrite T1, T2, EL in CF.
    assert (F : folT t (posT t s)) by (apply CF; auto). split; [exact F|]. split; [|apply fol_loop; auto].
    pose proof (f_equal snd EN) as ES. unfold nodeof in ES. cbn [snd] in ES. rewrite T2, EL in ES. auto.
  Qed.

  Lemma on_split t s c : In t TL -> 0 <= s < lenT t -> datT t c -> ~ below_loop (tfd t) fnd (tww t) (thh t) c ->
    (if onT t (posT t s) c then ain (t, s) else 0) = (if ceqb (posT t s) c then ain (t, s) else 0) + zsum (fun d => if ebT t d c then (if onT t (posT t s) d then ain (t, s) else 0) else 0) (dcT t).
  Proof.
    intros Ht Hs D NB. destruct (Z.eq_dec (ain (t, s)) 0) as [Z0|NZ].
    { rewrite Z0. rewrite zsum_zero; [destruct (onT t (posT t s) c), (ceqb (posT t s) c); reflexivity|]. intros d _. destruct (ebT t d c), (onT t (posT t s) d); reflexivity. }
    destruct (enters t s Ht Hs NZ) as [_ [_ NL]]. set (p := posT t s) in *.
    assert (NC : ~ on_cycle (recvT t) c).
    { intros C. apply NB, (Hloop _ _ _ _ (codesT t Ht)). exists c. split; [apply dcells_In; auto|]. split; [exact C|constructor]. }
    assert (OI : forall q, onT t p q = true <-> datT t p /\ reach (recvT t) p q) by (intros q; apply (onb_iff _ _ _ _ (w1 t Ht) (h2 t Ht)); exact NL).
    destruct (ceqb_spec p c) as [EP|NP].
    - rewrite (proj2 (OI c)) by (rewrite EP; split; [exact D|constructor]). rewrite zsum_zero; [lia|]. intros d _. destruct (ebT t d c) eqn:B; [|reflexivity]. destruct (onT t p d) eqn:O; [|reflexivity].
      exfalso. apply NC. exists d. apply OI in O. rewrite EP in O. split; [tauto|]. apply eb_iff. exact B.
    - destruct (onT t p c) eqn:O.
      + apply OI in O. destruct O as [Dp R]. inversion R as [v|v d m R' E']; subst; [congruence|]. rewrite (zsum_one _ (dcT t) d).
        * rewrite (proj2 (eb_iff _ _ _ _ d c) E'). rewrite (proj2 (OI d)) by auto. lia.
        * apply dcells_NoDup.
        * apply dcells_In. apply edge_target in E'. tauto.
        * intros d' _ ND. destruct (ebT t d' c) eqn:B; [|reflexivity]. apply eb_iff in B. destruct (onT t p d') eqn:O; [|reflexivity]. exfalso. apply OI in O. destruct O as [_ R2].
          assert (G : forall x y, x <> y -> edge (recvT t) x c -> edge (recvT t) y c -> ~ reach (recvT t) x y).
          { intros x y N1 E1 E2 RR. destruct (reach_inv (recvT t) x y RR) as [X|[u [X Y]]]; [congruence|]. rewrite (single_edge (recvT t) (recv_single _ _ _ _) x u c X E1) in Y. apply NC. exists y. auto. }
          destruct (reach_linear (recvT t) (recv_single _ _ _ _) _ _ R' _ R2) as [X|X]; [apply (G d d'); auto|apply (G d' d); auto].
      + rewrite zsum_zero; [lia|]. intros d _. destruct (ebT t d c) eqn:B; [|reflexivity]. destruct (onT t p d) eqn:O'; [|reflexivity]. exfalso. apply OI in O'. apply eb_iff in B.
        assert (X : onT t p c = true) by (apply OI; split; [tauto|eapply reach_step; [apply O'|exact B]]). congruence.
  Qed.

  (** what a tile sends out *)
  Lemma ext_FA u s : In (u, s) nodes -> ext (u, s) -> ~ belowG (cellof (u, s)) -> acc (u, s) = FA (cellof (u, s)).
  Proof.
    intros I EX NB. pose proof I as I'. apply nodes_In in I'. destruct I' as [Hu Hs]. pose proof EX as [F [CN X]]. cbn [fst snd] in F, CN, X.
    destruct (cell_pos u s Hu Hs) as [HP [ET EL]]. assert (D : datG (cellof (u, s))) by (apply (dat_gl L fnd HL HF u _ Hu (pos_dom u s Hu Hs)); apply X).
    assert (NL : ~ loop_upstream mout nodes (u, s)) by (intros Y; apply NB, mloop; auto).
    rewrite (f_acc _ _ FIN (u, s) I NL EX). unfold FA. rewrite ET, EL. cbn [fst snd]. f_equal. set (q := posT u s) in *.
    assert (SAME : forall d, In d nodes -> edge mout d (u, s) -> fst d = u -> acc d = ain d /\ ~ loop_upstream mout nodes d).
    { intros d Id Ed Tu. destruct d as [u' s'']. cbn [fst] in Tu. subst u'. destruct (proj1 (same_iff u s'' (u, s) Id) (conj Ed eq_refl)) as [F' [CN' [e [NE [R [Xe EE]]]]]].
      assert (NL' : ~ loop_upstream mout nodes (u, s'')).
      { intros [v [Iv [C R']]]. apply NL. exists v. split; [auto|]. split; [auto|]. eapply reach_step; eauto. }
      split; [|exact NL'].
      assert (NX : ~ exitsT u (posT u s'')) by (intros Y; apply NE, (exits_only u); auto).
      rewrite (f_acc0 _ _ FIN (u, s'') Id NL') by (intros [_ [_ Y]]; exact (NX Y)). rewrite (f_ain _ _ FIN (u, s'') Id NL').
      apply zsum_ext. intros d Id'. destruct (em d (u, s'')) eqn:EM; [|reflexivity]. cbn [andb]. destruct (crossb d (u, s'')) eqn:CB; [reflexivity|]. exfalso.
      apply em_iff in EM; [|exact Id']. unfold crossb in CB. apply negb_false_iff in CB. apply teqb_spec in CB. cbn [fst] in CB. destruct d as [u' r]. cbn [fst] in CB. subst u'.
      destruct (proj1 (same_iff u r (u, s'') Id') (conj EM eq_refl)) as [_ [_ [e' [_ [_ [X' EE']]]]]]. injection EE' as EE'. apply NX. rewrite EE'. rewrite pos_ser by (apply (exits_rim _ _ _ _ _ X')). exact X'. }
    rewrite (zsum_ext _ (fun d => (if em d (u, s) && crossb d (u, s) then acc d else 0) + (if em d (u, s) && teqb (fst d) u then ain d else 0))).
    2:{ intros d Id. destruct (em d (u, s)) eqn:EM; cbn [andb]; [|reflexivity]. unfold crossb. cbn [fst]. destruct (teqb u (fst d)) eqn:T.
        - apply teqb_spec in T. rewrite (proj2 (teqb_spec (fst d) u)) by auto. cbn [negb]. rewrite (proj1 (SAME d Id (proj1 (em_iff d _ Id) EM) (eq_sym T))). lia.
        - cbn [negb]. destruct (teqb (fst d) u) eqn:T'; [|lia]. apply teqb_spec in T'. rewrite T', (proj2 (teqb_spec u u) eq_refl) in T. discriminate. }
    rewrite zsum_add, <- (f_ain _ _ FIN (u, s) I NL).
    rewrite (zsum_ext (fun s0 => if onT u (posT u s0) q then ain (u, s0) else 0) (fun s0 => (if s0 =? s then ain (u, s0) else 0) + (if negb (s0 =? s) && onT u (posT u s0) q then ain (u, s0) else 0))).
    2:{ intros s0 _. destruct (Z.eqb_spec s0 s) as [->|N0]; cbn [negb andb]; [|lia]. fold q. destruct (Z.eq_dec (ain (u, s)) 0) as [Z0|NZ]; [rewrite Z0; destruct (onT u q q); reflexivity|].
        destruct (enters u s Hu Hs NZ) as [_ [_ NLo]]. rewrite (proj2 (onb_iff _ _ _ _ (w1 u Hu) (h2 u Hu) q q NLo)); [lia|]. split; [apply X|constructor]. }
    rewrite zsum_add. f_equal.
    - rewrite (zsum_one _ _ s); [rewrite Z.eqb_refl; reflexivity|apply zrange_NoDup|apply zrange_In; lia|]. intros b _ NE. apply Z.eqb_neq in NE. rewrite NE. reflexivity.
    - symmetry. apply (zsum_bij _ _ _ _ (fun s0 d => d = (u, s0) /\ s0 <> s /\ (ain (u, s0) <> 0 -> em d (u, s) = onT u (posT u s0) q))).
      + apply zrange_NoDup.
      + apply nodes_NoDup.
      + intros s0 I0 NZ. apply zrange_In in I0. destruct (Z.eqb_spec s0 s) as [|N0]; cbn [negb andb] in NZ; [congruence|]. destruct (onT u (posT u s0) q) eqn:O; [|congruence].
        assert (I0' : In (u, s0) nodes) by (apply nodes_In; split; [auto|lia]). exists (u, s0). split; [exact I0'|]. split; [auto|]. split; [auto|]. intros _.
        destruct (enters u s0 Hu ltac:(lia) NZ) as [F0 [CN0 NL0]]. apply (onb_iff _ _ _ _ (w1 u Hu) (h2 u Hu) _ _ NL0) in O. apply em_iff; [exact I0'|]. apply (same_iff u s0 (u, s) I0'). split; [exact F0|]. split; [exact CN0|].
        exists q. split; [intros EQ; apply N0; rewrite <- CN0, <- EQ; exact CN|]. split; [tauto|]. split; [exact X|]. rewrite CN. reflexivity.
      + intros d Id NZ. destruct (em d (u, s)) eqn:EM; cbn [andb] in NZ; [|congruence]. destruct (teqb (fst d) u) eqn:T; [|congruence]. apply teqb_spec in T. destruct d as [u' s0]. cbn [fst] in T. subst u'.
        pose proof Id as Id'. apply nodes_In in Id'. destruct Id' as [_ H0]. exists s0. split; [apply zrange_In; lia|]. split; [auto|].
        pose proof EM as EM'. apply em_iff in EM'; [|exact Id]. destruct (proj1 (same_iff u s0 (u, s) Id) (conj EM' eq_refl)) as [F0 [CN0 [e [NE [R [Xe EE]]]]]].
        assert (EQ : e = q) by (injection EE as EE; unfold q; rewrite EE; symmetry; apply pos_ser; apply (exits_rim _ _ _ _ _ Xe)). rewrite EQ in *. split.
        * intros EQ0. apply NE. rewrite EQ0. reflexivity.
        * intros _. symmetry. apply (onb_iff _ _ _ _ (w1 u Hu) (h2 u Hu)); [apply fol_loop; auto|]. split; [|exact R]. destruct (reach_inv (recvT u) _ _ R) as [Y|[v [Y _]]]; [congruence|]. apply edge_target in Y. tauto.
      + intros s0 d I0 Id [-> [N0 EE]]. cbn [fst]. rewrite (proj2 (teqb_spec u u) eq_refl), andb_true_r. rewrite (proj2 (Z.eqb_neq _ _) N0). cbn [negb andb].
        destruct (Z.eq_dec (ain (u, s0)) 0) as [Z0|NZ]; [rewrite Z0; destruct (onT u (posT u s0) q), (em (u, s0) (u, s)); reflexivity|]. rewrite EE by auto. reflexivity.
      + intros s0 d d' _ _ _ [-> _] [-> _]. reflexivity.
      + intros s0 s1 d _ _ _ [-> _] [E _]. congruence.
  Qed.

  Lemma balance P : datG P -> ~ belowG P -> FA P = 1 + zsum (fun Q => if ebG Q P then FA Q else 0) dcG.
  Proof.
    intros D NB. destruct (dat_lo L fnd HL HF P D) as [Ht [Dc DT]]. set (t := tl L P) in *. set (c := lo L P) in *.
    assert (EP : gl L t c = P) by (apply gl_lo; auto).
    assert (NBt : ~ below_loop (tfd t) fnd (tww t) (thh t) c) by (intros X; apply NB; rewrite <- EP; apply (below_out L fnd HL Hcodes HF); auto).
    pose proof (len_t t Ht) as LT.
    unfold FA at 1. fold t c. rewrite (HA t c Ht DT NBt).
    rewrite (zsum_ext _ _ (zrange 0 (Z.to_nat (lenT t))) (fun s Is => on_split t s c Ht ltac:(apply zrange_In in Is; lia) DT NBt)). rewrite zsum_add.
    rewrite (zsum_swap (fun s d => if ebT t d c then (if onT t (posT t s) d then ain (t, s) else 0) else 0)).
    assert (LOC : zsum (fun d => if ebT t d c then a t d else 0) (dcT t) + zsum (fun d => zsum (fun s => if ebT t d c then (if onT t (posT t s) d then ain (t, s) else 0) else 0) (zrange 0 (Z.to_nat (lenT t)))) (dcT t) =
                  zsum (fun Q => if ebG Q P && teqb (tl L Q) t then FA Q else 0) dcG).
    { rewrite <- zsum_add. apply (zsum_bij _ _ _ _ (fun d Q => Q = gl L t d)).
      - apply dcells_NoDup.
      - apply dcells_NoDup.
      - intros d Id _. exists (gl L t d). split; [|auto]. apply dcells_In. apply dcells_In in Id. apply (dat_gl L fnd HL HF t d Ht (proj1 Id)). exact Id.
      - intros Q IQ NZ. destruct (ebG Q P) eqn:B; cbn [andb] in NZ; [|congruence]. destruct (teqb (tl L Q) t) eqn:T; [|congruence]. apply teqb_spec in T. apply dcells_In in IQ.
        destruct (dat_lo L fnd HL HF Q IQ) as [_ [_ X]]. rewrite T in X. exists (lo L Q). split; [apply dcells_In; exact X|]. rewrite <- T. symmetry. apply gl_lo; auto.
      - intros d Q Id IQ ->. apply dcells_In in Id. destruct (gl_present L Hbw Hbh t d Ht (proj1 Id)) as [_ [ET EL]]. rewrite ET, (proj2 (teqb_spec t t) eq_refl), andb_true_r.
        assert (EB : ebT t d c = ebG (gl L t d) P).
        { apply eq_true_iff_eq. rewrite !eb_iff. split; intros E.
          - rewrite <- EP. apply (edge_out L fnd HL HF); auto.
          - pose proof (edge_in L fnd HL HF P (gl L t d) E) as X. fold t c in X. rewrite EL in X. apply X. exact ET. }
        rewrite EB. destruct (ebG (gl L t d) P); [|rewrite zsum_zero by auto; reflexivity]. unfold FA. rewrite ET, EL. reflexivity.
      - intros d Q Q' _ _ _ -> ->. reflexivity.
      - intros d d' Q _ _ _ -> E. apply (gl_cancel L t). exact E. }
    assert (EXT : zsum (fun s => if ceqb (posT t s) c then ain (t, s) else 0) (zrange 0 (Z.to_nat (lenT t))) = zsum (fun Q => if ebG Q P && negb (teqb (tl L Q) t) then FA Q else 0) dcG).
    { assert (XD : forall Q, In Q dcG -> ebG Q P && negb (teqb (tl L Q) t) = true -> datG Q /\ edge recvG Q P /\ tl L Q <> t /\ nb8 Q P /\ rimT t c /\ rimT (tl L Q) (lo L Q) /\ folT (tl L Q) (lo L Q)).
      { intros Q IQ B. apply andb_true_iff in B. destruct B as [B T]. apply dcells_In in IQ. apply eb_iff in B. apply negb_true_iff in T. assert (TN : tl L Q <> t) by (intros Y; apply teqb_spec in Y; congruence).
        pose proof (edgeG_nb L fnd Hcodes Q P B) as N8. pose proof (datG_present L fnd Q IQ) as HQ. pose proof (datG_present L fnd P D) as HP. destruct (cross_rim L HL Q P HQ HP N8 TN) as [R1 R2].
        repeat (split; [solve [auto]|]). apply (cross_followed L HL Hpinch Q P); auto. }
      destruct (existsb (fun s => ceqb (posT t s) c) (zrange 0 (Z.to_nat (lenT t)))) eqn:EXB.
      - apply existsb_exists in EXB. destruct EXB as [s1 [I1 E1]]. apply zrange_In in I1. destruct (ceqb_spec (posT t s1) c) as [E1'|]; [|discriminate].
        assert (RM : rimT t c) by (rewrite <- E1'; apply pos_rim; [apply w1; auto|apply h2; auto|lia]).
        pose proof (ser_range _ _ (w1 t Ht) (h2 t Ht) c RM) as SR. set (s0 := serT t c) in *. assert (P0 : posT t s0 = c) by (apply pos_ser; auto).
        rewrite (zsum_one _ _ s0); [|apply zrange_NoDup|apply zrange_In; lia|].
        2:{ intros s Is NE. apply zrange_In in Is. destruct (ceqb_spec (posT t s) c) as [E|]; [|reflexivity]. destruct (Z.eq_dec (ain (t, s)) 0) as [|NZ]; [auto|]. destruct (enters t s Ht ltac:(lia) NZ) as [_ [CN _]]. exfalso. apply NE. rewrite <- CN, E. reflexivity. }
        rewrite P0. destruct (ceqb_spec c c); [|congruence].
        assert (In0 : In (t, s0) nodes) by (apply nodes_In; auto). assert (C0 : cellof (t, s0) = P) by (unfold cellof; cbn [fst snd]; rewrite P0; exact EP).
        assert (NL : ~ loop_upstream mout nodes (t, s0)) by (intros X; apply NB; rewrite <- C0; apply mloop; [exact X|rewrite C0; exact D]).
        rewrite (f_ain _ _ FIN (t, s0) In0 NL).
        assert (GO : forall d, In d nodes -> edge mout d (t, s0) -> t <> fst d -> edge recvG (cellof d) P /\ tl L (cellof d) = fst d /\ nodeof (cellof d) = d).
        { intros d Id Ed NE. destruct (cross_cell d (t, s0) Id Ed NE) as [_ [EC [_ [T1 _]]]]. rewrite C0 in EC. split; [|split; [exact T1|]].
          - destruct (medge_reach d (t, s0) Id Ed) as [Q [RQ EQ]]; [rewrite C0; exact D|]. pose proof (medge_dat d _ Id Ed) as Dd. apply edge_target. split; [exact Dd|]. rewrite <- EC. split; [|split; [exact D|reflexivity]].
            destruct d as [u r]. destruct (proj1 (cross_iff (u, r) (t, s0) Id) (conj Ed NE)) as [_ [_ [[_ [X _]] _]]]. cbn [fst snd] in X. apply nodes_In in Id. rewrite (tfd_whole L fnd HL HF u _ (proj1 Id) (pos_dom u r (proj1 Id) (proj2 Id))) in X. exact X.
          - destruct d as [u r]. destruct (proj1 (cross_iff (u, r) (t, s0) Id) (conj Ed NE)) as [_ [CN _]]. cbn [fst snd] in *. apply nodes_In in Id. destruct (cell_pos u r (proj1 Id) (proj2 Id)) as [_ [A B]]. unfold nodeof. rewrite A, B, CN. reflexivity. }
        assert (BACK : forall Q, In Q dcG -> ebG Q P && negb (teqb (tl L Q) t) = true -> In (nodeof Q) nodes /\ cellof (nodeof Q) = Q /\ edge mout (nodeof Q) (t, s0) /\ ext (nodeof Q) /\ ~ belowG Q).
        { intros Q IQ B. destruct (XD Q IQ B) as [DQ [EQ [TN [N8 [_ [RQ FQ]]]]]]. pose proof (datG_present L fnd Q DQ) as HQ. destruct (nodeof_ok Q HQ RQ) as [A1 [A2 [A3 A4]]]. destruct (dat_lo L fnd HL HF Q DQ) as [Hu [Du DuT]].
          assert (XQ : exitsT (tl L Q) (lo L Q)).
          { split; [exact DuT|]. apply edge_target in EQ. destruct EQ as [_ [NZ [_ EQ]]]. split; [rewrite (tfd_whole L fnd HL HF _ _ Hu Du), gl_lo by auto; exact NZ|].
            intros IR. apply TN. unfold t. rewrite EQ. rewrite <- (gl_lo L Hbw Hbh Q) at 2. rewrite (tg_gl L fnd HL HF _ _ Hu Du). symmetry. apply (gl_present L Hbw Hbh _ _ Hu). exact IR. }
          assert (NX : nxt (tl L Q) (lo L Q) = P).
          { rewrite <- (tg_gl L fnd HL HF _ _ Hu Du), gl_lo by auto. apply edge_target in EQ. symmetry. tauto. }
          split; [exact A1|]. split; [exact A2|]. split; [|split].
          - apply (proj2 (cross_iff (nodeof Q) (t, s0) A1)). cbn [nodeof fst]. change (serT (tl L Q) (lo L Q)) with (snd (nodeof Q)). rewrite A4, NX. split; [exact FQ|]. split; [reflexivity|]. split; [exact XQ|]. split; [apply (datG_present L fnd P D)|]. reflexivity.
          - unfold ext. cbn [nodeof fst]. change (serT (tl L Q) (lo L Q)) with (snd (nodeof Q)). rewrite A4. auto.
          - intros X. apply NB. apply (Hloop _ _ _ _ Hcodes). apply (Hloop _ _ _ _ Hcodes) in X. destruct X as [v [V1 [V2 V3]]]. exists v. split; [auto|]. split; [auto|]. eapply reach_step; eauto. }
        apply (zsum_bij _ _ _ _ (fun d Q => Q = cellof d /\ d = nodeof Q)).
        + apply nodes_NoDup.
        + apply dcells_NoDup.
        + intros d Id NZ. destruct (em d (t, s0)) eqn:EM; cbn [andb] in NZ; [|congruence]. apply em_iff in EM; [|exact Id]. destruct (crossb d (t, s0)) eqn:CB; [|congruence].
          unfold crossb in CB. apply negb_true_iff in CB. cbn [fst] in CB. assert (NE : t <> fst d) by (intros Y; apply teqb_spec in Y; congruence). destruct (GO d Id EM NE) as [G1 [G2 G3]].
          exists (cellof d). split; [apply dcells_In; apply edge_target in G1; tauto|]. split; [auto|]. auto.
        + intros Q IQ NZ. destruct (ebG Q P && negb (teqb (tl L Q) t)) eqn:B; [|congruence]. destruct (BACK Q IQ B) as [B1 [B2 _]]. exists (nodeof Q). split; [exact B1|]. split; [auto|]. reflexivity.
        + intros d Q Id IQ [EQ1 EQ2]. destruct (ebG Q P && negb (teqb (tl L Q) t)) eqn:B.
          * destruct (BACK Q IQ B) as [B1 [B2 [B3 [B4 B5]]]]. rewrite <- EQ2 in B1, B2, B3, B4. rewrite (proj2 (em_iff d _ Id) B3). assert (CB : crossb d (t, s0) = true).
            { unfold crossb. cbn [fst]. apply negb_true_iff. apply not_true_is_false. intros Y. apply teqb_spec in Y. destruct (XD Q IQ B) as [_ [_ [TN _]]]. apply TN. rewrite Y, EQ2. reflexivity. }
            rewrite CB. cbn [andb]. destruct d as [u r]. rewrite (ext_FA u r Id B4); rewrite B2; [reflexivity|exact B5].
          * destruct (em d (t, s0)) eqn:EM; cbn [andb]; [|reflexivity]. apply em_iff in EM; [|exact Id]. destruct (crossb d (t, s0)) eqn:CB; [|reflexivity]. exfalso.
            unfold crossb in CB. apply negb_true_iff in CB. cbn [fst] in CB. assert (NE : t <> fst d) by (intros Y; apply teqb_spec in Y; congruence). destruct (GO d Id EM NE) as [G1 [G2 G3]]. rewrite <- EQ1 in G1, G2.
            rewrite (proj2 (eb_iff _ _ _ _ Q P) G1) in B. cbn [andb] in B. apply negb_false_iff in B. apply teqb_spec in B. congruence.
        + intros d Q Q' _ _ _ [-> _] [-> _]. reflexivity.
        + intros d d' Q _ _ _ [_ ->] [_ ->]. reflexivity.
      - rewrite zsum_zero, zsum_zero; [reflexivity| |].
        + intros Q IQ. destruct (ebG Q P && negb (teqb (tl L Q) t)) eqn:B; [|reflexivity]. exfalso. destruct (XD Q IQ B) as [_ [_ [_ [_ [RM _]]]]].
          pose proof (ser_range _ _ (w1 t Ht) (h2 t Ht) c RM) as SR. apply not_true_iff_false in EXB. apply EXB. apply existsb_exists. exists (serT t c). split; [apply zrange_In; lia|]. rewrite pos_ser by auto. destruct (ceqb_spec c c); congruence.
        + intros s Is. destruct (ceqb (posT t s) c) eqn:B; [|reflexivity]. exfalso. apply not_true_iff_false in EXB. apply EXB. apply existsb_exists. exists s. auto. }
    rewrite (zsum_ext (fun Q => if ebG Q P then FA Q else 0) (fun Q => (if ebG Q P && teqb (tl L Q) t then FA Q else 0) + (if ebG Q P && negb (teqb (tl L Q) t) then FA Q else 0))) by (intros Q _; destruct (ebG Q P), (teqb (tl L Q) t); cbn [andb negb]; lia).
    rewrite zsum_add, <- LOC, <- EXT. lia.
  Qed.
End Master.
