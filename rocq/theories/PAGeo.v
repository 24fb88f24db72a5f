(** The big raster and its tiles: how flow within a tile and across tiles relates to flow on the whole. *)
From Coq Require Import ZArith List Lia Bool Permutation.
From Verif Require Import Base Res Kahn RasterSpec RasterFacts FlowModel FlowSpec FlowProofs ZhouProofs PPFModel PPFSpec PPFMaster PPFTop PAKahn PAModel PATile PAPath PASpec.
Open Scope Z_scope.

Lemma axis_move n b t x : 0 < b -> 0 <= t < ceil n b -> -1 <= x <= part n b t ->
  let t' := if x =? part n b t then t + 1 else if x =? -1 then t - 1 else t in
  let x' := if x =? part n b t then 0 else if x =? -1 then part n b t' - 1 else x in
  (t' < 0 \/ t' = ceil n b) /\ ~ 0 <= t * b + x < n \/
  0 <= t' < ceil n b /\ 0 <= t * b + x < n /\ (t * b + x) / b = t' /\ (t * b + x) mod b = x'.
Proof.
  intros Hb Ht Hx. pose proof (part_pos n b t Hb Ht) as PP. cbv zeta. destruct (Z.eqb_spec x (part n b t)) as [->|N1].
  - destruct (Z.eq_dec (t + 1) (ceil n b)) as [E|E].
    + left. split; [auto|]. rewrite (part_last n b t Hb) by lia. lia.
    + right. assert (R : 0 <= t + 1 < ceil n b) by lia. split; [exact R|]. rewrite part_full by lia. pose proof (part_pos n b (t + 1) Hb R).
      destruct (part_inv n b (t + 1) 0 Hb R) as [A [B C]]; [lia|]. replace (t * b + b) with ((t + 1) * b + 0) by lia. auto.
  - destruct (Z.eqb_spec x (-1)) as [->|N2].
    + destruct (Z.eq_dec t 0) as [->|E]; [left; lia|]. right. assert (R : 0 <= t - 1 < ceil n b) by lia. split; [exact R|].
      pose proof (part_full n b (t - 1) Hb ltac:(lia) ltac:(lia)) as PF. destruct (part_inv n b (t - 1) (b - 1) Hb R) as [A [B C]]; [lia|].
      rewrite PF. replace (t * b + -1) with ((t - 1) * b + (b - 1)) by lia. auto.
    + right. split; [exact Ht|]. destruct (part_inv n b t x Hb Ht) as [A [B C]]; [lia|]. auto.
Qed.

Section Geo.
  Variables (L : layout) (fnd : Z).
  Hypothesis HL : proper L.
  Let Hbw : 0 < bw L := proj1 (proj2 (proj2 HL)).
  Let Hbh : 0 < bh L := proj2 (proj2 (proj2 HL)).
  Hypothesis Hcodes : codes_ok (whole L fnd) fnd (W L) (PPFModel.H L).
  Hypothesis Hrows : two_rows L.
  Hypothesis Hfits : fits L.

  (** what LoadFromEvict holds for tile [t] *)
  Definition tfd (t : Z * Z) : grid Z :=
    if flipV L then fun x y => files L (fst t) (snd t) x (th L (snd t) - 1 - y) else files L (fst t) (snd t).
  Notation tww t := (tw L (fst t)).
  Notation thh t := (th L (snd t)).
  Notation TL := (tiles L).
  Hypothesis HF : flipH L = false.

  Lemma tfd_whole t c : In t TL -> tdom L t c -> tfd t (fst c) (snd c) = whole L fnd (fst (gl L t c)) (snd (gl L t c)).
  Proof.
    intros Ht Hc. destruct (gl_present L Hbw Hbh t c Ht Hc) as [[_ N] [ET EC]]. unfold whole. change (col L (fst (gl L t c))) with (fst (gl L t c) / bw L).
    change (row L (snd (gl L t c))) with (snd (gl L t c) / bh L). rewrite N. rewrite <- (E0_mosaic L). unfold E0, sc. rewrite ET, EC. unfold tfd, st. rewrite HF. cbn [fst snd].
    destruct (flipV L); reflexivity.
  Qed.
  Lemma th2 t : In t TL -> 2 <= thh t.
  Proof.
    intros Ht. apply tiles_In in Ht. destruct Ht as [_ [Hy _]]. destruct Hrows as [R1 R2]. change (thh t) with (part (PPFModel.H L) (bh L) (snd t)). change (gridheight L) with (ceil (PPFModel.H L) (bh L)) in Hy.
    pose proof (part_pos (PPFModel.H L) (bh L) (snd t) Hbh Hy) as PP. destruct (Z.eq_dec (snd t + 1) (ceil (PPFModel.H L) (bh L))) as [E|E].
    - pose proof (part_last (PPFModel.H L) (bh L) (snd t) Hbh ltac:(lia) ltac:(lia)) as PL. destruct (Z.eq_dec (part (PPFModel.H L) (bh L) (snd t)) 1) as [E1|]; [|lia].
      exfalso. apply R2. symmetry. apply (Z.mod_unique _ _ (snd t)); lia.
    - rewrite part_full; lia.
  Qed.
  Lemma tw1 t : In t TL -> 1 <= tww t.
  Proof. intros Ht. pose proof (tw_pos L Hbw t Ht). lia. Qed.
  Lemma plen_fits t : In t TL -> 2 <= plen (tww t) (thh t) <= 65528.
  Proof.
    intros Ht. pose proof (tw1 t Ht). pose proof (th2 t Ht). apply tiles_In in Ht. destruct Ht as [Hx [Hy _]]. unfold plen.
    assert (tww t <= Z.min (bw L) (W L)) by (unfold tw; destruct (Z.geb_spec (W L - fst t * bw L) (bw L)); nia).
    assert (thh t <= Z.min (bh L) (PPFModel.H L)) by (unfold th; destruct (Z.geb_spec (PPFModel.H L - snd t * bh L) (bh L)); nia).
    unfold fits in Hfits. lia.
  Qed.
  Lemma tcodes t : In t TL -> codes_ok (tfd t) fnd (tww t) (thh t).
  Proof.
    intros Ht x y R N. change (tfd t x y) with (tfd t (fst (x, y)) (snd (x, y))) in *. rewrite (tfd_whole t (x, y) Ht R) in *. apply Hcodes; [|exact N].
    apply (gl_present L Hbw Hbh t (x, y) Ht R).
  Qed.

  Notation datG := (data (whole L fnd) fnd (W L) (PPFModel.H L)).
  Notation datT t := (data (tfd t) fnd (tww t) (thh t)).
  Notation recvG := (FlowProofs.recv (whole L fnd) fnd (W L) (PPFModel.H L)).
  Notation recvT t := (FlowProofs.recv (tfd t) fnd (tww t) (thh t)).
  Notation tgG := (target (whole L fnd)).
  Notation tgT t := (target (tfd t)).

  Lemma datG_present P : datG P -> present L P.
  Proof. intros [R N]. split; [exact R|]. unfold whole in N. change (fst P / bw L) with (col L (fst P)). change (snd P / bh L) with (row L (snd P)). destruct (nul L _ _); [congruence|reflexivity]. Qed.
  Lemma dat_gl t c : In t TL -> tdom L t c -> (datT t c <-> datG (gl L t c)).
  Proof.
    intros Ht Hc. unfold data. rewrite (tfd_whole t c Ht Hc). destruct (gl_present L Hbw Hbh t c Ht Hc) as [[A _] _]. split; intros [_ B]; split; auto.
  Qed.
  Lemma tg_gl t c : In t TL -> tdom L t c -> tgG (gl L t c) = gl L t (tgT t c).
  Proof.
    intros Ht Hc. unfold target. rewrite (tfd_whole t c Ht Hc). unfold gl. cbn [fst snd]. f_equal; lia.
  Qed.
  Lemma gl_inj t c d : In t TL -> tdom L t c -> tdom L t d -> gl L t c = gl L t d -> c = d.
  Proof. intros Ht Hc Hd E. rewrite <- (proj2 (proj2 (gl_present L Hbw Hbh t c Ht Hc))), E. apply (gl_present L Hbw Hbh t d Ht Hd). Qed.
  Lemma gl_cancel t c d : gl L t c = gl L t d -> c = d.
  Proof. destruct c, d. unfold gl. cbn [fst snd]. intros E. injection E as E1 E2. f_equal; lia. Qed.
  Lemma dat_lo P : datG P -> In (tl L P) TL /\ tdom L (tl L P) (lo L P) /\ datT (tl L P) (lo L P).
  Proof.
    intros D. destruct (present_tile L Hbw Hbh P (datG_present P D)) as [A B]. split; [auto|]. split; [auto|]. apply dat_gl; auto. rewrite gl_lo by auto. exact D.
  Qed.

  Lemma edge_out t d c : In t TL -> edge (recvT t) d c -> edge recvG (gl L t d) (gl L t c).
  Proof.
    intros Ht E. apply edge_target in E. destruct E as [D [F [D' ->]]]. apply edge_target. pose proof (proj1 D) as Td. pose proof (proj1 D') as Tc.
    rewrite (tg_gl t d Ht Td). rewrite <- (tfd_whole t d Ht Td). split; [apply dat_gl; auto|]. split; [auto|]. split; [apply dat_gl; auto|auto].
  Qed.
  Lemma edge_in P Q : edge recvG Q P -> tl L Q = tl L P -> edge (recvT (tl L P)) (lo L Q) (lo L P).
  Proof.
    intros E ET. apply edge_target in E. destruct E as [D [F [D' EQ]]]. rewrite <- EQ in D'. destruct (dat_lo Q D) as [A [B C]]. destruct (dat_lo P D') as [A' [B' C']].
    rewrite ET in *. apply edge_target. split; [auto|]. split.
    - rewrite (tfd_whole _ _ A' B), <- ET, gl_lo by auto. exact F.
    - assert (X : tgT (tl L P) (lo L Q) = lo L P); [|rewrite X; auto].
      assert (Y : gl L (tl L P) (tgT (tl L P) (lo L Q)) = P) by (rewrite <- tg_gl by auto; rewrite <- ET, gl_lo by auto; auto).
      apply (gl_cancel (tl L P)). rewrite Y, gl_lo by auto. reflexivity.
  Qed.
  Lemma reach_out t d c : In t TL -> reach (recvT t) d c -> reach recvG (gl L t d) (gl L t c).
  Proof. intros Ht R. induction R; [constructor|]. eapply reach_step; [exact IHR|]. apply edge_out; auto. Qed.
  Lemma cycle_out t c : In t TL -> on_cycle (recvT t) c -> on_cycle recvG (gl L t c).
  Proof. intros Ht [d [R E]]. exists (gl L t d). split; [apply reach_out; auto|apply edge_out; auto]. Qed.
  Lemma below_out t c : In t TL -> below_loop (tfd t) fnd (tww t) (thh t) c -> below_loop (whole L fnd) fnd (W L) (PPFModel.H L) (gl L t c).
  Proof.
    intros Ht B. apply (Hloop _ _ _ _ (tcodes t Ht)) in B. apply (Hloop _ _ _ _ Hcodes). destruct B as [v [V [C R]]]. exists (gl L t v).
    split; [|split; [apply cycle_out; auto|apply reach_out; auto]]. apply dcells_In in V. apply dcells_In. apply dat_gl; auto. exact (proj1 V).
  Qed.

  (** ** Leaving a tile *)
  Lemma tg_bound fd c : -1 <= fst (target fd c) - fst c <= 1 /\ -1 <= snd (target fd c) - snd c <= 1.
  Proof. unfold target. cbn [fst snd]. pose proof (d8_step_bound (Z.to_nat (fd (fst c) (snd c)))). lia. Qed.
  Lemma tg_nb fd c : 1 <= fd (fst c) (snd c) <= 8 -> nb8 c (target fd c).
  Proof.
    intros R. unfold nb8. rewrite adjacent_iff. exists (Z.to_nat (fd (fst c) (snd c))). rewrite dirs_In. cbn [nmax]. unfold target. cbn [fst snd]. split; [lia|auto].
  Qed.
  Lemma edgeG_nb P Q : edge recvG P Q -> nb8 P Q.
  Proof.
    intros E. apply edge_target in E. destruct E as [D [F [_ ->]]]. apply tg_nb. pose proof (Hcodes _ _ (proj1 D) (proj2 D)). lia.
  Qed.
  Lemma tedge_rim P : present L P -> tedge L P -> rim (tww (tl L P)) (thh (tl L P)) (lo L P).
  Proof. intros HP TE. destruct (present_tile L Hbw Hbh P HP) as [_ D]. split; [exact D|]. exact TE. Qed.
  Lemma cross_rim P Q : present L P -> present L Q -> nb8 P Q -> tl L P <> tl L Q -> rim (tww (tl L P)) (thh (tl L P)) (lo L P) /\ rim (tww (tl L Q)) (thh (tl L Q)) (lo L Q).
  Proof.
    intros HP HQ N NE. split; apply tedge_rim; auto; [apply (cross_edge L Hbw Hbh P Q); auto|apply (cross_edge L Hbw Hbh Q P); auto; apply nb8_sym; auto].
  Qed.
  (** a cell of tile [t] whose direction leads out of the tile *)
  Lemma exits_tl t c : In t TL -> exits (tfd t) fnd (tww t) (thh t) c -> present L (gl L t (tgT t c)) -> tl L (gl L t (tgT t c)) <> t.
  Proof.
    intros Ht [_ [_ X]] HP E. apply X. destruct (present_tile L Hbw Hbh _ HP) as [_ D]. rewrite E in D.
    pose proof (gl_lo L Hbw Hbh (gl L t (tgT t c))) as G. rewrite E in G. apply gl_cancel in G. rewrite G in D. exact D.
  Qed.

  (** ** Borders between tiles *)
  Notation ed t := (tile_edges L (fst t) (snd t)).
  Lemma side_right t : In (fst t + 1, snd t) TL -> e_right (ed t) = false.
  Proof. intros Hu. apply tiles_In in Hu. cbn [fst snd] in Hu. destruct Hu as [A [B C]]. cbn [tile_edges e_right]. rewrite C, andb_false_r. cbn [orb]. apply Z.eqb_neq. lia. Qed.
  Lemma side_left t : In (fst t - 1, snd t) TL -> e_left (ed t) = false.
  Proof. intros Hu. apply tiles_In in Hu. cbn [fst snd] in Hu. destruct Hu as [A [B C]]. cbn [tile_edges e_left]. rewrite C, andb_false_r. cbn [orb]. apply Z.eqb_neq. lia. Qed.
  Lemma side_top t : In (fst t, snd t - 1) TL -> e_top (ed t) = false.
  Proof. intros Hu. apply tiles_In in Hu. cbn [fst snd] in Hu. destruct Hu as [A [B C]]. cbn [tile_edges e_top]. rewrite C, andb_false_r. cbn [orb]. apply Z.eqb_neq. lia. Qed.
  Lemma side_bot t : In (fst t, snd t + 1) TL -> e_bot (ed t) = false.
  Proof. intros Hu. apply tiles_In in Hu. cbn [fst snd] in Hu. destruct Hu as [A [B C]]. cbn [tile_edges e_bot]. rewrite C, andb_false_r. cbn [orb]. apply Z.eqb_neq. lia. Qed.

  Hypothesis Hpinch : no_pinch L.
  Lemma cross_followed P Q : present L P -> present L Q -> nb8 P Q -> tl L P <> tl L Q -> followed (tww (tl L P)) (thh (tl L P)) (ed (tl L P)) (lo L P).
  Proof.
    intros HP HQ N NE. destruct (nbr L Hbw Hbh (tl L P) (tl L Q) P Q) as [TP [TQ [DP [DQ [_ [_ [AX AY]]]]]]]; [split; auto|].
    split; [exact DP|]. pose proof (tw_full L Hbw (tl L P) TP) as FX. pose proof (th_full L Hbh (tl L P) TP) as FY. pose proof TQ as TQ'. apply tiles_In in TQ'. destruct TQ' as [QX [QY _]].
    assert (C : In (fst (tl L Q), snd (tl L P)) TL \/ In (fst (tl L P), snd (tl L Q)) TL).
    { destruct (Hpinch (fst P) (snd P) (fst Q) (snd Q) HP HQ N) as [X|X]; [right|left]; apply (present_tile L Hbw Hbh (_, _) X). }
    assert (EP : tl L P = (fst (tl L P), snd (tl L P))) by apply surjective_pairing. assert (EQ : tl L Q = (fst (tl L Q), snd (tl L Q))) by apply surjective_pairing.
    destruct AX as [[EX _]|[[EX [X1 _]]|[EX [X1 _]]]].
    - destruct AY as [[EY _]|[[EY [Y1 _]]|[EY [Y1 _]]]].
      + exfalso. apply NE. rewrite EP, EQ, EX, EY. reflexivity.
      + right; left. split; [|lia]. apply side_bot. rewrite <- EX, <- EY, <- EQ. exact TQ.
      + left. split; [|lia]. apply side_top. rewrite <- EX, <- EY, <- EQ. exact TQ.
    - destruct C as [C|C]; [right; right; right; split; [apply side_right; rewrite <- EX; exact C|lia]|].
      destruct AY as [[EY _]|[[EY [Y1 _]]|[EY [Y1 _]]]].
      + right; right; right. split; [|lia]. apply side_right. rewrite <- EX, <- EY, <- EQ. exact TQ.
      + right; left. split; [|lia]. apply side_bot. rewrite <- EY. exact C.
      + left. split; [|lia]. apply side_top. rewrite <- EY. exact C.
    - destruct C as [C|C]; [right; right; left; split; [apply side_left; rewrite <- EX; exact C|lia]|].
      destruct AY as [[EY _]|[[EY [Y1 _]]|[EY [Y1 _]]]].
      + right; right; left. split; [|lia]. apply side_left. rewrite <- EX, <- EY, <- EQ. exact TQ.
      + right; left. split; [|lia]. apply side_bot. rewrite <- EY. exact C.
      + left. split; [|lia]. apply side_top. rewrite <- EY. exact C.
  Qed.

  (** followed cells lie at a seam *)
  Lemma followed_seam t c : In t TL -> followed (tww t) (thh t) (ed t) c -> at_seam L (gl L t c).
  Proof.
    intros Ht [Dc F]. pose proof Ht as Ht'. apply tiles_In in Ht'. destruct Ht' as [TX [TY _]]. destruct (gl_present L Hbw Hbh t c Ht Dc) as [[[PX PY] _] [ET EC]].
    assert (G : fst (gl L t c) / bw L = fst t /\ snd (gl L t c) / bh L = snd t) by (split; [exact (f_equal fst ET)|exact (f_equal snd ET)]). destruct G as [GX GY].
    change (gridwidth L) with (ceil (W L) (bw L)) in TX. change (gridheight L) with (ceil (PPFModel.H L) (bh L)) in TY.
    unfold at_seam, same_tile, col, row. cbn [fst snd]. rewrite GX, GY. unfold in_raster. destruct Dc as [Dx Dy].
    change (tww t) with (part (W L) (bw L) (fst t)) in *. change (thh t) with (part (PPFModel.H L) (bh L) (snd t)) in *.
    unfold tile_edges in F. cbn [e_top e_bot e_left e_right] in F. rewrite !orb_false_iff, !Z.eqb_neq in F.
    change (gridwidth L) with (ceil (W L) (bw L)) in F. change (gridheight L) with (ceil (PPFModel.H L) (bh L)) in F.
    unfold gl in *. cbn [fst snd] in *. destruct F as [[[_ F] E]|[[[_ F] E]|[[[_ F] E]|[[_ F] E]]]].
    - destruct (axis_move (PPFModel.H L) (bh L) (snd t) (-1) Hbh TY) as [[_ X]|[R [A [B _]]]]; [lia|nia|].
      exists (fst t * bw L + fst c), (snd t * bh L + -1). split; [lia|]. split; [cbn; lia|]. rewrite B. destruct (Z.eqb_spec (-1) (part (PPFModel.H L) (bh L) (snd t))); [lia|]. cbn [Z.eqb Pos.eqb]. lia.
    - destruct (axis_move (PPFModel.H L) (bh L) (snd t) (part (PPFModel.H L) (bh L) (snd t)) Hbh TY) as [[[X|X] _]|[R [A [B _]]]]; [lia|rewrite Z.eqb_refl in X; lia|rewrite Z.eqb_refl in X; lia|].
      exists (fst t * bw L + fst c), (snd t * bh L + part (PPFModel.H L) (bh L) (snd t)). split; [lia|]. split; [cbn; lia|]. rewrite B, Z.eqb_refl. lia.
    - destruct (axis_move (W L) (bw L) (fst t) (-1) Hbw TX) as [[_ X]|[R [A [B _]]]]; [lia|nia|].
      exists (fst t * bw L + -1), (snd t * bh L + snd c). split; [lia|]. split; [cbn; lia|]. rewrite B. destruct (Z.eqb_spec (-1) (part (W L) (bw L) (fst t))); [lia|]. cbn [Z.eqb Pos.eqb]. lia.
    - destruct (axis_move (W L) (bw L) (fst t) (part (W L) (bw L) (fst t)) Hbw TX) as [[[X|X] _]|[R [A [B _]]]]; [lia|rewrite Z.eqb_refl in X; lia|rewrite Z.eqb_refl in X; lia|].
      exists (fst t * bw L + part (W L) (bw L) (fst t)), (snd t * bh L + snd c). split; [lia|]. split; [cbn; lia|]. rewrite B, Z.eqb_refl. lia.
  Qed.
  Lemma tl_same P Q : tl L P = tl L Q <-> same_tile L P Q.
  Proof. unfold tl, same_tile, col, row. split; [intros E; injection E; auto|intros [-> ->]; auto]. Qed.
  (** an edge that leaves its tile starts at a seam and ends at one *)
  Lemma cross_seam P Q : present L P -> present L Q -> nb8 P Q -> tl L P <> tl L Q -> at_seam L P.
  Proof.
    intros HP HQ N NE. destruct (present_tile L Hbw Hbh P HP) as [TP DP]. rewrite <- (gl_lo L Hbw Hbh P). apply followed_seam; [exact TP|]. apply (cross_followed P Q); auto.
  Qed.
  Lemma within_reach t c d : In t TL -> tdom L t c -> (reach (recvT t) c d -> within L fnd (gl L t c) (gl L t d)).
  Proof.
    intros Ht Hc R. induction R as [v|v d m R IH E]; [constructor|]. eapply within_on; [apply IH; auto|]. split.
    - apply (edge_gives _ _ _ _ Hcodes). apply edge_out; auto.
    - apply edge_target in E. destruct E as [D [_ [D' ->]]]. apply tl_same. rewrite (proj1 (proj2 (gl_present L Hbw Hbh t d Ht (proj1 D)))). symmetry. apply (gl_present L Hbw Hbh t _ Ht (proj1 D')).
  Qed.
  Lemma loops_trapped t c : In t TL -> tdom L t c -> loops (tfd t) fnd (tww t) (thh t) c -> trapped L fnd (gl L t c).
  Proof.
    intros Ht Hc [q [R [d [R' E]]]]. pose proof E as E0. apply edge_target in E0. destruct E0 as [D [_ [D' EQ]]]. rewrite <- EQ in D'.
    exists (gl L t q), (gl L t d). split; [apply within_reach; auto|]. split; [apply within_reach; auto; apply D'|]. split.
    - apply (edge_gives _ _ _ _ Hcodes). apply edge_out; auto.
    - apply tl_same. rewrite (proj1 (proj2 (gl_present L Hbw Hbh t d Ht (proj1 D)))). symmetry. apply (gl_present L Hbw Hbh t q Ht (proj1 D')).
  Qed.
  Lemma within_back P Q : within L fnd P Q -> tl L Q = tl L P /\ reach (recvT (tl L P)) (lo L P) (lo L Q).
  Proof.
    induction 1 as [P|P Q R W0 [E1 E2] [G ST]]; [split; [auto|constructor]|]. apply tl_same in ST. split; [congruence|].
    eapply reach_step; [exact E2|]. apply (edge_gives _ _ _ _ Hcodes) in G. pose proof (edge_in R Q G ST) as X. rewrite <- ST, E1 in X. exact X.
  Qed.
  Lemma trapped_loops P : trapped L fnd P -> loops (tfd (tl L P)) fnd (tww (tl L P)) (thh (tl L P)) (lo L P).
  Proof.
    intros [Q [R [A [B [G ST]]]]]. destruct (within_back P Q A) as [E1 R1]. destruct (within_back Q R B) as [E2 R2]. rewrite E1 in R2, E2.
    exists (lo L Q). split; [exact R1|]. exists (lo L R). split; [exact R2|]. apply (edge_gives _ _ _ _ Hcodes) in G. apply tl_same in ST. pose proof (edge_in Q R G ST) as X. rewrite E1 in X. exact X.
  Qed.
End Geo.
