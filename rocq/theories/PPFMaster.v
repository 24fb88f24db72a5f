(** The geometry of the tiles and the master graph. *)
From Coq Require Import ZArith List Lia Bool Permutation.
From Verif Require Import Base Res RasterSpec RasterFacts Kahn FlowModel FlowProofs PFModel PFProofs TraceFlood ZhouModel ZhouProofs PPFModel PPFTile PPFTile2 PPFGraph.
Open Scope Z_scope.

(** One axis: neighbouring coordinates lie in the same tile, or at the adjoining ends of neighbouring tiles. *)
Lemma axis b t x t' x' : 0 < b -> 0 <= x < b -> 0 <= x' < b -> Z.abs ((t * b + x) - (t' * b + x')) <= 1 ->
  t' = t \/ t' = t + 1 /\ x = b - 1 /\ x' = 0 \/ t' = t - 1 /\ x = 0 /\ x' = b - 1.
Proof.
  intros Hb Hx Hx' Ha. assert (D : t' <= t - 2 \/ t' = t - 1 \/ t' = t \/ t' = t + 1 \/ t + 2 <= t') by lia. destruct D as [D|[D|[D|[D|D]]]]; subst; auto.
  - exfalso. assert (t' * b <= (t - 2) * b) by nia. lia.
  - right. right. assert (E : (t - 1) * b = t * b - b) by ring. rewrite E in Ha. lia.
  - right. left. assert (E : (t + 1) * b = t * b + b) by ring. rewrite E in Ha. lia.
  - exfalso. assert ((t + 2) * b <= t' * b) by nia. lia.
Qed.

Definition ceil (n b : Z) : Z := (n + b - 1) / b.
Definition part (n b t : Z) : Z := if n - t * b >=? b then b else n - t * b.
Lemma part_pos n b t : 0 < b -> 0 <= t < ceil n b -> 0 < part n b t <= b.
Proof.
  intros Hb Ht. unfold part, ceil in *. pose proof (Z.mul_div_le (n + b - 1) b Hb). assert (t * b <= ((n + b - 1) / b - 1) * b) by nia.
  destruct (Z.geb_spec (n - t * b) b); lia.
Qed.
Lemma part_div n b x : 0 < b -> 0 <= x < n -> 0 <= x / b < ceil n b /\ 0 <= x mod b < part n b (x / b).
Proof.
  intros Hb Hx. pose proof (Z.div_mod x b ltac:(lia)) as E. pose proof (Z.mod_pos_bound x b Hb). split.
  - split; [apply Z.div_pos; lia|]. unfold ceil. assert (x / b + 1 <= (n + b - 1) / b); [|lia]. replace (x / b + 1) with ((x + b) / b) by (rewrite <- (Z.mul_1_l b) at 1; rewrite Z.div_add by lia; lia).
    apply Z.div_le_mono; lia.
  - unfold part. destruct (Z.geb_spec (n - x / b * b) b); lia.
Qed.
Lemma part_inv n b t x : 0 < b -> 0 <= t < ceil n b -> 0 <= x < part n b t -> 0 <= t * b + x < n /\ (t * b + x) / b = t /\ (t * b + x) mod b = x.
Proof.
  intros Hb Ht Hx. pose proof (part_pos n b t Hb Ht). split; [|split].
  - unfold part in *. destruct (Z.geb_spec (n - t * b) b); nia.
  - symmetry. apply (Z.div_unique _ b t x); lia.
  - symmetry. apply (Z.mod_unique _ b t x); lia.
Qed.
Lemma part_full n b t : 0 < b -> 0 <= t -> t + 1 < ceil n b -> part n b t = b.
Proof.
  intros Hb Ht H1. unfold part, ceil in *. pose proof (Z.mul_div_le (n + b - 1) b Hb). assert ((t + 2) * b <= (n + b - 1) / b * b) by nia.
  destruct (Z.geb_spec (n - t * b) b); lia.
Qed.
Lemma part_last n b t : 0 < b -> 0 <= t -> t = ceil n b - 1 -> t * b + part n b t = n.
Proof.
  intros Hb Ht ->. unfold part, ceil. pose proof (Z.mul_succ_div_gt (n + b - 1) b Hb).
  destruct (Z.geb_spec (n - ((n + b - 1) / b - 1) * b) b); nia.
Qed.

Section Master.
  Variable L : layout.
  Hypothesis HW : 0 < W L.
  Hypothesis HH : 0 < H L.
  Hypothesis Hbw : 0 < bw L.
  Hypothesis Hbh : 0 < bh L.
  Definition tpart (t : Z * Z) : Z * Z := (tw L (fst t), th L (snd t)).

  Lemma tiles_In t : In t (tiles L) <-> 0 <= fst t < gridwidth L /\ 0 <= snd t < gridheight L /\ nul L (fst t) (snd t) = false.
  Proof.
    unfold tiles. rewrite filter_In, negb_true_iff. destruct t as [x y]. rewrite scan_In. unfold in_raster. cbn [fst snd]. tauto.
  Qed.
  Lemma tiles_NoDup : NoDup (tiles L).
  Proof. unfold tiles. apply NoDup_filter. apply scan_NoDup. Qed.
  Lemma tw_pos t : In t (tiles L) -> 0 < tw L (fst t) <= bw L.
  Proof. intros Ht. apply tiles_In in Ht. apply (part_pos (W L)); auto. tauto. Qed.
  Lemma th_pos t : In t (tiles L) -> 0 < th L (snd t) <= bh L.
  Proof. intros Ht. apply tiles_In in Ht. apply (part_pos (H L)); auto. tauto. Qed.

  (** tile, place within the tile, place within the file *)
  Definition tl (P : cellt) : Z * Z := (fst P / bw L, snd P / bh L).
  Definition lo (P : cellt) : cellt := (fst P mod bw L, snd P mod bh L).
  Definition st (t : Z * Z) (c : cellt) : cellt :=
    (if flipH L then tw L (fst t) - 1 - fst c else fst c, if flipV L then th L (snd t) - 1 - snd c else snd c).
  Definition gl (t : Z * Z) (c : cellt) : cellt := (fst t * bw L + fst c, snd t * bh L + snd c).
  Definition sc (P : cellt) : cellt := st (tl P) (lo P).
  Definition tdom (t : Z * Z) (c : cellt) : Prop := zdom (tw L (fst t)) (th L (snd t)) c.
  Definition present (P : cellt) : Prop := in_raster (W L) (H L) (fst P) (snd P) /\ nul L (fst P / bw L) (snd P / bh L) = false.

  Lemma present_tile P : present P -> In (tl P) (tiles L) /\ tdom (tl P) (lo P).
  Proof.
    intros [[X Y] N]. destruct (part_div (W L) (bw L) (fst P) Hbw X) as [A B]. destruct (part_div (H L) (bh L) (snd P) Hbh Y) as [C D].
    split; [apply tiles_In; auto|]. split; cbn [fst snd tl lo]; auto.
  Qed.
  Lemma gl_lo P : gl (tl P) (lo P) = P.
  Proof.
    destruct P as [X Y]. unfold gl, tl, lo. cbn [fst snd]. f_equal; [rewrite (Z.div_mod X (bw L)) at 3 by lia|rewrite (Z.div_mod Y (bh L)) at 3 by lia]; lia.
  Qed.
  Lemma gl_present t c : In t (tiles L) -> tdom t c -> present (gl t c) /\ tl (gl t c) = t /\ lo (gl t c) = c.
  Proof.
    intros Ht [X Y]. apply tiles_In in Ht. destruct Ht as [A [B N]]. destruct t as [tx ty], c as [x y]. cbn [fst snd] in *.
    destruct (part_inv (W L) (bw L) tx x Hbw A X) as [X1 [X2 X3]]. destruct (part_inv (H L) (bh L) ty y Hbh B Y) as [Y1 [Y2 Y3]].
    unfold present, tl, lo, gl. cbn [fst snd]. rewrite X2, Y2, X3, Y3. split; [split; [split; auto|auto]|auto].
  Qed.
  Lemma st_dom t c : tdom t c -> tdom t (st t c).
  Proof. intros [X Y]. unfold st. split; cbn [fst snd]; destruct (flipH L), (flipV L); lia. Qed.
  Lemma st_st t c : st t (st t c) = c.
  Proof. destruct c as [x y]. unfold st. cbn [fst snd]. destruct (flipH L), (flipV L); f_equal; lia. Qed.
  Lemma st_nb t a b : nb8 a b -> nb8 (st t a) (st t b).
  Proof.
    intros [N [A B]]. unfold nb8, st. cbn [fst snd]. unfold adjacent. split; [|destruct (flipH L), (flipV L); lia].
    intros E. apply N. injection E as E1 E2. destruct (flipH L), (flipV L); f_equal; lia.
  Qed.
  Lemma gl_nb t a b : nb8 a b -> nb8 (gl t a) (gl t b).
  Proof.
    intros [N [A B]]. unfold nb8, gl. cbn [fst snd]. unfold adjacent. split; [|lia]. intros E. apply N. injection E as E1 E2. f_equal; lia.
  Qed.
  Lemma lo_nb P Q : nb8 P Q -> tl P = tl Q -> nb8 (lo P) (lo Q).
  Proof.
    intros [N [A B]] E. pose proof (gl_lo P) as GP. pose proof (gl_lo Q) as GQ. rewrite <- E in GQ. unfold nb8, adjacent, gl in *.
    rewrite <- !surjective_pairing in *. rewrite <- GP, <- GQ in N, A, B at 1. cbn [fst snd] in A, B.
    set (a := lo P) in *. set (b := lo Q) in *. set (t := tl P) in *. clearbody a b t. split; [|lia].
    intros E'. apply N. congruence.
  Qed.
  Lemma sc_nb P Q : nb8 P Q -> tl P = tl Q -> nb8 (sc P) (sc Q).
  Proof. intros N E. unfold sc. rewrite <- E. apply st_nb, lo_nb; auto. Qed.
  Lemma sc_dom P : present P -> tdom (tl P) (sc P).
  Proof. intros HP. apply st_dom. apply (present_tile P HP). Qed.
  Lemma sc_gl t a : In t (tiles L) -> tdom t a -> present (gl t (st t a)) /\ tl (gl t (st t a)) = t /\ sc (gl t (st t a)) = a.
  Proof.
    intros Ht Ha. destruct (gl_present t (st t a) Ht (st_dom t a Ha)) as [A [B C]]. split; [auto|]. split; [auto|]. unfold sc. rewrite B, C. apply st_st.
  Qed.

  (** ** What the consumers hand over *)
  Variable r : Z * Z -> tile.
  Definition touts (t : Z * Z) : list cellt := outside (tw L (fst t)) (th L (snd t)) (tile_edges L (fst t) (snd t)) (flipH L) (flipV L).
  Hypothesis Hr : forall t, In t (tiles L) -> tile_spec (tw L (fst t)) (th L (snd t)) (touts t) (files L (fst t) (snd t)) (r t).
  Variable jobs : Z -> Z -> job.
  Hypothesis Hj : forall t, In t (tiles L) -> jobs (fst t) (snd t) = FirstRound L t (r t).
  Hypothesis Hn : forall tx ty, 0 <= tx < gridwidth L -> 0 <= ty < gridheight L -> nul L tx ty = true -> j_n (jobs tx ty) = 0.

  Definition FF (P : cellt) : Z := t_dem (r (tl P)) (sc P).
  Definition lb (P : cellt) : Z := t_lab (r (tl P)) (sc P).
  Definition nn (t : Z * Z) : Z := t_n (r t).

  Lemma fr_n t x : j_n (FirstRound L t x) = t_n x /\ j_g (FirstRound L t x) = t_g x /\ j_w (FirstRound L t x) = tw L (fst t) /\ j_h (FirstRound L t x) = th L (snd t).
  Proof. unfold FirstRound. destruct (flipH L), (flipV L); cbn; auto. Qed.
  Lemma fr_vec t x i : let j := FirstRound L t x in
    j_te j i = t_dem x (st t (i, 0)) /\ j_be j i = t_dem x (st t (i, th L (snd t) - 1)) /\ j_le j i = t_dem x (st t (0, i)) /\ j_re j i = t_dem x (st t (tw L (fst t) - 1, i)) /\
    j_tl j i = t_lab x (st t (i, 0)) /\ j_bl j i = t_lab x (st t (i, th L (snd t) - 1)) /\ j_ll j i = t_lab x (st t (0, i)) /\ j_rl j i = t_lab x (st t (tw L (fst t) - 1, i)).
  Proof.
    unfold FirstRound, st. cbn [fst snd]. destruct (flipH L), (flipV L); cbn; unfold revv;
      repeat (split; [first [reflexivity|f_equal; f_equal; lia]|]); first [reflexivity|f_equal; f_equal; lia].
  Qed.

  Lemma lb_range P : present P -> 2 <= lb P < nn (tl P).
  Proof. intros HP. destruct (present_tile P HP) as [A _]. apply (ts_lab _ _ _ _ _ (Hr _ A)). apply sc_dom. exact HP. Qed.
  Lemma nn_pos t : In t (tiles L) -> 3 <= nn t.
  Proof.
    intros Ht. pose proof (tw_pos t Ht). pose proof (th_pos t Ht). destruct (ts_lab _ _ _ _ _ (Hr t Ht) (0, 0)); [split; cbn; lia|]. unfold nn. lia.
  Qed.

  (** ** Merging the graphs *)
  Fixpoint sumn (ts : list (Z * Z)) : Z := match ts with [] => 0 | t :: ts => nn t + sumn ts end.
  Lemma sumn_app a b : sumn (a ++ b) = sumn a + sumn b.
  Proof. induction a; cbn [sumn app]; lia. Qed.
  Lemma sumn_nonneg ts : (forall t, In t ts -> In t (tiles L)) -> 0 <= sumn ts.
  Proof. induction ts as [|a ts IH]; cbn [sumn]; intros HI; [lia|]. pose proof (nn_pos a (HI a (or_introl eq_refl))). assert (0 <= sumn ts) by (apply IH; intros; apply HI; right; auto). lia. Qed.
  Lemma max_sum : fold_left (fun m t => m + j_n (jobs (fst t) (snd t))) (scan (gridwidth L) (gridheight L)) 0 = sumn (tiles L).
  Proof.
    unfold tiles. assert (IN : forall t, In t (scan (gridwidth L) (gridheight L)) -> 0 <= fst t < gridwidth L /\ 0 <= snd t < gridheight L).
    { intros [x y]. rewrite scan_In. auto. }
    assert (G : forall q m, (forall t, In t q -> 0 <= fst t < gridwidth L /\ 0 <= snd t < gridheight L) ->
      fold_left (fun m t => m + j_n (jobs (fst t) (snd t))) q m = m + sumn (filter (fun t => negb (nul L (fst t) (snd t))) q)).
    { induction q as [|t q IH]; intros m Hq; cbn [fold_left filter]; [cbn; lia|]. destruct (Hq t (or_introl eq_refl)) as [A B].
      rewrite IH by (intros; apply Hq; right; auto). destruct (nul L (fst t) (snd t)) eqn:N; cbn [negb].
      - rewrite Hn by auto. lia.
      - cbn [sumn]. rewrite (Hj t) by (apply tiles_In; auto). destruct (fr_n t (r t)) as [-> _]. unfold nn. lia. }
    rewrite G by exact IN. lia.
  Qed.

  (** [g]: the graph of one tile, its entries shifted by [off] *)
  Section Merge.
    Variables (max off : Z) (j : job) (mg0 : sgraph).
    Hypothesis Hoff : 0 <= off.
    Hypothesis Hfit : off + j_n j <= max.
    Hypothesis Hg : forall l k v, j_g j l k = Some v -> 1 <= l < k /\ k < j_n j.
    Hypothesis Hmg0 : forall a b v, mg0 a b = Some v -> a < off + 2 /\ b < off + 2.
    Definition sh := shift off.
    Lemma sh_inj l k : 1 <= l -> 1 <= k -> sh l = sh k -> l = k.
    Proof. unfold sh, shift. intros A B. destruct (Z.gtb_spec l 1), (Z.gtb_spec k 1); lia. Qed.
    Definition MI (D : Z -> Z -> Prop) (mg : sgraph) : Prop :=
      (forall l k v, D l k -> j_g j l k = Some v -> mg (sh l) (sh k) = Some v /\ mg (sh k) (sh l) = Some v) /\
      (forall a b v, mg a b = Some v -> mg0 a b = Some v \/ exists l k, j_g j l k = Some v /\ (a = sh l /\ b = sh k \/ a = sh k /\ b = sh l)) /\
      (forall a b v, mg0 a b = Some v -> mg a b = Some v).
    Lemma MI_ext (D D' : Z -> Z -> Prop) mg : (forall l k, j_g j l k <> None -> D' l k -> D l k) -> MI D mg -> MI D' mg.
    Proof. intros E [A B]. split; [|exact B]. intros l k v Dl Ev. apply A; auto. apply E; auto. congruence. Qed.

    Lemma put_MI D mg l k v : MI D mg -> j_g j l k = Some v -> MI (fun l' k' => D l' k' \/ l' = l /\ k' = k) (gput (gput mg (sh l) (sh k) v) (sh k) (sh l) v).
    Proof.
      intros [A [B C]] Ev. destruct (Hg _ _ _ Ev) as [R1 R2].
      assert (NE : sh l <> sh k) by (intros E; apply sh_inj in E; lia).
      assert (SK : off + 2 <= sh k) by (unfold sh, shift; destruct (Z.gtb_spec k 1); lia).
      split; [|split].
      - intros l' k' v' Dl Ev'. destruct (Hg _ _ _ Ev') as [R1' R2'].
        assert (NE' : sh l' <> sh k') by (intros E; apply sh_inj in E; lia).
        destruct (Z.eq_dec l' l) as [->|Nl]; [destruct (Z.eq_dec k' k) as [->|Nk]|].
        + assert (v' = v) by congruence. subst v'. rewrite gput_same. rewrite gput_other by auto. rewrite gput_same. auto.
        + assert (N : sh k' <> sh k) by (intros E; apply sh_inj in E; lia). destruct Dl as [Dl|[_ ?]]; [|contradiction]. destruct (A _ _ _ Dl Ev') as [A1 A2].
          assert (N2 : sh l <> sh k' \/ True) by auto.
          rewrite !gput_other; auto.
        + assert (N : sh l' <> sh l) by (intros E; apply sh_inj in E; lia). destruct Dl as [Dl|[? _]]; [|contradiction]. destruct (A _ _ _ Dl Ev') as [A1 A2].
          assert (X : ~ (sh l' = sh k /\ sh k' = sh l)) by (intros [E1 E2]; apply sh_inj in E1; try lia; apply sh_inj in E2; lia).
          assert (X1 : sh l' <> sh k \/ sh k' <> sh l) by lia. assert (X2 : sh k' <> sh l \/ sh l' <> sh k) by lia.
          rewrite !gput_other; auto.
      - intros a b v' E. apply gput_cases in E. destruct E as [[-> [-> ->]]|E]; [right; exists l, k; auto|]. apply gput_cases in E.
        destruct E as [[-> [-> ->]]|E]; [right; exists l, k; auto|auto].
      - intros a b v' E. destruct (Hmg0 _ _ _ E). rewrite !gput_other by lia. auto.
    Qed.

    Lemma merge_ok mg : MI (fun _ _ => False) mg -> exists mg', merge max off j mg = Ok mg' /\ MI (fun _ _ => True) mg'.
    Proof.
      intros I0. unfold merge.
      destruct (forM_inv (fun done mg => MI (fun l k => In l done) mg) (fun l mg =>
        forM (zrange 0 (Z.to_nat (j_n j))) (fun k mg => match j_g j l k with None => Ok mg | Some v =>
            let a := shift off l in let b := shift off k in if (a <? max) && (b <? max) then Ok (gput (gput mg a b v) b a v) else Thrown end) mg)
        (zrange 0 (Z.to_nat (j_n j)))) with (s := mg) as [mg' [E I]].
      - intros done l rest s _ I.
        destruct (forM_inv (fun dk mg => MI (fun l' k => In l' done \/ l' = l /\ In k dk) mg) (fun k mg => match j_g j l k with None => Ok mg | Some v =>
            let a := shift off l in let b := shift off k in if (a <? max) && (b <? max) then Ok (gput (gput mg a b v) b a v) else Thrown end)
          (zrange 0 (Z.to_nat (j_n j)))) with (s := s) as [s' [E' I']].
        + intros dk k rk s1 _ I1. destruct (j_g j l k) as [v|] eqn:Ev.
          * destruct (Hg _ _ _ Ev) as [R1 R2]. cbv zeta.
            assert (A1 : (shift off l <? max) = true) by (apply Z.ltb_lt; unfold shift; destruct (Z.gtb_spec l 1); lia).
            assert (A2 : (shift off k <? max) = true) by (apply Z.ltb_lt; unfold shift; destruct (Z.gtb_spec k 1); lia).
            rewrite A1, A2. cbn [andb]. eexists. split; [reflexivity|]. eapply MI_ext; [|apply (put_MI _ _ l k v I1 Ev)].
            cbn beta. intros l' k' _ [?|[? Hk]]; [auto|]. apply in_app_iff in Hk. cbn [In] in Hk. intuition auto.
          * exists s1. split; [reflexivity|]. eapply MI_ext; [|exact I1]. cbn beta. intros l' k' Nn [?|[-> Hk]]; [auto|]. apply in_app_iff in Hk. cbn [In] in Hk.
            destruct Hk as [Hk|[<-|[]]]; [auto|congruence].
        + eapply MI_ext; [|exact I]. cbn. intros l' k' _ [?|[_ []]]; auto.
        + exists s'. split; [exact E'|]. eapply MI_ext; [|exact I']. cbn beta. intros l' k' Nn Hl. apply in_app_iff in Hl. cbn [In] in Hl.
          destruct Hl as [?|[<-|[]]]; [auto|right]. split; auto. apply zrange_In. destruct (j_g j l k') as [v|] eqn:Ev; [|congruence]. destruct (Hg _ _ _ Ev). lia.
      - eapply MI_ext; [|exact I0]. auto.
      - exists mg'. split; [exact E|]. eapply MI_ext; [|exact I]. cbn beta. intros l k Nn _. apply zrange_In.
        destruct (j_g j l k) as [v|] eqn:Ev; [|congruence]. destruct (Hg _ _ _ Ev). lia.
    Qed.
  End Merge.

  Record offsets (ts : list (Z * Z)) (offset : Z) (offs : Z -> Z -> Z) : Prop := {
    of_sum : offset = sumn ts;
    of_range : forall t, In t ts -> 0 <= offs (fst t) (snd t) /\ offs (fst t) (snd t) + nn t <= offset;
    of_disj : forall t t', In t ts -> In t' ts -> t <> t' -> offs (fst t) (snd t) + nn t <= offs (fst t') (snd t') \/ offs (fst t') (snd t') + nn t' <= offs (fst t) (snd t) }.

  Definition entry (offs : Z -> Z -> Z) (t : Z * Z) (l k v a b : Z) : Prop :=
    t_g (r t) l k = Some v /\ (a = shift (offs (fst t) (snd t)) l /\ b = shift (offs (fst t) (snd t)) k \/ a = shift (offs (fst t) (snd t)) k /\ b = shift (offs (fst t) (snd t)) l).

  Lemma tg_range t l k v : In t (tiles L) -> t_g (r t) l k = Some v -> 1 <= l < k /\ k < nn t.
  Proof.
    intros Ht E. destruct (ts_sound _ _ _ _ _ (Hr t Ht) _ _ _ E) as [[A [B _]]|[-> [a [Da [_ [La _]]]]]].
    - unfold nn. lia.
    - destruct (ts_lab _ _ _ _ _ (Hr t Ht) a Da). unfold nn. lia.
  Qed.

  Lemma merge_all_ok : exists offs mg, merge_all L (sumn (tiles L)) jobs = Ok (sumn (tiles L), (offs, mg)) /\ offsets (tiles L) (sumn (tiles L)) offs /\
    (forall t l k v a b, In t (tiles L) -> entry offs t l k v a b -> mg a b = Some v) /\
    (forall a b v, mg a b = Some v -> exists t l k, In t (tiles L) /\ entry offs t l k v a b).
  Proof.
    unfold merge_all. set (body := fun (t : Z * Z) (s : Z * ((Z -> Z -> Z) * sgraph)) => _).
    destruct (forM_inv (fun done (s : Z * ((Z -> Z -> Z) * sgraph)) => let '(offset, (offs, mg)) := s in offsets done offset offs /\
      (forall t l k v a b, In t done -> entry offs t l k v a b -> mg a b = Some v) /\
      (forall a b v, mg a b = Some v -> exists t l k, In t done /\ entry offs t l k v a b)) body (tiles L)) with
      (s := (0, ((fun _ _ : Z => 0), (fun _ _ : Z => @None Z)))) as [[offset [offs mg]] [E [O [C S]]]].
    - intros done t rest [offset [offs mg]] ET [O [C S]]. unfold body.
      assert (SUB : forall u, In u (done ++ [t]) -> In u (tiles L)) by (intros u Hu; rewrite ET; apply in_app_iff in Hu; apply in_app_iff; cbn [In] in *; tauto).
      assert (Ht : In t (tiles L)) by (apply SUB, in_app_iff; right; left; auto).
      assert (Nt : ~ In t done) by (intros Hd; pose proof tiles_NoDup as ND; rewrite ET in ND; apply NoDup_remove_2 in ND; apply ND, in_app_iff; auto).
      destruct O as [O1 O2 O3]. destruct (fr_n t (r t)) as [N1 [N2 _]]. rewrite (Hj t Ht).
      assert (OFF0 : 0 <= offset) by (rewrite O1; apply sumn_nonneg; intros u Hu; apply SUB, in_app_iff; auto).
      assert (FIT : offset + nn t <= sumn (tiles L)).
      { rewrite ET, sumn_app. cbn [sumn]. assert (0 <= sumn rest); [|lia]. apply sumn_nonneg. intros u Hu. rewrite ET. apply in_app_iff. right. right. exact Hu. }
      assert (OT : forall u, In u done -> jset offs t offset (fst u) (snd u) = offs (fst u) (snd u)).
      { intros u Hu. unfold jset. apply gset_other. intros EE. apply Nt. destruct t, u; cbn in EE; congruence. }
      assert (OS : jset offs t offset (fst t) (snd t) = offset) by (unfold jset; apply gset_same).
      destruct (merge_ok (sumn (tiles L)) offset (FirstRound L t (r t)) mg OFF0) with (mg := mg) as [mg' [EM [M1 [M2 M3]]]].
      { rewrite N1. exact FIT. }
      { intros l k v. rewrite N1, N2. apply tg_range. exact Ht. }
      { intros a b v Eab. destruct (S a b v Eab) as [u [l [k [Hu [Eu Hab]]]]]. destruct (tg_range u l k v) as [R1 R2]; [apply SUB, in_app_iff; auto|exact Eu|].
        destruct (O2 u Hu). destruct Hab as [[-> ->]|[-> ->]]; unfold shift; destruct (Z.gtb_spec l 1), (Z.gtb_spec k 1); lia. }
      { split; [intros l k v []|]. split; [auto|auto]. }
      rewrite EM. cbn [bind]. eexists. split; [reflexivity|]. split; [|split].
      + constructor.
        * rewrite N1, O1, sumn_app. cbn [sumn]. unfold nn. lia.
        * intros u Hu. pose proof (nn_pos u (SUB u Hu)). apply in_app_iff in Hu. cbn [In] in Hu. rewrite N1. fold (nn t). pose proof (nn_pos t Ht). destruct Hu as [Hu|[<-|[]]].
          -- rewrite OT by auto. destruct (O2 u Hu). lia.
          -- rewrite OS. lia.
        * intros u u' Hu Hu' Ne. apply in_app_iff in Hu, Hu'. cbn [In] in Hu, Hu'. destruct Hu as [Hu|[<-|[]]], Hu' as [Hu'|[<-|[]]].
          -- rewrite !OT by auto. auto.
          -- rewrite OS, (OT u) by auto. destruct (O2 u Hu). left. lia.
          -- rewrite OS, (OT u') by auto. destruct (O2 u' Hu'). right. lia.
          -- contradiction.
      + intros u l k v a b Hu [Eu Hab]. apply in_app_iff in Hu. cbn [In] in Hu. destruct Hu as [Hu|[<-|[]]].
        * rewrite OT in Hab by auto. apply M3. apply (C u l k v); auto. split; auto.
        * rewrite OS in Hab. rewrite N2 in M1. destruct (M1 l k v I Eu) as [A1 A2]. unfold sh in A1, A2. destruct Hab as [[-> ->]|[-> ->]]; auto.
      + intros a b v Eab. destruct (M2 a b v Eab) as [E0|[l [k [Eg Hab]]]].
        * destruct (S a b v E0) as [u [l [k [Hu [Eu Hab]]]]]. exists u, l, k. split; [apply in_app_iff; auto|]. split; auto. rewrite OT by auto. exact Hab.
        * exists t, l, k. split; [apply in_app_iff; right; left; auto|]. rewrite N2 in Eg. split; auto. rewrite OS. exact Hab.
    - split; [constructor; [reflexivity|intros t []|intros t t' []]|]. split; [intros t l k v a b []|discriminate].
    - rewrite E. exists offs, mg. destruct O as [O1 O2 O3]. rewrite O1 in *. split; [reflexivity|]. split; [constructor; auto|auto].
  Qed.

  (** ** Meetings across the sides and corners of tiles *)
  Section Handle.
  Variable offs : Z -> Z -> Z.
  Definition M : Z := sumn (tiles L).
  Hypothesis HO : offsets (tiles L) M offs.
  Definition oft (t : Z * Z) : Z := offs (fst t) (snd t).
  Definition node (P : cellt) : Z := oft (tl P) + lb P.
  Definition outl (P : cellt) : Prop := present P /\ In (sc P) (touts (tl P)).

  Lemma node_range P : present P -> 2 <= node P < M.
  Proof.
    intros HP. pose proof (lb_range P HP). destruct (present_tile P HP) as [A _]. destruct (of_range _ _ _ HO _ A). unfold node, oft. lia.
  Qed.
  Lemma node_inj P Q : present P -> present Q -> node P = node Q -> tl P = tl Q /\ lb P = lb Q.
  Proof.
    intros HP HQ E. pose proof (lb_range P HP). pose proof (lb_range Q HQ). destruct (present_tile P HP) as [A _]. destruct (present_tile Q HQ) as [B _].
    unfold node, oft in E. destruct (cell_eq_dec (tl P) (tl Q)) as [Et|Nt].
    - split; auto. rewrite Et in E. lia.
    - destruct (of_disj _ _ _ HO _ _ A B Nt); lia.
  Qed.

  Definition Sd (mg : sgraph) : Prop := forall a b v, mg a b = Some v ->
    (exists P Q, present P /\ present Q /\ nb8 P Q /\ a = node P /\ b = node Q /\ v = Z.max (FF P) (FF Q)) \/
    (exists P, outl P /\ v = FF P /\ (a = 1 /\ b = node P \/ a = node P /\ b = 1)).
  Definition gsym (mg : sgraph) : Prop := forall a b, mg a b = mg b a.
  Definition good (mg : sgraph) : Prop := Sd mg /\ gsym mg.
  Definition has (mg : sgraph) (P Q : cellt) : Prop := exists v, mg (node P) (node Q) = Some v /\ v <= Z.max (FF P) (FF Q).
  Lemma has_gle mg mg' P Q : gle mg mg' -> has mg P Q -> has mg' P Q.
  Proof. intros G [v [E Le]]. destruct (G _ _ _ E) as [v' [E' Le']]. exists v'. split; auto. lia. Qed.

  Definition step (f : sgraph -> res sgraph) (R : cellt -> cellt -> Prop) : Prop :=
    forall mg, good mg -> exists mg', f mg = Ok mg' /\ good mg' /\ gle mg mg' /\ forall P Q, R P Q -> has mg' P Q.
  Lemma step_weak f (R R' : cellt -> cellt -> Prop) : step f R -> (forall P Q, R' P Q -> R P Q) -> step f R'.
  Proof. intros Hf I mg G. destruct (Hf mg G) as [mg' [E [A [B C]]]]. exists mg'. auto 8. Qed.
  Lemma step_ok (R : cellt -> cellt -> Prop) : (forall P Q, ~ R P Q) -> step (fun mg => Ok mg) R.
  Proof. intros N mg G. exists mg. split; [auto|]. split; [auto|]. split; [apply gle_refl|]. intros P Q HR. destruct (N P Q HR). Qed.
  Lemma step_bind f g (R1 R2 : cellt -> cellt -> Prop) : step f R1 -> step g R2 -> step (fun mg => do x <- f mg; g x) (fun P Q => R1 P Q \/ R2 P Q).
  Proof.
    intros Hf Hg mg G. destruct (Hf mg G) as [m1 [E1 [A1 [B1 C1]]]]. destruct (Hg m1 A1) as [m2 [E2 [A2 [B2 C2]]]]. exists m2. rewrite E1. cbn [bind].
    split; [auto|]. split; [auto|]. split; [eapply gle_trans; eauto|]. intros P Q [HR|HR]; [eapply has_gle; eauto|auto].
  Qed.
  Lemma step_forM {T} (f : T -> sgraph -> res sgraph) (R : T -> cellt -> cellt -> Prop) l : (forall a, In a l -> step (f a) (R a)) ->
    step (fun mg => forM l f mg) (fun P Q => exists a, In a l /\ R a P Q).
  Proof.
    intros Hf mg G. destruct (forM_inv (fun done m => good m /\ gle mg m /\ forall P Q, (exists a, In a done /\ R a P Q) -> has m P Q) f l) with (s := mg) as [m [E [A [B C]]]].
    - intros done a rest m EL [A [B C]]. destruct (Hf a) with (mg := m) as [m' [E' [A' [B' C']]]]; [rewrite EL; apply in_app_iff; right; left; auto|auto|].
      exists m'. split; [auto|]. split; [auto|]. split; [eapply gle_trans; eauto|]. intros P Q [a' [Ha' HR]]. apply in_app_iff in Ha'. destruct Ha' as [Ha'|[<-|[]]]; [|auto].
      eapply has_gle; eauto.
    - split; [auto|]. split; [apply gle_refl|]. intros P Q [a [[] _]].
    - exists m. auto.
  Qed.

  Lemma lower_ok P Q : present P -> present Q -> nb8 P Q -> step (lower M (node P) (node Q) (Z.max (FF P) (FF Q))) (fun P' Q' => P' = P /\ Q' = Q).
  Proof.
    intros HP HQ N mg [S Y]. pose proof (node_range P HP). pose proof (node_range Q HQ). unfold lower.
    assert (EP : (0 <=? node P) && (node P <? M) = true) by (apply andb_true_iff; split; [apply Z.leb_le|apply Z.ltb_lt]; lia).
    assert (EQ : (0 <=? node Q) && (node Q <? M) = true) by (apply andb_true_iff; split; [apply Z.leb_le|apply Z.ltb_lt]; lia).
    rewrite EP, EQ. cbn [negb]. set (ov := Z.max (FF P) (FF Q)).
    assert (PUT : (forall v, mg (node P) (node Q) = Some v -> ov <= v) -> exists mg', Ok (gput (gput mg (node P) (node Q) ov) (node Q) (node P) ov) = Ok mg' /\
      good mg' /\ gle mg mg' /\ (forall P0 Q0, P0 = P /\ Q0 = Q -> has mg' P0 Q0)).
    { intros LT. eexists. split; [reflexivity|]. split; [split|split].
      - intros a b v E. apply gput_cases in E. destruct E as [[-> [-> ->]]|E].
        + left. exists Q, P. split; [auto|]. split; [auto|]. split; [apply nb8_sym; auto|]. split; [auto|]. split; [auto|]. unfold ov. lia.
        + apply gput_cases in E. destruct E as [[-> [-> ->]]|E]; [|auto]. left. exists P, Q. auto 6.
      - intros a b. unfold gput. destruct (Z.eqb_spec a (node P)), (Z.eqb_spec b (node Q)), (Z.eqb_spec a (node Q)), (Z.eqb_spec b (node P)); cbn [andb]; auto.
      - intros a b v E. unfold gput.
        assert (Y' : mg (node Q) (node P) = mg (node P) (node Q)) by apply Y.
        destruct (Z.eqb_spec a (node Q)), (Z.eqb_spec b (node P)); cbn [andb];
          try (subst a b; exists ov; split; [reflexivity|apply LT; congruence]);
          (destruct (Z.eqb_spec a (node P)), (Z.eqb_spec b (node Q)); cbn [andb];
            first [exists ov; split; [reflexivity|apply LT; congruence] | (exists v; split; [assumption|lia])]).
      - intros P' Q' [-> ->]. exists ov. split; [|unfold ov; lia]. unfold gput. rewrite !Z.eqb_refl. destruct ((node P =? node Q) && (node Q =? node P)); reflexivity. }
    destruct (mg (node P) (node Q)) as [v|] eqn:E; [|apply PUT; discriminate].
    destruct (Z.ltb_spec ov v) as [Lt|Ge].
    - apply PUT. intros v' E'. injection E' as <-. lia.
    - exists mg. split; [reflexivity|]. split; [split; auto|]. split; [apply gle_refl|]. intros P' Q' [-> ->]. exists v. auto.
  Qed.

  Lemma gl_F t c : In t (tiles L) -> tdom t c -> FF (gl t c) = t_dem (r t) (st t c) /\ lb (gl t c) = t_lab (r t) (st t c) /\ node (gl t c) = shift (oft t) (t_lab (r t) (st t c)).
  Proof.
    intros Ht Hc. destruct (gl_present t c Ht Hc) as [A [B C]]. pose proof (lb_range _ A) as R. unfold node, FF, lb, sc in *. rewrite B, C in *.
    split; [auto|]. split; [auto|]. unfold shift. destruct (Z.gtb_spec (t_lab (r t) (st t c)) 1); lia.
  Qed.

  Lemma edge_step t u len ea eb la lab' (A B : Z -> cellt) : In t (tiles L) -> In u (tiles L) ->
    (forall i, 0 <= i < len -> tdom t (A i) /\ tdom u (B i) /\ ea i = t_dem (r t) (st t (A i)) /\ la i = t_lab (r t) (st t (A i)) /\
       eb i = t_dem (r u) (st u (B i)) /\ lab' i = t_lab (r u) (st u (B i))) ->
    (forall i k, 0 <= i < len -> 0 <= k < len -> Z.abs (i - k) <= 1 -> nb8 (gl t (A i)) (gl u (B k))) -> t <> u ->
    step (HandleEdge M len len ea eb la lab' (oft t) (oft u))
      (fun P Q => exists i k, 0 <= i < len /\ 0 <= k < len /\ Z.abs (i - k) <= 1 /\ P = gl t (A i) /\ Q = gl u (B k)).
  Proof.
    intros Ht Hu HV HN Ne. unfold HandleEdge. rewrite Z.eqb_refl. cbn [negb].
    eapply step_weak with (R := fun P Q => exists i, In i (zrange 0 (Z.to_nat len)) /\ exists k, In k (zrange (i - 1) 3) /\ 0 <= k < len /\ P = gl t (A i) /\ Q = gl u (B k)).
    - apply (step_forM (fun i mg => forM (zrange (i - 1) 3) (fun ni mg => if (ni <? 0) || (ni =? len) then Ok mg else
        let cl := shift (oft t) (la i) in let nl := shift (oft u) (lab' ni) in if cl =? nl then Ok mg else lower M cl nl (Z.max (ea i) (eb ni)) mg) mg)).
      intros i Hi. apply zrange_In in Hi. assert (Ri : 0 <= i < len) by lia.
      eapply (step_forM (fun ni mg => if (ni <? 0) || (ni =? len) then Ok mg else
        let cl := shift (oft t) (la i) in let nl := shift (oft u) (lab' ni) in if cl =? nl then Ok mg else lower M cl nl (Z.max (ea i) (eb ni)) mg)).
      intros k Hk. apply zrange_In in Hk. destruct (Z.ltb_spec k 0); cbn [orb]; [apply step_ok; intros P Q [? _]; lia|]. destruct (Z.eqb_spec k len); cbn [orb]; [apply step_ok; intros P Q [? _]; lia|].
      assert (Rk : 0 <= k < len) by lia. destruct (HV i Ri) as [Di [_ [E1 [E2 _]]]]. destruct (HV k Rk) as [_ [Dk [_ [_ [E3 E4]]]]].
      destruct (gl_F t (A i) Ht Di) as [F1 [_ F2]]. destruct (gl_F u (B k) Hu Dk) as [F3 [_ F4]].
      destruct (gl_present t (A i) Ht Di) as [P1 [P2 _]]. destruct (gl_present u (B k) Hu Dk) as [Q1 [Q2 _]].
      cbv zeta. rewrite E1, E2, E3, E4, <- F1, <- F2, <- F3, <- F4.
      destruct (Z.eqb_spec (node (gl t (A i))) (node (gl u (B k)))) as [EN|_].
      + destruct (node_inj _ _ P1 Q1 EN) as [ET _]. congruence.
      + eapply step_weak; [apply lower_ok; auto; apply HN; auto; lia|]. intros P Q [_ ?]. auto.
    - intros P Q [i [k [Hi [Hk [Ha [EP EQ]]]]]]. exists i. split; [apply zrange_In; lia|]. exists k. split; [apply zrange_In; lia|auto].
  Qed.
  Lemma corner_step t u a b ea eb la lab' : In t (tiles L) -> In u (tiles L) -> tdom t a -> tdom u b ->
    ea = t_dem (r t) (st t a) -> la = t_lab (r t) (st t a) -> eb = t_dem (r u) (st u b) -> lab' = t_lab (r u) (st u b) -> nb8 (gl t a) (gl u b) ->
    step (HandleCorner M ea eb la lab' (oft t) (oft u)) (fun P Q => P = gl t a /\ Q = gl u b).
  Proof.
    intros Ht Hu Ha Hb -> -> -> -> N. unfold HandleCorner. destruct (gl_F t a Ht Ha) as [F1 [_ F2]]. destruct (gl_F u b Hu Hb) as [F3 [_ F4]].
    rewrite <- F1, <- F2, <- F3, <- F4. apply lower_ok; auto; apply gl_present; auto.
  Qed.

  Lemma if_step (c : bool) f (R : cellt -> cellt -> Prop) : (c = true -> step f R) -> (c = false -> forall P Q, ~ R P Q) -> step (fun mg => if c then f mg else Ok mg) R.
  Proof. destruct c; intros A B; [apply A; auto|apply step_ok; apply B; auto]. Qed.

  (** the pairs of neighbouring cells in tiles [t] and [u] *)
  Definition across (t u : Z * Z) (P Q : cellt) : Prop := present P /\ present Q /\ nb8 P Q /\ tl P = t /\ tl Q = u.
  Lemma nbr t u P Q : across t u P Q -> In t (tiles L) /\ In u (tiles L) /\ tdom t (lo P) /\ tdom u (lo Q) /\ P = gl t (lo P) /\ Q = gl u (lo Q) /\
    (fst u = fst t /\ Z.abs (fst (lo P) - fst (lo Q)) <= 1 \/ fst u = fst t + 1 /\ fst (lo P) = bw L - 1 /\ fst (lo Q) = 0 \/ fst u = fst t - 1 /\ fst (lo P) = 0 /\ fst (lo Q) = bw L - 1) /\
    (snd u = snd t /\ Z.abs (snd (lo P) - snd (lo Q)) <= 1 \/ snd u = snd t + 1 /\ snd (lo P) = bh L - 1 /\ snd (lo Q) = 0 \/ snd u = snd t - 1 /\ snd (lo P) = 0 /\ snd (lo Q) = bh L - 1).
  Proof.
    intros [HP [HQ [[_ [NX NY]] [<- <-]]]]. destruct (present_tile P HP) as [TP DP]. destruct (present_tile Q HQ) as [TQ DQ].
    pose proof (gl_lo P) as GP. pose proof (gl_lo Q) as GQ. do 4 (split; [auto|]). split; [symmetry; auto|]. split; [symmetry; auto|].
    pose proof (tw_pos _ TP). pose proof (tw_pos _ TQ). pose proof (th_pos _ TP). pose proof (th_pos _ TQ). destruct DP as [DP1 DP2], DQ as [DQ1 DQ2].
    rewrite <- GP, <- GQ in NX, NY at 1. unfold gl in NX, NY. cbn [fst snd] in NX, NY. 
    set (a := lo P) in *. set (b := lo Q) in *. set (t := tl P) in *. set (u := tl Q) in *. clearbody a b t u. clear GP GQ. split.
    - destruct (axis (bw L) (fst t) (fst a) (fst u) (fst b)) as [E|[E|E]]; auto; try lia; rewrite E in NX; lia.
    - destruct (axis (bh L) (snd t) (snd a) (snd u) (snd b)) as [E|[E|E]]; auto; try lia; rewrite E in NY; lia.
  Qed.
  Lemma tw_full u : In u (tiles L) -> fst u + 1 < gridwidth L -> tw L (fst u) = bw L.
  Proof. intros Hu E. apply tiles_In in Hu. apply (part_full (W L)); auto. lia. Qed.
  Lemma th_full u : In u (tiles L) -> snd u + 1 < gridheight L -> th L (snd u) = bh L.
  Proof. intros Hu E. apply tiles_In in Hu. apply (part_full (H L)); auto. lia. Qed.

  Lemma across_nul t u P Q : across t u P Q -> 0 <= fst u < gridwidth L /\ 0 <= snd u < gridheight L /\ nul L (fst u) (snd u) = false.
  Proof. intros AC. destruct (nbr _ _ _ _ AC) as [_ [TU _]]. apply tiles_In. exact TU. Qed.
  Lemma job_u u : In u (tiles L) -> jobs (fst u) (snd u) = FirstRound L u (r u) /\ j_w (FirstRound L u (r u)) = tw L (fst u) /\ j_h (FirstRound L u (r u)) = th L (snd u).
  Proof. intros Hu. split; [apply Hj; auto|]. destruct (fr_n u (r u)) as [_ [_ [A B]]]. auto. Qed.
  Ltac getu u :=
    match goal with C : _ = true |- _ => rewrite ?andb_true_iff, ?negb_true_iff, ?Z.gtb_lt, ?Z.ltb_lt in C end;
    assert (Hu : In u (tiles L)) by (apply tiles_In; cbn [fst snd]; split; [lia|split; [lia|tauto]]);
    let A := fresh in let B := fresh in
    destruct (job_u u Hu) as [JU [UW UH]]; cbn [fst snd] in JU, UW, UH; pose proof (fr_vec u (r u)) as VU; cbv zeta in VU; cbn [fst snd] in VU;
    pose proof (tw_pos u Hu) as A; pose proof (th_pos u Hu) as B; pose proof (tw_full u Hu); pose proof (th_full u Hu); cbn [fst snd] in *.
  Ltac noway :=
    intros C P Q AC; destruct (across_nul _ _ _ _ AC) as [U1 [U2 U3]]; cbn [fst snd] in U1, U2, U3; rewrite U3 in C; cbn [negb] in C;
    rewrite ?andb_false_iff in C; rewrite ?Z.gtb_ltb, ?Z.ltb_ge in C; destruct C as [C|C]; try discriminate C; try lia; rewrite ?andb_false_iff in C; rewrite ?Z.gtb_ltb, ?Z.ltb_ge in C; lia.
  Lemma nb_gl t u a b : Z.abs ((fst t * bw L + fst a) - (fst u * bw L + fst b)) <= 1 -> Z.abs ((snd t * bh L + snd a) - (snd u * bh L + snd b)) <= 1 ->
    fst t * bw L + fst a <> fst u * bw L + fst b \/ snd t * bh L + snd a <> snd u * bh L + snd b -> nb8 (gl t a) (gl u b).
  Proof. intros A B C. unfold nb8, gl, adjacent. cbn [fst snd]. split; [|lia]. intros E. injection E as E1 E2. lia. Qed.
  Ltac edge t u A B p :=
    eapply step_weak; [apply (edge_step t u _ _ _ _ _ A B);
      [assumption|assumption
      |let i := fresh "i" in intros i Ri;
       match goal with VT : forall i, j_te (FirstRound L (?x, ?y) _) _ = _ /\ _, VU : forall i, j_te (FirstRound L ?u _) _ = _ /\ _ |- tdom (?x, ?y) _ /\ tdom ?u _ /\ _ =>
         destruct (VT i) as [? [? [? [? [? [? [? ?]]]]]]]; destruct (VU i) as [? [? [? [? [? [? [? ?]]]]]]] end;
       unfold tdom, zdom, in_raster; cbn [fst snd]; split; [lia|]; split; [lia|]; auto
      |intros i k Ri Rk Rik; apply nb_gl; cbn [fst snd]; lia
      |intros EE; injection EE as EE; lia]
    |let P := fresh "P" in let Q := fresh "Q" in intros P Q AC;
     destruct (nbr _ _ _ _ AC) as [_ [_ [DP [DQ [EP [EQ [DX DY]]]]]]]; exists (p (lo P)), (p (lo Q));
     unfold tdom, zdom, in_raster in DP, DQ; cbn [fst snd] in DP, DQ, DX, DY;
     split; [lia|split; [lia|split; [lia|split; [rewrite EP at 1|rewrite EQ at 1]]]]; apply f_equal; rewrite (surjective_pairing (lo _)) at 1; apply f_equal2; lia].
  Ltac corner t u A B :=
    eapply step_weak; [apply (corner_step t u A B);
      [assumption|assumption|unfold tdom, zdom, in_raster; cbn [fst snd]; lia|unfold tdom, zdom, in_raster; cbn [fst snd]; lia
      |idtac|idtac|idtac|idtac|apply nb_gl; cbn [fst snd]; lia];
       match goal with VT : forall i, j_te (FirstRound L (?x, ?y) _) _ = _ /\ _ |- _ (FirstRound L (?x, ?y) _) ?i = _  =>
         destruct (VT i) as [? [? [? [? [? [? [? ?]]]]]]] end; assumption
    |let P := fresh "P" in let Q := fresh "Q" in intros P Q AC;
     destruct (nbr _ _ _ _ AC) as [_ [_ [DP [DQ [EP [EQ [DX DY]]]]]]];
     unfold tdom, zdom, in_raster in DP, DQ; cbn [fst snd] in DP, DQ, DX, DY;
     split; [rewrite EP at 1|rewrite EQ at 1]; apply f_equal; rewrite (surjective_pairing (lo _)) at 1; apply f_equal2; lia].

  Lemma handle_ok t : In t (tiles L) -> step (handle L M jobs offs t) (fun P Q => present P /\ present Q /\ nb8 P Q /\ tl P = t /\ tl Q <> t).
  Proof.
    intros Ht. destruct t as [x y]. pose proof (proj1 (tiles_In _) Ht) as Tt. cbn [fst snd] in Tt. destruct Tt as [Tx [Ty Tn]].
    pose proof (tw_pos _ Ht) as Wt. pose proof (th_pos _ Ht) as Hht. cbn [fst snd] in Wt, Hht.
    eapply step_weak with (R := fun P Q => across (x, y) (x, y - 1) P Q \/ across (x, y) (x, y + 1) P Q \/ across (x, y) (x - 1, y) P Q \/ across (x, y) (x + 1, y) P Q \/
      across (x, y) (x - 1, y - 1) P Q \/ across (x, y) (x + 1, y + 1) P Q \/ across (x, y) (x + 1, y - 1) P Q \/ across (x, y) (x - 1, y + 1) P Q).
    2:{ intros P Q [HP [HQ [N [TP TQ]]]]. assert (AC : across (x, y) (tl Q) P Q) by (split; auto). destruct (nbr _ _ _ _ AC) as [_ [_ [_ [_ [_ [_ [DX DY]]]]]]].
        destruct (tl Q) as [x' y']. cbn [fst snd] in DX, DY. destruct DX as [[-> _]|[[-> _]|[-> _]]], DY as [[-> _]|[[-> _]|[-> _]]]; try tauto. }
    unfold handle. cbn [fst snd].
    pose proof (tw_full _ Ht) as Fw. pose proof (th_full _ Ht) as Fh. cbn [fst snd] in Fw, Fh.
    assert (JT : jobs x y = FirstRound L (x, y) (r (x, y))) by (apply (Hj (x, y)); auto).
    destruct (fr_n (x, y) (r (x, y))) as [_ [_ [JW JH]]]. cbn [fst snd] in JW, JH. pose proof (fr_vec (x, y) (r (x, y))) as VT. cbv zeta in VT. cbn [fst snd] in VT.
    apply step_bind; [|apply step_bind; [|apply step_bind; [|apply step_bind; [|apply step_bind; [|apply step_bind; [|apply step_bind]]]]]].
    - apply if_step; [intros C|noway]. getu (x, y - 1). rewrite JT, JU, JW, UW. edge (x, y) (x, y - 1) (fun i : Z => (i, 0)) (fun i : Z => (i, th L (y - 1) - 1)) (@fst Z Z).
    - apply if_step; [intros C|noway]. getu (x, y + 1). rewrite JT, JU, JW, UW. edge (x, y) (x, y + 1) (fun i : Z => (i, th L y - 1)) (fun i : Z => (i, 0)) (@fst Z Z).
    - apply if_step; [intros C|noway]. getu (x - 1, y). rewrite JT, JU, JH, UH. edge (x, y) (x - 1, y) (fun i : Z => (0, i)) (fun i : Z => (tw L (x - 1) - 1, i)) (@snd Z Z).
    - apply if_step; [intros C|noway]. getu (x + 1, y). rewrite JT, JU, JH, UH. edge (x, y) (x + 1, y) (fun i : Z => (tw L x - 1, i)) (fun i : Z => (0, i)) (@snd Z Z).
    - apply if_step; [intros C|noway]. getu (x - 1, y - 1). rewrite JT, JU, UW. corner (x, y) (x - 1, y - 1) (0, 0) (tw L (x - 1) - 1, th L (y - 1) - 1).
    - apply if_step; [intros C|noway]. getu (x + 1, y + 1). rewrite JT, JU, JW. corner (x, y) (x + 1, y + 1) (tw L x - 1, th L y - 1) (0, 0).
    - apply if_step; [intros C|noway]. getu (x + 1, y - 1). rewrite JT, JU, JW. corner (x, y) (x + 1, y - 1) (tw L x - 1, 0) (0, th L (y - 1) - 1).
    - apply if_step; [intros C|noway]. getu (x - 1, y + 1). rewrite JT, JU, UW. corner (x, y) (x - 1, y + 1) (0, th L y - 1) (tw L (x - 1) - 1, 0).
  Qed.

  (** ** The merged graph *)
  Lemma sc_st t a : In t (tiles L) -> tdom t a -> let P := gl t (st t a) in present P /\ tl P = t /\ sc P = a /\ FF P = t_dem (r t) a /\ lb P = t_lab (r t) a /\ node P = shift (oft t) (t_lab (r t) a).
  Proof.
    intros Ht Ha. cbv zeta. destruct (sc_gl t a Ht Ha) as [A [B C]]. destruct (gl_F t (st t a) Ht (st_dom t a Ha)) as [F1 [F2 F3]]. rewrite st_st in *. auto 6.
  Qed.
  Lemma touts_dom t a : In t (tiles L) -> In a (touts t) -> tdom t a.
  Proof. intros Ht Ha. apply outside_In in Ha; [apply Ha| |]; [apply tw_pos; auto|apply th_pos; auto]. Qed.

  Lemma merged_ok mg : (forall t l k v a b, In t (tiles L) -> entry offs t l k v a b -> mg a b = Some v) ->
    (forall a b v, mg a b = Some v -> exists t l k, In t (tiles L) /\ entry offs t l k v a b) ->
    good mg /\ (forall P Q, present P -> present Q -> nb8 P Q -> tl P = tl Q -> node P <> node Q -> has mg P Q) /\
    (forall P, outl P -> exists v, mg 1 (node P) = Some v /\ v <= FF P).
  Proof.
    intros C Sn. split; [split|split].
    - intros a b v E. destruct (Sn a b v E) as [t [l [k [Ht [Eg Hab]]]]]. destruct (ts_sound _ _ _ _ _ (Hr t Ht) _ _ _ Eg) as [[R1 [R2 [a' [b' [Da [Db [N [La [Lb Ev]]]]]]]]]|[E1 [a' [Da [Oa [La Ev]]]]]].
      + left. destruct (sc_st t a' Ht Da) as [P1 [P2 [P3 [P4 [P5 P6]]]]]. destruct (sc_st t b' Ht Db) as [Q1 [Q2 [Q3 [Q4 [Q5 Q6]]]]].
        assert (N' : nb8 (gl t (st t a')) (gl t (st t b'))) by (apply gl_nb, st_nb; exact N).
        rewrite La in P6. rewrite Lb in Q6. unfold oft in P6, Q6. destruct Hab as [[Ea Eb]|[Ea Eb]].
        * exists (gl t (st t a')), (gl t (st t b')). do 3 (split; [assumption|]). split; [congruence|]. split; [congruence|]. rewrite P4, Q4. exact Ev.
        * exists (gl t (st t b')), (gl t (st t a')). do 2 (split; [assumption|]). split; [apply nb8_sym; assumption|]. split; [congruence|]. split; [congruence|]. rewrite P4, Q4. lia.
      + right. destruct (sc_st t a' Ht Da) as [P1 [P2 [P3 [P4 [P5 P6]]]]]. exists (gl t (st t a')). split; [split; [assumption|rewrite P2, P3; exact Oa]|]. split; [congruence|].
        rewrite La in P6. unfold oft in P6. subst l. unfold shift at 1 4 in Hab. cbn in Hab. destruct Hab as [[Ea Eb]|[Ea Eb]]; [left|right]; split; congruence.
    - assert (HS : forall a b v, mg a b = Some v -> mg b a = Some v).
      { intros a b v E. destruct (Sn a b v E) as [t [l [k [Ht [Eg Hab]]]]]. apply (C t l k v b a Ht). split; [exact Eg|]. tauto. }
      intros a b. destruct (mg a b) as [v|] eqn:E; [symmetry; auto|]. destruct (mg b a) as [v|] eqn:E'; [|auto]. apply HS in E'. congruence.
    - intros P Q HP HQ N ET EN. destruct (present_tile P HP) as [TP _]. assert (EL : lb P <> lb Q) by (intros EL; apply EN; unfold node; rewrite ET, EL; reflexivity).
      pose proof (sc_dom P HP) as DP. pose proof (sc_dom Q HQ) as DQ. rewrite <- ET in DQ. pose proof (sc_nb P Q N ET) as N'. unfold lb in EL. rewrite <- ET in EL.
      destruct (ts_comp _ _ _ _ _ (Hr _ TP) _ _ DP DQ N' EL) as [v [Eg Le]].
      assert (SP : node P = shift (oft (tl P)) (t_lab (r (tl P)) (sc P))).
      { pose proof (lb_range P HP). unfold node, shift. unfold lb in *. destruct (Z.gtb_spec (t_lab (r (tl P)) (sc P)) 1); lia. }
      assert (SQ : node Q = shift (oft (tl P)) (t_lab (r (tl P)) (sc Q))).
      { pose proof (lb_range Q HQ). unfold node, shift. unfold lb in *. rewrite <- ET in *. destruct (Z.gtb_spec (t_lab (r (tl P)) (sc Q)) 1); lia. }
      exists v. split; [|unfold FF; rewrite <- ET; exact Le]. apply (C _ (Z.min (t_lab (r (tl P)) (sc P)) (t_lab (r (tl P)) (sc Q))) (Z.max (t_lab (r (tl P)) (sc P)) (t_lab (r (tl P)) (sc Q))) v _ _ TP).
      split; [exact Eg|]. unfold oft in SP, SQ. destruct (Z.min_spec (t_lab (r (tl P)) (sc P)) (t_lab (r (tl P)) (sc Q))) as [[Lt ->]|[Ge ->]].
      + rewrite Z.max_r by lia. left. auto.
      + rewrite Z.max_l by lia. right. auto.
    - intros P [HP OP]. destruct (present_tile P HP) as [TP _]. destruct (ts_out _ _ _ _ _ (Hr _ TP) _ OP) as [v [Eg Le]]. exists v. split; [|exact Le].
      apply (C _ 1 (lb P) v _ _ TP). split; [exact Eg|]. left. split; [reflexivity|]. pose proof (lb_range P HP). unfold node, oft, shift. destruct (Z.gtb_spec (lb P) 1); lia.
  Qed.

  Record master (mg : sgraph) : Prop := {
    ma_good : good mg;
    ma_has : forall P Q, present P -> present Q -> nb8 P Q -> node P <> node Q -> has mg P Q;
    ma_out : forall P, outl P -> exists v, mg 1 (node P) = Some v /\ v <= FF P }.
  Lemma handle_all mg : (forall t l k v a b, In t (tiles L) -> entry offs t l k v a b -> mg a b = Some v) ->
    (forall a b v, mg a b = Some v -> exists t l k, In t (tiles L) /\ entry offs t l k v a b) ->
    exists mg', forM (tiles L) (handle L M jobs offs) mg = Ok mg' /\ master mg'.
  Proof.
    intros C Sn. destruct (merged_ok mg C Sn) as [G [A B]].
    destruct (step_forM (handle L M jobs offs) (fun t P Q => present P /\ present Q /\ nb8 P Q /\ tl P = t /\ tl Q <> t) (tiles L) (fun t Ht => handle_ok t Ht) mg G) as [mg' [E [G' [Le X]]]].
    exists mg'. split; [exact E|]. split; [exact G'| |].
    - intros P Q HP HQ N NE. destruct (cell_eq_dec (tl P) (tl Q)) as [ET|NT]; [eapply has_gle; eauto|]. apply X. exists (tl P). split; [apply present_tile; auto|]. auto 6.
    - intros P OP. destruct (B P OP) as [v [E1 L1]]. destruct (Le _ _ _ E1) as [v' [E2 L2]]. exists v'. split; auto. lia.
  Qed.

  (** ** Escaping from a cell and reaching its label are the same *)
  Definition E0 (P : cellt) : Z := files L (fst (tl P)) (snd (tl P)) (fst (sc P)) (snd (sc P)).
  Lemma FF_lev P : present P -> drainage_level D8 (tw L (fst (tl P))) (th L (snd (tl P))) (files L (fst (tl P)) (snd (tl P))) (fst (sc P)) (snd (sc P)) (FF P).
  Proof. intros HP. destruct (present_tile P HP) as [TP _]. apply (ts_lev _ _ _ _ _ (Hr _ TP)). apply sc_dom. exact HP. Qed.
  Lemma E0_FF P : present P -> E0 P <= FF P.
  Proof. intros HP. destruct (FF_lev P HP) as [A _]. apply drains_here in A. exact A. Qed.
  Definition tedge (P : cellt) : Prop := fst (lo P) = 0 \/ fst (lo P) = tw L (fst (tl P)) - 1 \/ snd (lo P) = 0 \/ snd (lo P) = th L (snd (tl P)) - 1.
  Lemma tedge_FF P : present P -> tedge P -> FF P <= E0 P.
  Proof.
    intros HP HE. destruct (FF_lev P HP) as [_ A]. apply A. apply drains_edge; [|unfold E0; lia]. split; [apply sc_dom; exact HP|].
    destruct (present_tile P HP) as [_ [DX DY]]. unfold sc, st. unfold tedge in HE. cbn [fst snd]. destruct (flipH L), (flipV L); lia.
  Qed.
  Lemma out_edge P : outl P <-> present P /\ let e := tile_edges L (fst (tl P)) (snd (tl P)) in
    (e_top e = true /\ snd (lo P) = 0 \/ e_bot e = true /\ snd (lo P) = th L (snd (tl P)) - 1 \/ e_left e = true /\ fst (lo P) = 0 \/ e_right e = true /\ fst (lo P) = tw L (fst (tl P)) - 1).
  Proof.
    unfold outl. split; intros [HP HO2]; (split; [exact HP|]); destruct (present_tile P HP) as [TP [DX DY]]; pose proof (tw_pos _ TP); pose proof (th_pos _ TP).
    - apply outside_In in HO2; [|lia|lia]. destruct HO2 as [_ HO2]. cbv zeta. destruct (tile_edges L (fst (tl P)) (snd (tl P))) as [et eb el er]. unfold sc, st in HO2. cbn [fst snd e_top e_bot e_left e_right] in *.
      destruct (flipH L), (flipV L); destruct HO2 as [[A B]|[[A B]|[[A B]|[A B]]]]; cbn [negb] in A; rewrite ?andb_true_r, ?andb_false_r, ?orb_false_r, ?orb_false_l in A;
        first [left; split; [exact A|lia]|right; left; split; [exact A|lia]|right; right; left; split; [exact A|lia]|right; right; right; split; [exact A|lia]].
    - apply outside_In; [lia|lia|]. split; [apply sc_dom; exact HP|]. cbv zeta in HO2. destruct (tile_edges L (fst (tl P)) (snd (tl P))) as [et eb el er]. unfold sc, st. cbn [fst snd e_top e_bot e_left e_right] in *.
      destruct (flipH L), (flipV L); cbn [negb]; rewrite ?andb_true_r, ?andb_false_r, ?orb_false_r, ?orb_false_l; destruct HO2 as [[A B]|[[A B]|[[A B]|[A B]]]];
        first [left; split; [exact A|lia]|right; left; split; [exact A|lia]|right; right; left; split; [exact A|lia]|right; right; right; split; [exact A|lia]].
  Qed.
  Lemma cross_edge P Q : present P -> present Q -> nb8 P Q -> tl P <> tl Q -> tedge P.
  Proof.
    intros HP HQ N NT. assert (AC : across (tl P) (tl Q) P Q) by (split; auto). destruct (nbr _ _ _ _ AC) as [TP [TQ [_ [_ [_ [_ [DX DY]]]]]]].
    pose proof (tw_full _ TP). pose proof (th_full _ TP). apply tiles_In in TQ. unfold tedge.
    assert (NT' : fst (tl Q) <> fst (tl P) \/ snd (tl Q) <> snd (tl P)).
    { destruct (Z.eq_dec (fst (tl Q)) (fst (tl P))) as [E1|]; [|auto]. destruct (Z.eq_dec (snd (tl Q)) (snd (tl P))) as [E2|]; [|auto]. exfalso. apply NT.
      rewrite (surjective_pairing (tl P)), (surjective_pairing (tl Q)). congruence. }
    lia.
  Qed.

  Definition escm := esc nb8 present outl E0.
  Lemma esc_FF z P : escm z P -> present P /\ FF P <= z.
  Proof.
    induction 1 as [P HP OP Le|P Q HP Le N E [HQ IH]]; (split; [exact HP|]).
    - apply out_edge in OP. destruct OP as [_ OP]. cbv zeta in OP. assert (FF P <= E0 P); [|lia]. apply tedge_FF; auto. unfold tedge. tauto.
    - destruct (cell_eq_dec (tl P) (tl Q)) as [ET|NT].
      + destruct (FF_lev Q HQ) as [DQ _]. rewrite <- ET in DQ. destruct (FF_lev P HP) as [_ A]. apply A. eapply drains_step; [apply sc_dom; exact HP|exact Le| |eapply drains_le; [exact DQ|exact IH]].
        apply sc_nb; auto.
      + assert (FF P <= E0 P); [|lia]. apply tedge_FF; auto. eapply cross_edge; eauto.
  Qed.
  Lemma conn_esc t z a b : In t (tiles L) -> conn (tw L (fst t)) (th L (snd t)) (t_lab (r t)) (t_dem (r t)) z a b -> tdom t b -> escm z (gl t (st t b)) -> escm z (gl t (st t a)).
  Proof.
    intros Ht C Db Eb. induction C as [a _ _ _|a b c _ Da Ta N C IH]; [exact Eb|]. destruct (sc_st t a Ht Ta) as [P1 [P2 [P3 [P4 _]]]].
    eapply esc_step; [exact P1| |apply gl_nb, st_nb; exact N|apply IH; auto]. pose proof (E0_FF _ P1). lia.
  Qed.
  Lemma gl_sc P : gl (tl P) (st (tl P) (sc P)) = P.
  Proof. unfold sc. rewrite st_st. apply gl_lo. Qed.
  Lemma same_node z P Q : present P -> present Q -> node P = node Q -> FF P <= z -> FF Q <= z -> escm z Q -> escm z P.
  Proof.
    intros HP HQ EN LP LQ E. destruct (node_inj P Q HP HQ EN) as [ET EL]. destruct (present_tile P HP) as [TP _]. rewrite <- (gl_sc P). rewrite <- (gl_sc Q), <- ET in E.
    pose proof (sc_dom P HP) as DP. pose proof (sc_dom Q HQ) as DQ. rewrite <- ET in DQ. unfold lb in EL. rewrite <- ET in EL.
    eapply conn_esc; [exact TP| |exact DQ|exact E]. eapply conn_le; [apply (ts_conn _ _ _ _ _ (Hr _ TP)); auto|]. unfold FF in LP, LQ. rewrite <- ET in LQ. lia.
  Qed.
  Lemma reach_esc mg z l : master mg -> greach mg z l -> forall P, present P -> l = node P -> FF P <= z -> escm z P.
  Proof.
    intros MA G. induction G as [|a b v G IH E Le]; intros P HP EN LP; [pose proof (node_range P HP); lia|].
    destruct (ma_good _ MA) as [SD _]. destruct (SD _ _ _ E) as [[P' [Q' [HP' [HQ' [N [Ea [Eb Ev]]]]]]]|[P' [OP [Ev [[Ea Eb]|[Ea Eb]]]]]].
    - apply (same_node z P Q'); auto; [congruence|lia|]. eapply esc_step; [exact HQ'|pose proof (E0_FF Q' HQ'); lia|apply nb8_sym; exact N|apply IH; auto; lia].
    - pose proof OP as [HP' _]. apply (same_node z P P'); auto; [congruence|lia|]. apply esc_out; auto. pose proof (E0_FF P' HP'). lia.
    - pose proof (node_range P HP). lia.
  Qed.
  Lemma esc_reach mg z P : master mg -> escm z P -> greach mg z (node P).
  Proof.
    intros MA E. induction E as [P HP OP Le|P Q HP Le N E IH].
    - destruct (ma_out _ MA P OP) as [v [Ev Lv]]. destruct (esc_FF z P) as [_ LF]; [apply esc_out; auto|]. eapply gr_step; [apply gr_1|exact Ev|lia].
    - destruct (esc_FF z Q E) as [HQ LQ]. destruct (esc_FF z P) as [_ LP]; [eapply esc_step; eauto|]. destruct (Z.eq_dec (node P) (node Q)) as [->|NE]; [exact IH|].
      destruct (ma_has _ MA Q P HQ HP (nb8_sym _ _ N)) as [v [Ev Lv]]; [auto|]. eapply gr_step; [exact IH|exact Ev|lia].
  Qed.
  Lemma master_range mg lowest : master mg -> (forall P, present P -> lowest <= E0 P) -> forall a b v, mg a b = Some v -> 0 <= a < M /\ 0 <= b < M /\ lowest <= v.
  Proof.
    intros MA HL a b v E. destruct (ma_good _ MA) as [SD _]. destruct (SD _ _ _ E) as [[P [Q [HP [HQ [N [Ea [Eb Ev]]]]]]]|[P [[HP OP] [Ev Hab]]]].
    - pose proof (node_range P HP). pose proof (node_range Q HQ). pose proof (HL P HP). pose proof (E0_FF P HP). lia.
    - pose proof (node_range P HP). pose proof (HL P HP). pose proof (E0_FF P HP). lia.
  Qed.

  (** What the second round writes *)
  Lemma final_level mg tb lowest : master mg -> (forall P, present P -> lowest <= E0 P) -> 1 < M ->
    exists s, aggregated tb lowest M mg = Some s /\ forall P, present P -> (exists z, escm z P) -> lev nb8 present outl E0 P (Z.max (FF P) (a_ge s (node P))).
  Proof.
    intros MA HL HM. destruct (agg_ok tb lowest M mg HM (master_range mg lowest MA HL)) as [s [E A]]. exists s. split; [exact E|]. intros P HP [z Ez].
    pose proof (node_range P HP). destruct (A (node P)) as [R Mn]; [lia|exists z; apply esc_reach; auto|]. split.
    - apply (reach_esc mg _ (node P)); auto; [|lia]. eapply greach_le; [exact R|lia].
    - intros z' Ez'. destruct (esc_FF z' P Ez') as [_ LF]. pose proof (Mn z' (esc_reach mg z' P MA Ez')). lia.
  Qed.
  End Handle.

  Lemma calc_ok tb lowest : (forall P, present P -> lowest <= E0 P) -> (exists P, present P) ->
    exists offs ge, Calculations L tb lowest jobs = Ok (offs, ge) /\
      forall P, present P -> (exists z, esc nb8 present outl E0 z P) -> lev nb8 present outl E0 P (Z.max (FF P) (ge (offs (fst (tl P)) (snd (tl P)) + lb P))).
  Proof.
    intros HL [P0 HP0]. destruct merge_all_ok as [offs [mg [E1 [O1 [C1 S1]]]]]. destruct (handle_all offs O1 mg C1 S1) as [mg' [E2 MA]].
    assert (HM : 1 < M) by (pose proof (node_range offs O1 P0 HP0); lia).
    destruct (final_level offs O1 mg' tb lowest MA HL HM) as [s [E3 F]]. exists offs, (a_ge s). split; [|exact F].
    unfold Calculations. rewrite max_sum. cbv zeta. rewrite E1. cbn [bind]. unfold M in *. rewrite E2. cbn [bind]. destruct (Z.leb_spec (sumn (tiles L)) 1); [lia|]. rewrite E3. reflexivity.
  Qed.

  (** ** Water can leave from every cell *)
  Hypothesis Hmode : many L = false -> forall tx ty, 0 <= tx < gridwidth L -> 0 <= ty < gridheight L -> nul L tx ty = false.
  Lemma last_row : snd (tl (0, H L - 1)) = gridheight L - 1.
  Proof.
    unfold tl, gridheight. cbn [fst snd]. replace (H L + bh L - 1) with (H L - 1 + 1 * bh L) by lia. rewrite Z.div_add by lia. lia.
  Qed.
  Lemma left_esc B : (forall P, present P -> E0 P <= B) -> forall n X Y, X = Z.of_nat n -> present (X, Y) -> X / bw L = 0 -> esc nb8 present outl E0 B (X, Y).
  Proof.
    intros HB. induction n as [|n IH]; intros X Y EX HP HX.
    - apply esc_out; auto. apply out_edge. split; [exact HP|]. cbv zeta. right. right. left. cbn [fst snd tl lo e_left tile_edges]. rewrite HX. rewrite orb_true_r. split; [reflexivity|].
      subst X. apply Z.mod_0_l. lia.
    - assert (HX' : (X - 1) / bw L = 0) by (apply Z.div_small; apply Z.div_small_iff in HX; lia).
      assert (HP' : present (X - 1, Y)).
      { destruct HP as [[A C] N]. cbn [fst snd] in *. split; [split; cbn [fst snd]; lia|]. cbn [fst snd]. rewrite HX'. rewrite HX in N. exact N. }
      eapply esc_step; [exact HP|apply HB; exact HP| |apply (IH (X - 1)); [lia|exact HP'|exact HX']]. apply adjacent_left.
  Qed.
  Lemma down_esc B : (forall P, present P -> E0 P <= B) -> forall n X Y, Y = H L - 1 - Z.of_nat n -> present (X, Y) -> X / bw L > 0 -> esc nb8 present outl E0 B (X, Y).
  Proof.
    intros HB. induction n as [|n IH]; intros X Y EX HP HX; destruct (present_tile _ HP) as [TP [_ D2]]; pose proof (th_pos _ TP) as TH; pose proof (proj1 (tiles_In _) TP) as [TX [TY TN]]; cbn [fst snd tl lo] in *;
      pose proof (Z.div_mod Y (bh L) ltac:(lia)) as DM; pose proof (part_last (H L) (bh L) (Y / bh L) Hbh (proj1 TY)) as PL; fold (th L (Y / bh L)) in PL; unfold ceil in PL; fold (gridheight L) in PL.
    - assert (LR : Y / bh L = gridheight L - 1) by (rewrite EX, <- last_row; cbn; f_equal; lia).
      apply esc_out; auto. apply out_edge. split; [exact HP|]. cbv zeta. right. left. cbn [fst snd tl lo e_bot tile_edges].
      rewrite LR, Z.eqb_refl, orb_true_r. split; [reflexivity|]. rewrite <- LR. unfold th, part in *. specialize (PL LR). lia.
    - destruct (Z.eq_dec (Y mod bh L) (th L (Y / bh L) - 1)) as [EB|NB].
      + assert (NL : Y / bh L <> gridheight L - 1) by (intros LR; specialize (PL LR); unfold th, part in *; lia).
        pose proof (th_full _ TP) as TF. cbn [snd tl] in TF. specialize (TF ltac:(lia)).
        assert (DV : (Y + 1) / bh L = Y / bh L + 1) by (symmetry; apply (Z.div_unique _ _ _ 0); lia).
        destruct (nul L (X / bw L) (Y / bh L + 1)) eqn:NU.
        * apply esc_out; auto. apply out_edge. split; [exact HP|]. cbv zeta. right. left. cbn [fst snd tl lo e_bot tile_edges]. split; [|exact EB].
          destruct (many L) eqn:EM; [|rewrite (Hmode eq_refl) in NU; [discriminate NU|auto|lia]].
          rewrite NU. replace (Y / bh L + 1 <? gridheight L) with true by (symmetry; apply Z.ltb_lt; lia). replace (X / bw L >? 0) with true by (symmetry; apply Z.gtb_lt; lia). reflexivity.
        * assert (HP' : present (X, Y + 1)).
          { destruct HP as [[A C] N]. cbn [fst snd] in *. split; [split; cbn [fst snd]; lia|]. cbn [fst snd]. rewrite DV. exact NU. }
          eapply esc_step; [exact HP|apply HB; exact HP| |apply (IH X (Y + 1)); [lia|exact HP'|exact HX]]. split; [intros E; injection E as E; lia|cbn [fst snd]; lia].
      + assert (DV : (Y + 1) / bh L = Y / bh L) by (symmetry; apply (Z.div_unique _ _ _ (Y mod bh L + 1)); lia).
        assert (HP' : present (X, Y + 1)).
        { destruct HP as [[A C] N]. cbn [fst snd] in *. split; [split; cbn [fst snd]; lia|]. cbn [fst snd]. rewrite DV. exact N. }
        eapply esc_step; [exact HP|apply HB; exact HP| |apply (IH X (Y + 1)); [lia|exact HP'|exact HX]]. split; [intros E; injection E as E; lia|cbn [fst snd]; lia].
  Qed.
  Lemma bound_ex : exists B, forall P, present P -> E0 P <= B.
  Proof.
    exists (fold_right (fun P m => Z.max (E0 P) m) 0 (scan (W L) (H L))). intros P [R _]. assert (IP : In P (scan (W L) (H L))) by (destruct P; apply scan_In; exact R).
    induction (scan (W L) (H L)) as [|a q IH]; [destruct IP|]. cbn [fold_right]. destruct IP as [<-|IP]; [lia|]. specialize (IH IP). lia.
  Qed.
  Lemma esc_ex P : present P -> exists z, esc nb8 present outl E0 z P.
  Proof.
    intros HP. destruct bound_ex as [B HB]. exists B. destruct P as [X Y]. pose proof HP as [[A C] N]. cbn [fst snd] in *. pose proof (Z.div_pos X (bw L) ltac:(lia) Hbw).
    destruct (Z.eq_dec (X / bw L) 0) as [E|NE].
    - apply (left_esc B HB (Z.to_nat X)); auto. lia.
    - apply (down_esc B HB (Z.to_nat (PPFModel.H L - 1 - Y))); auto; lia.
  Qed.
  Theorem calc_level tb lowest : (forall P, present P -> lowest <= E0 P) -> (exists P, present P) ->
    exists offs ge, Calculations L tb lowest jobs = Ok (offs, ge) /\
      forall P, present P -> lev nb8 present outl E0 P (Z.max (FF P) (ge (offs (fst (tl P)) (snd (tl P)) + lb P))).
  Proof. intros HL HE. destruct (calc_ok tb lowest HL HE) as [offs [ge [E A]]]. exists offs, ge. split; [exact E|]. intros P HP. apply A; auto. apply esc_ex; auto. Qed.
End Master.
