(** Correctness of PriorityFlood_Zhou2016. *)
From Coq Require Import ZArith List Lia Bool Permutation.
From Verif Require Import Base RasterSpec RasterFacts Kahn FlowModel FlowProofs PFModel PFProofs TraceFlood ZhouModel.
Open Scope Z_scope.

Definition nb8 (a b : cellt) : Prop := adjacent D8 (fst a) (snd a) (fst b) (snd b).
Lemma nb8_sym a b : nb8 a b -> nb8 b a.
Proof. apply adjacent_sym. Qed.
Lemma off_nb c n : In n (dirs D8) -> nb8 c (off c n).
Proof. intros H. apply adjacent_iff. exists n. auto. Qed.
Lemma nb_off a b : nb8 a b -> exists n, In n (dirs D8) /\ b = off a n.
Proof. intros H. unfold nb8 in H. rewrite adjacent_iff in H. destruct H as [n [A [B C]]]. exists n. split; auto. unfold off. destruct b; cbn in *; congruence. Qed.
Lemma cell_eq_dec (a b : cellt) : a = b \/ a <> b.
Proof. destruct (ceqb_spec a b); auto. Qed.

Definition unl (lab : cellt -> Z) (w h : Z) : nat := length (filter (fun c => lab c =? 0) (cells w h)).
Lemma unl_cset lab w h c l : In c (cells w h) -> lab c = 0 -> l <> 0 -> unl lab w h = S (unl (cset lab c l) w h).
Proof.
  unfold unl. intros Hin Hc Hl. pose proof (cells_NoDup w h) as Hnd. revert Hin Hnd. generalize (cells w h) as q.
  induction q as [|a q IH]; intros Hin Hnd; [contradiction|]. apply NoDup_cons_iff in Hnd. destruct Hnd as [Hni Hnd].
  destruct Hin as [->|Hin].
  - cbn [filter]. rewrite cset_same, Hc. destruct (Z.eqb_spec l 0); [contradiction|]. cbn [length Z.eqb]. f_equal. apply filter_ext_length.
    intros b Hb. rewrite cset_other; auto. intros ->; auto.
  - cbn [filter]. rewrite cset_other by (intros ->; auto). destruct (lab a =? 0); cbn [length]; rewrite (IH Hin Hnd); reflexivity.
Qed.
Lemma unl_bound lab w h : (unl lab w h <= Z.to_nat w * Z.to_nat h)%nat.
Proof. unfold unl. rewrite <- cells_length. generalize (cells w h). induction l as [|a l IH]; simpl; [lia|]. destruct (lab a =? 0); simpl; lia. Qed.
Lemma unl_le lab lab' w h : (forall c, lab c <> 0 -> lab' c <> 0) -> (unl lab' w h <= unl lab w h)%nat.
Proof.
  intros H. unfold unl. generalize (cells w h). induction l as [|a l IH]; cbn [filter]; [lia|]. specialize (H a).
  destruct (Z.eqb_spec (lab a) 0), (Z.eqb_spec (lab' a) 0); cbn [length]; lia.
Qed.

Section Zhou.
  Variables (w h : Z) (e0 : cellt -> Z).
  Definition zdom (c : cellt) : Prop := in_raster w h (fst c) (snd c).
  Definition zout (c : cellt) : Prop := on_edge w h (fst c) (snd c).
  Definition edgeb (c : cellt) : bool := inR w h c && isEdgeCell w h (fst c) (snd c).
  Definition Fz (lab : cellt -> Z) (c : cellt) : bool := negb (lab c =? 0) || edgeb c.

  Lemma inR_iff c : inR w h c = true <-> zdom c.
  Proof. unfold inR, zdom. symmetry. apply in_raster_iff. Qed.
  Lemma edgeb_iff c : edgeb c = true <-> zout c.
  Proof.
    unfold edgeb, zout, on_edge. rewrite andb_true_iff, inR_iff. unfold isEdgeCell. rewrite !orb_true_iff, !Z.eqb_eq. unfold zdom. tauto.
  Qed.
  Lemma zdom_cells c : zdom c <-> In c (cells w h).
  Proof. destruct c as [x y]. rewrite cells_In. reflexivity. Qed.
  Lemma zout_dec c : zout c \/ ~ zout c.
  Proof. destruct (edgeb c) eqn:E; [left; apply edgeb_iff; auto|right; rewrite <- edgeb_iff; congruence]. Qed.

  Definition pend (X : list cellt) (s : zst) (v : cellt) : Prop := In v X \/ In v (map snd (z_pq s)) \/ In v (z_tr s) \/ In v (z_dep s).

  Record ZI (c0 : Z) (X : list cellt) (s : zst) : Prop := {
    zi_k : K nb8 zdom zout e0 c0 (Fz (z_lab s)) (z_dem s) (pend X s);
    zi_lab : forall c, z_lab s c = 0 \/ z_lab s c = 10 /\ zdom c;
    zi_q : forall v, In v X \/ In v (z_tr s) \/ In v (z_dep s) -> z_lab s v = 10;
    zi_key : forall k v, In (k, v) (z_pq s) -> k = z_dem s v;
    zi_edge : forall v, zout v -> z_lab s v = 0 -> In v (map snd (z_pq s));
    zi_room : (length (z_tr s) + length (z_dep s) + unl (z_lab s) w h <= Z.to_nat w * Z.to_nat h)%nat }.

  Definition total (s : zst) : nat := (length (z_pq s) + length (z_tr s) + length (z_dep s) + unl (z_lab s) w h)%nat.

  Lemma Fz_cset lab x v : Fz (cset lab x 10) v = cset (Fz lab) x true v.
  Proof.
    unfold Fz at 1. destruct (cell_eq_dec v x) as [->|N]; [rewrite !cset_same; reflexivity|]. rewrite !cset_other by auto. reflexivity.
  Qed.
  Lemma Fz_lab lab v : lab v <> 0 -> Fz lab v = true.
  Proof. intros H. unfold Fz. destruct (Z.eqb_spec (lab v) 0); [contradiction|reflexivity]. Qed.
  Lemma Fz_in lab v : lab v = 0 -> zout v -> Fz lab v = true.
  Proof. intros _ H. unfold Fz. apply edgeb_iff in H. rewrite H. apply orb_true_r. Qed.
  Lemma Fz_no lab v : lab v = 0 -> ~ zout v -> Fz lab v = false.
  Proof. intros H N. unfold Fz. rewrite H. cbn. destruct (edgeb v) eqn:E; auto. exfalso. apply N, edgeb_iff, E. Qed.
  Lemma Fz_false lab v : Fz lab v = false -> lab v = 0 /\ ~ zout v.
  Proof. unfold Fz. intros H. apply orb_false_iff in H. destruct H as [A B]. apply negb_false_iff, Z.eqb_eq in A. split; auto. rewrite <- edgeb_iff. congruence. Qed.

  (** a cell is labelled and put into one of the queues *)
  Lemma flag_step c0 X s v ni l tr dep : ZI c0 X s -> z_lab s v = 10 -> nb8 v ni -> zdom ni -> z_lab s ni = 0 ->
    (z_dem s v <= z_dem s ni /\ l = z_dem s ni \/ z_dem s v <= c0 /\ z_dem s ni <= c0 /\ l = c0) ->
    (tr = z_tr s ++ [ni] /\ dep = z_dep s \/ tr = z_tr s /\ dep = z_dep s ++ [ni]) ->
    let s' := mkZ (cset (z_dem s) ni l) (cset (z_lab s) ni 10) (z_pq s) tr dep in
    ZI c0 X s' /\ total s' = total s /\ (length tr + length dep + unl (z_lab s') w h = length (z_tr s) + length (z_dep s) + unl (z_lab s) w h)%nat.
  Proof.
    intros I Lv N D L0 Hl Hq s'. pose proof I as [IK IL IQ IY IE IR].
    assert (Q' : forall u, In u tr \/ In u dep <-> In u (z_tr s) \/ In u (z_dep s) \/ u = ni).
    { intros u. destruct Hq as [[-> ->]|[-> ->]]; rewrite in_app_iff; cbn [In]; intuition auto. }
    assert (P' : forall u, pend X s' u <-> pend X s u \/ u = ni).
    { intros u. unfold pend, s'. cbn [z_pq z_tr z_dep]. specialize (Q' u). intuition auto. }
    assert (U : unl (z_lab s) w h = S (unl (cset (z_lab s) ni 10) w h)) by (apply unl_cset; auto; [apply zdom_cells; auto|lia]).
    assert (LEN : (length tr + length dep = S (length (z_tr s) + length (z_dep s)))%nat).
    { destruct Hq as [[-> ->]|[-> ->]]; rewrite app_length; cbn [length]; lia. }
    assert (Fv : Fz (z_lab s) v = true) by (apply Fz_lab; lia).
    assert (HD : zout ni -> l = z_dem s ni).
    { intros O. destruct Hl as [[_ E]|[A [B E]]]; auto. assert (PN : pend X s ni) by (right; left; apply IE; auto).
      destruct (k_pend _ _ _ _ _ _ _ _ IK ni PN). lia. }
    assert (SAME : forall u, (u <> ni \/ zout ni) -> cset (z_dem s) ni l u = z_dem s u).
    { intros u Hu. destruct (cell_eq_dec u ni) as [->|Ne]; [|apply cset_other; auto]. rewrite cset_same. destruct Hu; [contradiction|auto]. }
    split; [constructor|].
    - unfold s' at 1 2. cbn [z_lab z_dem]. destruct (zout_dec ni) as [O|NO].
      + eapply (K_ext _ _ _ _ _ (Fz (z_lab s)) _ (z_dem s) _ (pend X s')).
        * intros u. unfold s'. cbn [z_lab]. rewrite Fz_cset. destruct (cell_eq_dec u ni) as [->|Ne]; [rewrite cset_same; apply Fz_in; auto|rewrite cset_other; auto].
        * intros u. symmetry. apply SAME. auto.
        * reflexivity.
        * apply (K_more _ _ _ _ c0 c0 _ _ (pend X s)); [exact IK|intros u Pu; apply P'; auto|]. intros u Pu. apply P' in Pu. destruct Pu as [Pu| ->].
          -- exact (k_pend _ _ _ _ _ _ _ _ IK u Pu).
          -- apply (k_pend _ _ _ _ _ _ _ _ IK). right. left. auto.
      + eapply (K_ext _ _ _ _ _ (cset (Fz (z_lab s)) ni true) _ (cset (z_dem s) ni l) _ (pend X s')).
        * intros u. unfold s'. cbn [z_lab]. rewrite Fz_cset. reflexivity.
        * reflexivity.
        * reflexivity.
        * apply (K_flag _ _ _ _ nb8_sym c0 _ _ (pend X s) _ v); auto. apply Fz_no; auto.
    - intros c. unfold s'. cbn [z_lab]. destruct (cell_eq_dec c ni) as [->|Ne]; [rewrite cset_same; auto|rewrite cset_other by auto; auto].
    - intros u. unfold s'. cbn [z_lab z_tr z_dep]. intros Hu. destruct (cell_eq_dec u ni) as [->|Ne]; [apply cset_same|rewrite cset_other by auto].
      apply IQ. specialize (Q' u). tauto.
    - intros k u Hu. unfold s'. cbn [z_dem]. rewrite SAME; [apply IY; exact Hu|]. destruct (cell_eq_dec u ni) as [->|Ne]; auto. right.
      assert (PN : pend X s ni) by (right; left; apply (in_map snd) in Hu; exact Hu). destruct (k_pend _ _ _ _ _ _ _ _ IK ni PN) as [FN _].
      destruct (zout_dec ni) as [|NO]; auto. rewrite Fz_no in FN by auto. discriminate FN.
    - intros u Ou. unfold s'. cbn [z_lab z_pq]. destruct (cell_eq_dec u ni) as [->|Ne]; [rewrite cset_same; lia|rewrite cset_other by auto]. auto.
    - unfold s'. cbn [z_lab z_tr z_dep]. lia.
    - unfold total, s'. cbn [z_pq z_tr z_dep z_lab]. lia.
  Qed.

  (** ** ProcessTraceQue_onepass *)
  (** between two iterations: the cell [c] has been popped, neighbours in the directions [ns] have been looked at *)
  Definition looked (c : cellt) (s : zst) (n : nat) : Prop :=
    let ni := off c n in ~ zdom ni \/ z_lab s ni <> 0 \/
    (z_dem s ni <= z_dem s c /\ exists x, nb8 ni x /\ z_lab s x <> 0 /\ z_dem s x < z_dem s ni).

  Lemma zt_fold c0 c X : forall ns s b m, incl ns (dirs D8) -> ZI c0 (c :: X) s -> (b = true -> In c (map snd (z_pq s))) ->
    (total s + (if b then 0 else 1) <= m)%nat ->
    exists s' b', fold_left (zt_visit w h c) ns (s, b) = (s', b') /\ ZI c0 (c :: X) s' /\ (b' = true -> In c (map snd (z_pq s'))) /\
      (total s' + (if b' then 0 else 1) <= m)%nat /\ z_dep s' = z_dep s /\ (length (z_tr s') + unl (z_lab s') w h = length (z_tr s) + unl (z_lab s) w h)%nat /\
      (forall u, z_lab s u <> 0 -> z_lab s' u <> 0) /\ (forall u, z_dem s' u = z_dem s u) /\ (b = true -> b' = true) /\
      (b' = false -> forall n, In n ns -> looked c s' n).
  Proof.
    induction ns as [|n ns IH]; intros s b m Inc I Hb Hm; cbn [fold_left].
    - exists s, b. repeat (split; [solve [auto]|]). intros _ n [].
    - assert (Hn : In n (dirs D8)) by (apply Inc; left; auto). assert (Inc' : incl ns (dirs D8)) by (intros a Ha; apply Inc; right; auto).
      assert (STEP : exists s1 b1, zt_visit w h c (s, b) n = (s1, b1) /\ ZI c0 (c :: X) s1 /\ (b1 = true -> In c (map snd (z_pq s1))) /\
        (total s1 + (if b1 then 0 else 1) <= m)%nat /\ z_dep s1 = z_dep s /\ (length (z_tr s1) + unl (z_lab s1) w h = length (z_tr s) + unl (z_lab s) w h)%nat /\
        (forall u, z_lab s u <> 0 -> z_lab s1 u <> 0) /\ (forall u, z_dem s1 u = z_dem s u) /\ (b = true -> b1 = true) /\ (b1 = false -> looked c s1 n)).
      { unfold zt_visit. set (ni := off c n). destruct (inR w h ni) eqn:IR; cbn [negb].
        2: { exists s, b. repeat (split; [solve [auto]|]). intros _. left. fold ni. rewrite <- inR_iff. congruence. }
        apply inR_iff in IR. destruct (Z.eqb_spec (z_lab s ni) 0) as [L0|L1]; cbn [negb].
        2: { exists s, b. repeat (split; [solve [auto]|]). intros _. right. left. exact L1. }
        destruct (Z.ltb_spec (z_dem s c) (z_dem s ni)) as [Lt|Ge].
        - assert (LC : z_lab s c = 10) by (apply (zi_q _ _ _ I); left; left; auto). rewrite LC.
          destruct (flag_step c0 (c :: X) s c ni (z_dem s ni) (z_tr s ++ [ni]) (z_dep s) I LC (off_nb c n Hn) IR L0) as [I1 [T1 R1]]; [left; lia|left; auto|].
          assert (I2 : ZI c0 (c :: X) (mkZ (z_dem s) (cset (z_lab s) ni 10) (z_pq s) (z_tr s ++ [ni]) (z_dep s))).
          { destruct I1 as [A1 A2 A3 A4 A5 A6]. cbn in *. constructor; cbn; auto.
            - eapply K_ext; [| | |exact A1]; cbn; try reflexivity. intros u. destruct (cell_eq_dec u ni) as [->|]; [apply cset_same|apply cset_other; auto].
            - intros k u Hu. exact (zi_key _ _ _ I k u Hu). }
          eexists. exists b. split; [reflexivity|]. split; [exact I2|]. split; [exact Hb|]. unfold total in *. cbn [z_pq z_tr z_dep z_lab z_dem] in *.
          split; [lia|]. split; [reflexivity|]. split; [lia|]. split; [|split; [auto|split; [auto|]]].
          + intros u Hu. destruct (cell_eq_dec u ni) as [->|]; [rewrite cset_same; lia|rewrite cset_other; auto].
          + intros _. right. left. fold ni. cbn. rewrite cset_same. lia.
        - destruct b.
          + exists s, true. repeat (split; [solve [auto]|]). discriminate.
          + destruct (existsb _ (dirs D8)) eqn:EX.
            * exists s, false. repeat (split; [solve [auto]|]). intros _. right. right. fold ni. split; [lia|].
              apply existsb_exists in EX. destruct EX as [_ [_ EX]]. apply andb_true_iff in EX. destruct EX as [EX LT]. apply andb_true_iff in EX. destruct EX as [_ LB].
              exists (off ni n). split; [apply off_nb; auto|]. apply negb_true_iff, Z.eqb_neq in LB. apply Z.ltb_lt in LT. auto.
            * eexists. exists true. split; [reflexivity|]. split.
              -- destruct I as [A1 A2 A3 A4 A5 A6]. constructor; cbn [z_lab z_dem z_pq z_tr z_dep]; auto.
                 ++ eapply K_ext; [| | |exact A1]; try reflexivity. intros u. unfold pend. cbn [z_pq z_tr z_dep map snd In]. intuition auto.
                 ++ intros k u [E|Hu]; [congruence|auto].
                 ++ intros u O L. cbn [map snd In]. auto.
              -- cbn [z_lab z_dem z_pq z_tr z_dep map snd In]. unfold total in *. cbn [z_lab z_dem z_pq z_tr z_dep length] in *. repeat (split; [solve [auto; lia]|]). discriminate. }
      destruct STEP as [s1 [b1 [E1 [I1 [B1 [M1 [D1 [R1 [L1 [V1 [BB1 K1]]]]]]]]]]]. rewrite E1.
      destruct (IH s1 b1 m Inc' I1 B1 M1) as [s2 [b2 [E2 [I2 [B2 [M2 [D2 [R2 [L2 [V2 [BB2 K2]]]]]]]]]]]. exists s2, b2. split; [exact E2|].
      split; [exact I2|]. split; [exact B2|]. split; [exact M2|]. split; [congruence|]. split; [lia|]. split; [auto|]. split; [intros u; rewrite V2; auto|].
      split; [auto|]. intros Hb2 k [<-|Hk]; [|auto]. assert (Hb1 : b1 = false) by (destruct b1; auto; rewrite BB2 in Hb2 by auto; discriminate Hb2).
      destruct (K1 Hb1) as [A|[A|[A [x [B [C D]]]]]]; [left; exact A|right; left; auto|right; right]. rewrite !V2. split; [exact A|]. exists x. rewrite !V2. auto.
  Qed.

  Lemma trace_ok c0 X s m : ZI c0 X s -> (total s <= m)%nat ->
    exists s', ProcessTraceQue_onepass w h s = Some s' /\ ZI c0 X s' /\ (total s' <= m)%nat /\ z_tr s' = [] /\ z_dep s' = z_dep s /\
      forall u, z_lab s u <> 0 -> z_lab s' u <> 0.
  Proof.
    intros I Hm. unfold ProcessTraceQue_onepass.
    destruct (while_pop_inv zt_pop (fun c s => fst (fold_left (zt_visit w h c) (dirs D8) (s, false)))
      (fun s1 => ZI c0 X s1 /\ (total s1 <= m)%nat /\ z_dep s1 = z_dep s /\ forall u, z_lab s u <> 0 -> z_lab s1 u <> 0)
      (fun s1 => length (z_tr s1) + unl (z_lab s1) w h)%nat) with (fuel := S (Z.to_nat w * Z.to_nat h)) (i := O) (s := s) as [s' [i' [E [[A [B [C D]]] G]]]].
    - clear. intros i s1 c s2 [I [Hm [Hd HL]]] E. unfold zt_pop in E. destruct (z_tr s1) as [|c1 q] eqn:TR; [discriminate E|]. injection E as <- <-.
      assert (I2 : ZI c0 (c1 :: X) (mkZ (z_dem s1) (z_lab s1) (z_pq s1) q (z_dep s1))).
      { destruct I as [A1 A2 A3 A4 A5 A6]. constructor; cbn [z_lab z_dem z_pq z_tr z_dep]; auto.
        - eapply K_ext; [| | |exact A1]; try reflexivity. intros u. unfold pend. rewrite TR. cbn [z_pq z_tr z_dep In]. intuition auto.
        - intros u Hu. apply A3. rewrite TR. cbn [In] in *. intuition auto.
        - rewrite TR in A6. cbn [length] in A6. lia. }
      assert (T2 : (total (mkZ (z_dem s1) (z_lab s1) (z_pq s1) q (z_dep s1)) + 1 <= m)%nat) by (unfold total in *; rewrite TR in Hm; cbn [z_lab z_dem z_pq z_tr z_dep length] in *; lia).
      destruct (zt_fold c0 c1 X (dirs D8) _ false m (incl_refl _) I2 ltac:(discriminate) T2) as [s3 [b3 [E3 [I3 [B3 [M3 [D3 [R3 [L3 [V3 [_ K3]]]]]]]]]]].
      rewrite E3. cbn [fst]. cbn [z_lab z_dem z_pq z_tr z_dep length] in *. split; [split; [|split; [destruct b3; lia|split; [congruence|auto]]]|lia].
      pose proof I3 as [A1 A2 A3 A4 A5 A6]. constructor; auto.
      + destruct b3.
        * (* still pending, in the priority queue *)
          eapply K_ext; [| | |exact A1]; try reflexivity. intros u. unfold pend. cbn [In]. specialize (B3 eq_refl). intuition (subst; auto).
        * apply (K_done nb8 zdom zout e0 nb8_sym c0 _ _ (pend (c1 :: X) s3) _ c1 A1).
          -- intros u [[<-|Hu]|Hu]; [left; auto|right; left; auto|right; right; auto].
          -- intros u [Hu|Hu]; [left; right; auto|right; auto].
          -- intros u Nu Du Fu. destruct (nb_off _ _ Nu) as [n [Hn ->]]. apply Fz_false in Fu as FU. destruct FU as [L0 _].
             destruct (K3 eq_refl n Hn) as [Q|[Q|[Q [x [Q1 [Q2 Q3]]]]]]; [contradiction|contradiction|].
             assert (FX := Fz_lab _ _ Q2).
             assert (LESS : forall v, pend (c1 :: X) s3 v -> z_dem s3 v <= z_dem s3 x -> pend X s3 v).
             { intros v [[<-|Hv]|Hv] Le; [lia|left; auto|right; auto]. }
             destruct (k_front _ _ _ _ _ _ _ _ A1 x (off c1 n) FX (nb8_sym _ _ Q1) Du Fu) as [PX|W].
             ++ apply (way_end _ _ _ _ _ _ _ x); auto; try lia. apply LESS; auto. lia.
             ++ apply (way_le _ _ _ _ _ (z_dem s3 x)); [|lia]. eapply way_mono; [|exact W]. exact LESS.
      + intros u Hu. apply A3. destruct Hu as [Hu|Hu]; [left; right; auto|auto].
    - auto.
    - pose proof (zi_room _ _ _ I). lia.
    - exists s'. split; [exact E|]. split; [exact A|]. split; [exact B|]. split; [|auto]. unfold zt_pop in G. destruct (z_tr s'); [auto|discriminate G].
  Qed.

  (** ** ProcessPit_onepass *)
  Lemma zp_fold c0 c X : forall ns s s', incl ns (dirs D8) -> ZI c0 (c :: X) s -> z_dem s c = c0 ->
    s' = fold_left (zp_visit w h c0 c) ns s ->
    ZI c0 (c :: X) s' /\ total s' = total s /\ z_dem s' c = c0 /\
    (length (z_tr s') + length (z_dep s') + unl (z_lab s') w h = length (z_tr s) + length (z_dep s) + unl (z_lab s) w h)%nat /\
    (length (z_dep s') + unl (z_lab s') w h <= length (z_dep s) + unl (z_lab s) w h)%nat /\
    (forall u, z_lab s u <> 0 -> z_lab s' u <> 0) /\ (forall n, In n ns -> zdom (off c n) -> z_lab s' (off c n) <> 0).
  Proof.
    induction ns as [|n ns IH]; intros s s' Inc I Hc ES; cbn [fold_left] in ES.
    - subst s'. repeat (split; [solve [auto]|]). intros n [].
    - assert (Hn : In n (dirs D8)) by (apply Inc; left; auto). assert (Inc' : incl ns (dirs D8)) by (intros a Ha; apply Inc; right; auto).
      assert (LC : z_lab s c = 10) by (apply (zi_q _ _ _ I); left; left; auto).
      assert (STEP : let s1 := zp_visit w h c0 c s n in ZI c0 (c :: X) s1 /\ total s1 = total s /\ z_dem s1 c = c0 /\
        (length (z_tr s1) + length (z_dep s1) + unl (z_lab s1) w h = length (z_tr s) + length (z_dep s) + unl (z_lab s) w h)%nat /\
        (length (z_dep s1) + unl (z_lab s1) w h <= length (z_dep s) + unl (z_lab s) w h)%nat /\
        (forall u, z_lab s u <> 0 -> z_lab s1 u <> 0) /\ (zdom (off c n) -> z_lab s1 (off c n) <> 0)).
      { unfold zp_visit. set (ni := off c n). destruct (inR w h ni) eqn:IR; cbn [negb]; cbn zeta.
        2: { repeat (split; [solve [auto]|]). intros D. apply inR_iff in D. congruence. }
        apply inR_iff in IR. destruct (Z.eqb_spec (z_lab s ni) 0) as [L0|L1]; cbn [negb]; [|repeat (split; [solve [auto]|]); auto].
        rewrite LC. assert (NE : c <> ni) by (intros E; rewrite <- E in L0; lia).
        assert (MON : forall u, z_lab s u <> 0 -> cset (z_lab s) ni 10 u <> 0) by (intros u Hu; destruct (cell_eq_dec u ni) as [->|]; [rewrite cset_same; lia|rewrite cset_other; auto]).
        assert (U : unl (z_lab s) w h = S (unl (cset (z_lab s) ni 10) w h)) by (apply unl_cset; auto; [apply zdom_cells; auto|lia]).
        rewrite Z.gtb_ltb. destruct (Z.ltb_spec c0 (z_dem s ni)) as [Lt|Ge].
        - destruct (flag_step c0 (c :: X) s c ni (z_dem s ni) (z_tr s ++ [ni]) (z_dep s) I LC (off_nb c n Hn) IR L0) as [I1 [T1 R1]]; [left; lia|left; auto|].
          cbn [z_lab z_dem z_pq z_tr z_dep] in *. split; [|split; [exact T1|split; [exact Hc|split; [exact R1|split; [lia|split; [exact MON|intros _; rewrite cset_same; lia]]]]]].
          destruct I1 as [A1 A2 A3 A4 A5 A6]. cbn [z_lab z_dem z_pq z_tr z_dep] in *. constructor; cbn [z_lab z_dem z_pq z_tr z_dep]; auto.
          + eapply K_ext; [| | |exact A1]; cbn; try reflexivity. intros u. destruct (cell_eq_dec u ni) as [->|]; [apply cset_same|apply cset_other; auto].
          + intros k u Hu. exact (zi_key _ _ _ I k u Hu).
        - destruct (flag_step c0 (c :: X) s c ni c0 (z_tr s) (z_dep s ++ [ni]) I LC (off_nb c n Hn) IR L0) as [I1 [T1 R1]]; [right; lia|right; auto|].
          cbn [z_lab z_dem z_pq z_tr z_dep] in *. split; [exact I1|split; [exact T1|split; [rewrite cset_other by auto; exact Hc|split; [exact R1|split; [lia|split; [exact MON|intros _; rewrite cset_same; lia]]]]]]. }
      destruct STEP as [I1 [T1 [C1 [R1 [Q1 [L1 N1]]]]]]. specialize (IH _ _ Inc' I1 C1 ES). destruct IH as [I2 [T2 [C2 [R2 [Q2 [L2 N2]]]]]].
      split; [exact I2|]. split; [congruence|]. split; [exact C2|]. split; [lia|]. split; [lia|]. split; [auto|]. intros k [<-|Hk] D; auto.
  Qed.

  (** all neighbours of [c] are labelled: it is done *)
  Lemma ZI_done c0 c X s : ZI c0 (c :: X) s -> (forall n, In n (dirs D8) -> zdom (off c n) -> z_lab s (off c n) <> 0) -> ZI c0 X s.
  Proof.
    intros [A1 A2 A3 A4 A5 A6] N. constructor; auto.
    - apply (K_done nb8 zdom zout e0 nb8_sym c0 _ _ (pend (c :: X) s) _ c A1).
      + intros u [[<-|Hu]|Hu]; [left; auto|right; left; auto|right; right; auto].
      + intros u [Hu|Hu]; [left; right; auto|right; auto].
      + intros u Nu Du Fu. exfalso. destruct (nb_off _ _ Nu) as [n [Hn ->]]. apply Fz_false in Fu. destruct Fu as [L0 _]. exact (N n Hn Du L0).
    - intros u Hu. apply A3. destruct Hu as [Hu|Hu]; [left; right; auto|auto].
  Qed.

  Lemma pit_ok c0 X s m : ZI c0 X s -> (total s <= m)%nat -> (forall c, In c (z_dep s) -> z_dem s c = c0) ->
    exists s', ProcessPit_onepass w h c0 s = Some s' /\ ZI c0 X s' /\ (total s' <= m)%nat /\ z_dep s' = [] /\
      forall u, z_lab s u <> 0 -> z_lab s' u <> 0.
  Proof.
    intros I Hm HD. unfold ProcessPit_onepass.
    destruct (while_pop_inv zp_pop (fun c s => fold_left (zp_visit w h c0 c) (dirs D8) s)
      (fun s1 => ZI c0 X s1 /\ (total s1 <= m)%nat /\ (forall c, In c (z_dep s1) -> z_dem s1 c = c0) /\ forall u, z_lab s u <> 0 -> z_lab s1 u <> 0)
      (fun s1 => length (z_dep s1) + unl (z_lab s1) w h)%nat) with (fuel := S (Z.to_nat w * Z.to_nat h)) (i := O) (s := s) as [s' [i' [E [[A [B [C D]]] G]]]].
    - clear HD I Hm. intros i s1 c s2 [I [Hm [Hd HL]]] E. unfold zp_pop in E. destruct (z_dep s1) as [|c1 q] eqn:DP; [discriminate E|]. injection E as <- <-.
      set (s2 := mkZ (z_dem s1) (z_lab s1) (z_pq s1) (z_tr s1) q).
      assert (I2 : ZI c0 (c1 :: X) s2).
      { destruct I as [A1 A2 A3 A4 A5 A6]. constructor; unfold s2; cbn [z_lab z_dem z_pq z_tr z_dep]; auto.
        - eapply K_ext; [| | |exact A1]; try reflexivity. intros u. unfold pend. rewrite DP. cbn [z_pq z_tr z_dep In]. intuition auto.
        - intros u Hu. apply A3. rewrite DP. cbn [In] in *. intuition auto.
        - rewrite DP in A6. cbn [length] in A6. lia. }
      assert (C2 : z_dem s2 c1 = c0) by (apply Hd; left; auto).
      (* the depression cells keep their level: all cells raised get c0, and labelled cells are not touched *)
      assert (DEP : forall ns s3, incl ns (dirs D8) -> ZI c0 (c1 :: X) s3 -> z_dem s3 c1 = c0 -> (forall c, In c (z_dep s3) -> z_dem s3 c = c0) ->
                forall s4, s4 = fold_left (zp_visit w h c0 c1) ns s3 -> forall c, In c (z_dep s4) -> z_dem s4 c = c0).
      { induction ns as [|n ns IH]; intros s3 Inc I3 C3 D3 s4 ES c; cbn [fold_left] in ES; [subst s4; apply D3|].
        destruct (zp_fold c0 c1 X [n] s3 (zp_visit w h c0 c1 s3 n)) as [I4 [_ [C4 _]]]; auto; [intros a [<-|[]]; apply Inc; left; auto|].
        apply (IH (zp_visit w h c0 c1 s3 n)); auto; [intros a Ha; apply Inc; right; auto|]. intros a. unfold zp_visit.
        destruct (negb (inR w h (off c1 n))); [apply D3|]. destruct (Z.eqb_spec (z_lab s3 (off c1 n)) 0) as [L0|]; cbn [negb]; [|apply D3].
        destruct (z_dem s3 (off c1 n) >? c0); cbn [z_dep z_dem]; [apply D3|]. intros Ha. apply in_app_iff in Ha.
        destruct (cell_eq_dec a (off c1 n)) as [->|Ne]; [apply cset_same|rewrite cset_other by auto]. destruct Ha as [Ha|[<-|[]]]; [apply D3; auto|contradiction]. }
      remember (fold_left (zp_visit w h c0 c1) (dirs D8) s2) as s5 eqn:E5.
      destruct (zp_fold c0 c1 X (dirs D8) s2 s5 (incl_refl _) I2 C2 E5) as [I3 [T3 [C3 [R3 [Q3 [L3 N3]]]]]].
      split; [split; [|split; [|split]]|].
      + apply (ZI_done c0 c1); auto.
      + rewrite T3. clear - Hm DP. unfold s2, total in *. rewrite DP in Hm. cbn [z_lab z_dem z_pq z_tr z_dep length] in *. lia.
      + apply (DEP (dirs D8) s2 (incl_refl _) I2 C2); [|exact E5]. intros c Hc. apply Hd. right. exact Hc.
      + intros u Hu. apply L3. apply HL. exact Hu.
      + change (z_dep s2) with q in Q3. change (z_lab s2) with (z_lab s1) in Q3. cbn [length]. lia.
    - auto.
    - pose proof (zi_room _ _ _ I). lia.
    - exists s'. split; [exact E|]. split; [exact A|]. split; [exact B|]. split; [|auto]. unfold zp_pop in G. destruct (z_dep s'); [auto|discriminate G].
  Qed.

  (** ** The main loop *)
  Lemma dem_labelled c0 X s s' : ZI c0 X s -> ZI c0 X s' -> forall v, z_lab s v <> 0 -> z_lab s' v <> 0 -> z_dem s v = z_dem s' v.
  Proof.
    intros I I' v L L'. apply (lev_unique nb8 zdom zout e0 v).
    - apply (k_lev _ _ _ _ _ _ _ _ (zi_k _ _ _ I)). apply Fz_lab; auto.
    - apply (k_lev _ _ _ _ _ _ _ _ (zi_k _ _ _ I')). apply Fz_lab; auto.
  Qed.

  Lemma zm_fold c : forall ns s m, incl ns (dirs D8) -> ZI (fst c) [snd c] s -> z_dem s (snd c) = fst c -> z_tr s = [] -> z_dep s = [] -> (total s <= m)%nat ->
    exists s', fold_left (zm_visit w h c) ns (Some s) = Some s' /\ ZI (fst c) [snd c] s' /\ (total s' <= m)%nat /\ z_tr s' = [] /\ z_dep s' = [] /\
      (forall u, z_lab s u <> 0 -> z_lab s' u <> 0) /\ forall n, In n ns -> zdom (off (snd c) n) -> z_lab s' (off (snd c) n) <> 0.
  Proof.
    induction ns as [|n ns IH]; intros s m Inc I Hc T0 D0 Hm; cbn [fold_left].
    - exists s. repeat (split; [solve [auto]|]). intros n [].
    - assert (Hn : In n (dirs D8)) by (apply Inc; left; auto). assert (Inc' : incl ns (dirs D8)) by (intros a Ha; apply Inc; right; auto).
      assert (LC : z_lab s (snd c) = 10) by (apply (zi_q _ _ _ I); left; left; auto).
      assert (STEP : exists s1, zm_visit w h c (Some s) n = Some s1 /\ ZI (fst c) [snd c] s1 /\ (total s1 <= m)%nat /\ z_tr s1 = [] /\ z_dep s1 = [] /\
        (forall u, z_lab s u <> 0 -> z_lab s1 u <> 0) /\ (zdom (off (snd c) n) -> z_lab s1 (off (snd c) n) <> 0)).
      { unfold zm_visit. set (ni := off (snd c) n). destruct (inR w h ni) eqn:IR; cbn [negb].
        2: { exists s. repeat (split; [solve [auto]|]). intros D. apply inR_iff in D. congruence. }
        apply inR_iff in IR. destruct (Z.eqb_spec (z_lab s ni) 0) as [L0|L1]; cbn [negb]; [|exists s; repeat (split; [solve [auto]|]); auto].
        rewrite LC. assert (NE : snd c <> ni) by (intros E; rewrite <- E in L0; lia).
        assert (MON : forall u, z_lab s u <> 0 -> cset (z_lab s) ni 10 u <> 0) by (intros u Hu; destruct (cell_eq_dec u ni) as [->|]; [rewrite cset_same; lia|rewrite cset_other; auto]).
        destruct (Z.leb_spec (z_dem s ni) (fst c)) as [Le|Gt].
        - destruct (flag_step (fst c) [snd c] s (snd c) ni (fst c) (z_tr s) (z_dep s ++ [ni]) I LC (off_nb _ n Hn) IR L0) as [I1 [T1 R1]]; [right; lia|right; auto|].
          destruct (pit_ok (fst c) [snd c] _ m I1) as [s2 [E2 [I2 [M2 [D2 L2]]]]].
          + rewrite T1. exact Hm.
          + cbn [z_dep z_dem]. rewrite D0. intros a [<-|[]]. apply cset_same.
          + rewrite E2. destruct (trace_ok (fst c) [snd c] s2 m I2 M2) as [s3 [E3 [I3 [M3 [T3 [D3 L3]]]]]]. exists s3. cbn [z_lab] in L2.
            split; [exact E3|]. split; [exact I3|]. split; [exact M3|]. split; [exact T3|]. split; [congruence|]. split; [auto|].
            intros _. apply L3, L2. rewrite cset_same. lia.
        - destruct (flag_step (fst c) [snd c] s (snd c) ni (z_dem s ni) (z_tr s ++ [ni]) (z_dep s) I LC (off_nb _ n Hn) IR L0) as [I1 [T1 R1]]; [left; lia|left; auto|].
          set (s2 := mkZ (z_dem s) (cset (z_lab s) ni 10) (z_pq s) (z_tr s ++ [ni]) (z_dep s)).
          assert (I2 : ZI (fst c) [snd c] s2).
          { destruct I1 as [A1 A2 A3 A4 A5 A6]. cbn [z_lab z_dem z_pq z_tr z_dep] in *. constructor; unfold s2; cbn [z_lab z_dem z_pq z_tr z_dep]; auto.
            - eapply K_ext; [| | |exact A1]; cbn; try reflexivity. intros u. destruct (cell_eq_dec u ni) as [->|]; [apply cset_same|apply cset_other; auto].
            - intros k u Hu. exact (zi_key _ _ _ I k u Hu). }
          destruct (trace_ok (fst c) [snd c] s2 m I2) as [s3 [E3 [I3 [M3 [T3 [D3 L3]]]]]]; [unfold total, s2 in *; cbn [z_lab z_dem z_pq z_tr z_dep] in *; lia|].
          exists s3. split; [exact E3|]. split; [exact I3|]. split; [exact M3|]. split; [exact T3|]. split; [rewrite D3; exact D0|]. split; [intros u Hu; apply L3, MON; auto|].
          intros _. apply L3. unfold s2. cbn [z_lab]. rewrite cset_same. lia. }
      destruct STEP as [s1 [E1 [I1 [M1 [T1 [D1 [L1 N1]]]]]]]. rewrite E1.
      assert (C1 : z_dem s1 (snd c) = fst c).
      { rewrite <- Hc. symmetry. apply (dem_labelled (fst c) [snd c]); auto; [lia|]. apply L1. lia. }
      destruct (IH s1 m Inc' I1 C1 T1 D1 M1) as [s2 [E2 [I2 [M2 [T2 [D2 [L2 N2]]]]]]]. exists s2. repeat (split; [solve [auto]|]). intros k [<-|Hk] D; auto.
  Qed.

  Lemma zm_step (tb : nat -> nat) : forall i s c q, (exists c0, ZI c0 [] s) -> z_tr s = [] -> z_dep s = [] -> pq_pop (fun a b : Z * cellt => fst a >? fst b) (tb i) (z_pq s) = Some (c, q) ->
      exists s', fold_left (zm_visit w h c) (dirs D8) (Some (mkZ (z_dem s) (cset (z_lab s) (snd c) 10) q (z_tr s) (z_dep s))) = Some s' /\
        (exists c0, ZI c0 [] s') /\ z_tr s' = [] /\ z_dep s' = [] /\ (total s' < total s)%nat.
  Proof.
    intros i s c q [c0 I] T0 D0 E. apply pq_pop_some in E. destruct E as [PM MIN].
      assert (INC : In c (z_pq s)) by (apply (Permutation_in _ (Permutation_sym PM)); left; auto).
      set (s1 := mkZ (z_dem s) (cset (z_lab s) (snd c) 10) q (z_tr s) (z_dep s)).
      pose proof I as [A1 A2 A3 A4 A5 A6].
      assert (PC : pend [] s (snd c)) by (right; left; apply in_map; auto).
      assert (KC : fst c = z_dem s (snd c)) by (apply A4; destruct c; exact INC).
      assert (DC : zdom (snd c)) by (apply (k_dom _ _ _ _ _ _ _ _ A1); apply (k_pend _ _ _ _ _ _ _ _ A1 _ PC)).
      assert (PP : forall u, pend [] s u <-> pend [snd c] s1 u).
      { intros u. unfold pend, s1. cbn [z_pq z_tr z_dep In]. rewrite T0, D0. cbn [In].
        assert (In u (map snd (z_pq s)) <-> snd c = u \/ In u (map snd q)).
        { split; [intros H; apply (Permutation_in _ (Permutation_map snd PM)) in H; exact H|intros H; apply (Permutation_in _ (Permutation_sym (Permutation_map snd PM))); exact H]. }
        tauto. }
      assert (LOW : forall u, pend [] s u -> Fz (z_lab s) u = true /\ fst c <= z_dem s u).
      { intros u Pu. split; [apply (k_pend _ _ _ _ _ _ _ _ A1 _ Pu)|]. destruct Pu as [[]|[Pu|Pu]]; [|rewrite T0, D0 in Pu; destruct Pu as [[]|[]]].
        apply in_map_iff in Pu. destruct Pu as [[k v] [<- Hv]]. cbn [snd]. rewrite <- (A4 k v Hv). specialize (MIN _ Hv). cbn [fst] in MIN. rewrite Z.gtb_ltb in MIN. apply Z.ltb_ge in MIN. exact MIN. }
      assert (UL : (unl (z_lab s1) w h <= unl (z_lab s) w h)%nat) by (apply unl_le; intros u Hu; unfold s1; cbn [z_lab]; destruct (cell_eq_dec u (snd c)) as [->|]; [rewrite cset_same; lia|rewrite cset_other; auto]).
      assert (LEN : length (z_pq s) = S (length q)) by (rewrite (Permutation_length PM); reflexivity).
      assert (I1 : ZI (fst c) [snd c] s1).
      { constructor; unfold s1 in *; cbn [z_lab z_dem z_pq z_tr z_dep] in *.
        - eapply (K_ext _ _ _ _ _ (Fz (z_lab s)) _ (z_dem s) _ (pend [] s)).
          + intros u. rewrite Fz_cset. destruct (cell_eq_dec u (snd c)) as [->|]; [rewrite cset_same; apply LOW; auto|rewrite cset_other; auto].
          + reflexivity.
          + exact PP.
          + apply (K_more _ _ _ _ c0 (fst c) _ _ (pend [] s)); auto.
        - intros u. destruct (cell_eq_dec u (snd c)) as [->|]; [rewrite cset_same; auto|rewrite cset_other; auto].
        - intros u Hu. rewrite T0, D0 in Hu. destruct Hu as [[<-|[]]|[[]|[]]]. apply cset_same.
        - intros k u Hu. apply A4. apply (Permutation_in _ (Permutation_sym PM)). right. auto.
        - intros u Ou. destruct (cell_eq_dec u (snd c)) as [->|Ne]; [rewrite cset_same; lia|rewrite cset_other by auto]. intros L. specialize (A5 u Ou L).
          apply (Permutation_in _ (Permutation_map snd PM)) in A5. destruct A5 as [E|A5]; [congruence|exact A5].
        - lia. }
      destruct (zm_fold c (dirs D8) s1 (total s1) (incl_refl _) I1) as [s2 [E2 [I2 [M2 [T2 [D2 [L2 N2]]]]]]]; auto.
      exists s2. split; [exact E2|]. split; [exists (fst c); apply (ZI_done (fst c) (snd c)); auto|]. split; [exact T2|]. split; [exact D2|].
      assert (TS : (total s1 < total s)%nat) by (clear E2 I2 M2 L2; unfold total, s1 in *; cbn [z_lab z_dem z_pq z_tr z_dep] in *; lia). clear - TS M2. lia.
  Qed.

  Lemma zm_loop_ok tb : forall fuel i s, (exists c0, ZI c0 [] s) -> z_tr s = [] -> z_dep s = [] -> (total s <= fuel)%nat ->
    exists s', zm_loop tb w h fuel i s = Some s' /\ (exists c0, ZI c0 [] s') /\ z_pq s' = [] /\ z_tr s' = [] /\ z_dep s' = [].
  Proof.
    assert (KEY : forall (q : list (Z * cellt)), q <> [] -> exists a, In a q /\ forall b, In b q -> (fst a >? fst b) = false) by (intros q; apply (min_by_key fst)).
    pose proof (zm_step tb) as STEP.
    induction fuel as [|f IH]; intros i s I T0 D0 Hm; cbn [zm_loop]; destruct (pq_pop _ (tb i) (z_pq s)) as [[c q]|] eqn:E.
    - exfalso. destruct (STEP i s c q I T0 D0 E) as [s' [_ [_ [_ [_ LT]]]]]. lia.
    - exists s. repeat (split; [solve [auto]|]). split; auto. eapply pq_pop_none; [|exact E]. apply KEY.
    - destruct (STEP i s c q I T0 D0 E) as [s' [E' [I' [T' [D' LT]]]]]. rewrite E'. apply IH; auto. lia.
    - exists s. repeat (split; [solve [auto]|]). split; auto. eapply pq_pop_none; [|exact E]. apply KEY.
  Qed.
End Zhou.

Lemma z_seeds_In w h c : 0 < w -> 0 < h -> (In c (z_seeds w h) <-> zout w h c).
Proof.
  intros Hw Hh. destruct c as [x y]. unfold z_seeds, zout, on_edge, in_raster. cbn [fst snd]. rewrite !in_app_iff, !in_map_iff. split.
  - intros [[a [E Ha]]|[[a [E Ha]]|[[a [E Ha]]|[a [E Ha]]]]]; apply zrange_In in Ha; injection E as <- <-; lia.
  - intros [[Hx Hy] He].
    destruct (Z.eq_dec y 0) as [->|Hy0]; [left; exists x; rewrite zrange_In; split; [auto|lia]|].
    destruct (Z.eq_dec y (h - 1)) as [->|Hy1]; [right; left; exists x; rewrite zrange_In; split; [auto|lia]|].
    destruct He as [->|[?|[->|?]]]; try lia.
    + right; right; left. exists y. rewrite zrange_In. split; [auto|lia].
    + right; right; right. exists y. rewrite zrange_In. split; [auto|lia].
Qed.

Lemma esc_drains w h dem L c : esc nb8 (zdom w h) (zout w h) (fun c => dem (fst c) (snd c)) L c <-> drains D8 w h dem L (fst c) (snd c).
Proof.
  split.
  - induction 1 as [x D O Le|x y D Le N E IH]; [apply drains_edge; auto|eapply drains_step; eauto].
  - intros H. destruct c as [x y]. cbn [fst snd] in H. induction H as [x y O Le|x y x' y' R Le A D IH].
    + apply esc_out; auto. destruct O. auto.
    + apply (esc_step _ _ _ _ _ (x, y) (x', y')); auto.
Qed.

Lemma zhou_correct tb w h dem : 0 < w -> 0 < h ->
  exists r, PriorityFlood_Zhou2016 tb w h dem = Some r /\ forall x y, in_raster w h x y -> drainage_level D8 w h dem x y (r x y).
Proof.
  intros Hw Hh. unfold PriorityFlood_Zhou2016. set (e := fun c : cellt => dem (fst c) (snd c)).
  set (s0 := mkZ e (fun _ => 0) (rev (map (fun c => (e c, c)) (z_seeds w h))) [] []).
  assert (PQ : forall v, In v (map snd (z_pq s0)) <-> zout w h v).
  { intros v. unfold s0. cbn [z_pq]. rewrite map_rev, <- in_rev, map_map, in_map_iff, <- z_seeds_In by auto. cbn [snd]. split; [intros [a [<- H]]; auto|intros H; exists v; auto]. }
  destruct (zm_loop_ok w h e tb (length (z_seeds w h) + Z.to_nat w * Z.to_nat h) 0 s0) as [s [E [[c0 I] [Q1 [Q2 Q3]]]]].
  - (* the lowest elevation of a seed is a lower bound *)
    assert (M : exists c0, forall v, zout w h v -> c0 <= e v).
    { assert (X : forall q : list cellt, exists c0, forall v, In v q -> c0 <= e v).
      { induction q as [|a q [c0 IH]]; [exists 0; intros v []|]. exists (Z.min (e a) c0). intros v [<-|Hv]; [lia|]. specialize (IH v Hv). lia. }
      destruct (X (z_seeds w h)) as [c0 Hc]. exists c0. intros v Hv. apply Hc, z_seeds_In; auto. }
    destruct M as [c0 Hc]. exists c0.
    assert (FF : forall v, Fz w h (fun _ => 0) v = true <-> zout w h v) by (intros v; unfold Fz; change (negb (0 =? 0)) with false; rewrite orb_false_l; exact (edgeb_iff w h e v)).
    constructor; unfold s0; cbn [z_lab z_dem z_pq z_tr z_dep].
    + constructor.
      * intros v _ O. apply FF. auto.
      * intros v Hv. apply FF in Hv. destruct Hv. auto.
      * reflexivity.
      * intros v Hv. apply FF in Hv. split; [apply esc_out; auto; [destruct Hv; auto|lia]|]. intros L' EL. exact (esc_here _ _ _ _ _ _ EL).
      * intros v [[]|[Pv|[[]|[]]]]. apply PQ in Pv. split; [apply FF; auto|auto].
      * intros v u Hv _ _ _. left. right. left. apply PQ, FF, Hv.
    + auto.
    + intros v [[]|[[]|[]]].
    + intros k v Hv. apply in_rev, in_map_iff in Hv. destruct Hv as [a [Ea _]]. injection Ea as <- <-. reflexivity.
    + intros v Ov _. apply PQ. auto.
    + cbn [length]. pose proof (unl_bound (fun _ => 0) w h). lia.
  - reflexivity.
  - reflexivity.
  - unfold total, s0. cbn [z_pq z_tr z_dep z_lab length]. rewrite rev_length, map_length. pose proof (unl_bound (fun _ => 0) w h). lia.
  - exists (fun x y => z_dem s (x, y)). split; [change (option_map (fun s => fun x y => z_dem s (x, y)) (zm_loop tb w h (length (z_seeds w h) + Z.to_nat w * Z.to_nat h) 0 s0) = Some (fun x y => z_dem s (x, y))); rewrite E; reflexivity|]. intros x y R.
    assert (Fx : Fz w h (z_lab s) (x, y) = true).
    { apply (K_end nb8 (zdom w h) (zout w h) e nb8_sym c0 _ _ _ (zi_k _ _ _ _ _ _ I)); [|exact R|].
      - intros v [[]|[Pv|[Pv|Pv]]]; [rewrite Q1 in Pv|rewrite Q2 in Pv|rewrite Q3 in Pv]; destruct Pv.
      - destruct (orig_correct (fun n => n) D8 w h dem Hw Hh) as [r [_ Hr]]. destruct (Hr x y R) as [D _]. exists (r x y). apply esc_drains. exact D. }
    destruct (k_lev _ _ _ _ _ _ _ _ (zi_k _ _ _ _ _ _ I) _ Fx) as [A B]. split; [apply esc_drains in A; exact A|].
    intros L' D. apply B. apply esc_drains. exact D.
Qed.
