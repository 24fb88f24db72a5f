(** Correctness of PriorityFlood_Wei2018. *)
From Coq Require Import ZArith List Lia Bool Permutation.
From Verif Require Import Base Res RasterSpec RasterFacts Kahn FlowModel FlowProofs FlatsModel FlatsProofs TraceFlood ZhouModel ZhouProofs WeiModel.
Open Scope Z_scope.

Definition unf (fl : cellt -> bool) (w h : Z) : nat := length (filter (fun c => negb (fl c)) (cells w h)).
Lemma unf_cset fl w h c : In c (cells w h) -> fl c = false -> unf fl w h = S (unf (cset fl c true) w h).
Proof.
  unfold unf. intros Hin Hc. pose proof (cells_NoDup w h) as Hnd. revert Hin Hnd. generalize (cells w h) as q.
  induction q as [|a q IH]; intros Hin Hnd; [contradiction|]. apply NoDup_cons_iff in Hnd. destruct Hnd as [Hni Hnd].
  destruct Hin as [->|Hin].
  - cbn [filter]. rewrite cset_same, Hc. cbn [negb length]. f_equal. apply filter_ext_length.
    intros b Hb. rewrite cset_other; auto. intros ->; auto.
  - cbn [filter]. rewrite cset_other by (intros ->; auto). destruct (negb (fl a)); cbn [length]; rewrite (IH Hin Hnd); reflexivity.
Qed.
Lemma unf_bound fl w h : (unf fl w h <= Z.to_nat w * Z.to_nat h)%nat.
Proof. unfold unf. rewrite <- cells_length. generalize (cells w h). induction l as [|a l IH]; simpl; [lia|]. destruct (negb (fl a)); simpl; lia. Qed.

Lemma whileR_inv {S C : Type} (pop : nat -> S -> option (C * S)) (body : C -> S -> res S) (J : S -> Prop) (mu : S -> nat) :
  (forall i s c s1, J s -> pop i s = Some (c, s1) -> exists s2, body c s1 = Ok s2 /\ J s2 /\ (mu s2 < mu s)%nat) ->
  forall fuel i s, J s -> (mu s <= fuel)%nat ->
  exists s' i', whileR pop body fuel i s = Some (Ok s') /\ J s' /\ pop i' s' = None.
Proof.
  intros Hstep. induction fuel as [|f IH]; intros i s HJ Hmu; cbn [whileR].
  - destruct (pop i s) as [[c s1]|] eqn:Hp; [|eauto]. destruct (Hstep _ _ _ _ HJ Hp) as [s2 [_ [_ Hlt]]]. lia.
  - destruct (pop i s) as [[c s1]|] eqn:Hp; [|eauto]. destruct (Hstep _ _ _ _ HJ Hp) as [s2 [E [HJ' Hlt]]]. rewrite E. apply IH; [assumption|lia].
Qed.

Section Wei.
  Variables (w h nd : Z) (e0 : cellt -> Z).
  Notation inside := (zdom w h).
  Definition wdom (c : cellt) : Prop := inside c /\ e0 c <> nd.
  Definition wout (c : cellt) : Prop := zout w h c \/ exists n, inside n /\ nb8 c n /\ e0 n = nd.
  Definition Fw (fl : cellt -> bool) (c : cellt) : bool := fl c && negb (e0 c =? nd).

  Definition wpend (X : list cellt) (s : wst) (v : cellt) : Prop :=
    In v X \/ In v (map snd (w_pq s)) \/ In v (map snd (w_tr s)) \/ In v (map snd (w_dep s)) \/ In v (map snd (w_pot s)).

  Record WI (c0 : Z) (X : list cellt) (s : wst) : Prop := {
    wi_k : K nb8 wdom wout e0 c0 (Fw (w_flag s)) (w_dem s) (wpend X s);
    wi_in : forall c, w_flag s c = true -> inside c;
    wi_nd : forall c, inside c -> e0 c = nd -> w_flag s c = true /\ w_dem s c = nd;
    wi_key : forall k v, In (k, v) (w_pq s) \/ In (k, v) (w_tr s) \/ In (k, v) (w_dep s) \/ In (k, v) (w_pot s) -> k = w_dem s v;
    wi_inner : forall v, In v (map snd (w_tr s)) \/ In v (map snd (w_dep s)) \/ In v (map snd (w_pot s)) -> ~ zout w h v;
    wi_room : (length (w_tr s) + length (w_dep s) + length (w_pot s) + unf (w_flag s) w h <= Z.to_nat w * Z.to_nat h)%nat }.
  Definition wtotal (s : wst) : nat := (length (w_pq s) + length (w_tr s) + length (w_dep s) + length (w_pot s) + unf (w_flag s) w h)%nat.

  Lemma Fw_true fl c : Fw fl c = true <-> fl c = true /\ e0 c <> nd.
  Proof. unfold Fw. rewrite andb_true_iff, negb_true_iff, Z.eqb_neq. tauto. Qed.
  Lemma Fw_false fl c : wdom c -> Fw fl c = false -> fl c = false.
  Proof. intros [_ D] H. unfold Fw in H. apply Z.eqb_neq in D. rewrite D, andb_true_r in H. exact H. Qed.
  Lemma Fw_false' fl c : fl c = false -> Fw fl c = false.
  Proof. intros H. unfold Fw. rewrite H. reflexivity. Qed.
  Lemma Fw_cset fl x v : e0 x <> nd -> Fw (cset fl x true) v = cset (Fw fl) x true v.
  Proof.
    intros D. unfold Fw at 1. destruct (cell_eq_dec v x) as [->|N]; [rewrite !cset_same; apply Z.eqb_neq in D; rewrite D; reflexivity|]. rewrite !cset_other by auto. reflexivity.
  Qed.
  (** an unflagged cell is an inner data cell without NoData neighbours *)
  Lemma unflagged c0 X s c : WI c0 X s -> inside c -> w_flag s c = false -> wdom c /\ ~ zout w h c /\ (forall n, In n (dirs D8) -> inside (off c n) /\ e0 (off c n) <> nd).
  Proof.
    intros I D F0. assert (WD : wdom c) by (split; auto; intros E; destruct (wi_nd _ _ _ I c D E); congruence).
    assert (NO : ~ wout c) by (intros O; pose proof (k_out _ _ _ _ _ _ _ _ (wi_k _ _ _ I) c WD O) as T; apply Fw_true in T; destruct T; congruence).
    assert (NZ : ~ zout w h c) by (intros O; apply NO; left; auto). split; [exact WD|]. split; [exact NZ|].
    intros n Hn. assert (IN : inside (off c n)).
    { pose proof (off_nb c n Hn) as A. destruct c as [x y], (off (x, y) n) as [x' y']. unfold zout, zdom, on_edge, in_raster, nb8, adjacent in *. cbn [fst snd] in *. lia. }
    split; [exact IN|]. intros E. apply NO. right. exists (off c n). split; [exact IN|]. split; [apply off_nb; auto|exact E].
  Qed.
  Lemma inner_off c n : inside c -> ~ zout w h c -> In n (dirs D8) -> inside (off c n).
  Proof.
    intros D N Hn. pose proof (off_nb c n Hn) as A. destruct c as [x y], (off (x, y) n) as [x' y']. unfold zout, zdom, on_edge, in_raster, nb8, adjacent in *. cbn [fst snd] in *. lia.
  Qed.
  Lemma cat_ok {A} (f : cellt -> A) c : inside c -> cat w h f c = Ok (f c).
  Proof. intros H. apply (inR_iff w h) in H. unfold cat. rewrite H. reflexivity. Qed.
  Lemma put_ok {A} (f : cellt -> A) c a : inside c -> put w h f c a = Ok (cset f c a).
  Proof. intros H. apply (inR_iff w h) in H. unfold put. rewrite H. reflexivity. Qed.

  (** a cell is flagged and put into one of the queues *)
  Lemma wflag_step c0 X s v ni l tr dep : WI c0 X s -> Fw (w_flag s) v = true -> nb8 v ni -> inside ni -> w_flag s ni = false ->
    (w_dem s v <= w_dem s ni /\ l = w_dem s ni \/ w_dem s v <= c0 /\ w_dem s ni <= c0 /\ l = c0) ->
    (tr = w_tr s ++ [(l, ni)] /\ dep = w_dep s \/ tr = w_tr s /\ dep = w_dep s ++ [(l, ni)]) ->
    forall dm, (forall u, dm u = cset (w_dem s) ni l u) ->
    let s' := mkW dm (cset (w_flag s) ni true) (w_pq s) tr dep (w_pot s) in
    WI c0 X s' /\ wtotal s' = wtotal s /\ (length tr + length dep + unf (w_flag s') w h = length (w_tr s) + length (w_dep s) + unf (w_flag s) w h)%nat.
  Proof.
    intros I Lv N D L0 Hl Hq dm Hdm s'. pose proof I as [IK II IN IY IE IR]. destruct (unflagged _ _ _ _ I D L0) as [WD [NZ _]].
    assert (Q' : forall q, In q tr \/ In q dep <-> In q (w_tr s) \/ In q (w_dep s) \/ q = (l, ni)).
    { intros u. destruct Hq as [[-> ->]|[-> ->]]; rewrite in_app_iff; cbn [In]; intuition auto. }
    assert (QM : forall u, In u (map snd tr) \/ In u (map snd dep) <-> In u (map snd (w_tr s)) \/ In u (map snd (w_dep s)) \/ u = ni).
    { intros u. destruct Hq as [[-> ->]|[-> ->]]; rewrite map_app, in_app_iff; cbn [map snd In]; intuition auto. }
    assert (P' : forall u, wpend X s' u <-> wpend X s u \/ u = ni).
    { intros u. unfold wpend, s'. cbn [w_pq w_tr w_dep w_pot]. specialize (QM u). intuition auto. }
    assert (U : unf (w_flag s) w h = S (unf (cset (w_flag s) ni true) w h)) by (apply unf_cset; auto; apply zdom_cells; auto).
    assert (LEN : (length tr + length dep = S (length (w_tr s) + length (w_dep s)))%nat).
    { destruct Hq as [[-> ->]|[-> ->]]; rewrite app_length; cbn [length]; lia. }
    assert (NP : forall u, wpend X s u -> u <> ni).
    { intros u Pu ->. destruct (k_pend _ _ _ _ _ _ _ _ IK ni Pu) as [T _]. apply Fw_true in T. destruct T; congruence. }
    assert (INM : forall (k : Z) (u : cellt) q, In (k, u) q -> In u (map snd q)) by (intros k u q Hq'; apply (in_map snd) in Hq'; exact Hq').
    split; [constructor|].
    - unfold s' at 1 2. cbn [w_flag w_dem]. eapply (K_ext _ _ _ _ _ (cset (Fw (w_flag s)) ni true) _ (cset (w_dem s) ni l) _ (wpend X s')).
      + intros u. rewrite Fw_cset; [reflexivity|apply WD].
      + intros u. symmetry. apply Hdm.
      + reflexivity.
      + apply (K_flag _ _ _ _ nb8_sym c0 _ _ (wpend X s) _ v); auto. apply Fw_false'; auto.
    - intros c. unfold s'. cbn [w_flag]. destruct (cell_eq_dec c ni) as [->|Ne]; [auto|rewrite cset_other by auto; auto].
    - intros c Dc Ec. unfold s'. cbn [w_flag w_dem]. assert (c <> ni) by (intros ->; destruct WD; contradiction). rewrite Hdm, !cset_other by auto. auto.
    - intros k u Hu. unfold s' in *. cbn [w_dem w_pq w_tr w_dep w_pot] in *. rewrite Hdm.
      assert (H : (k, u) = (l, ni) \/ (In (k, u) (w_pq s) \/ In (k, u) (w_tr s) \/ In (k, u) (w_dep s) \/ In (k, u) (w_pot s))) by (specialize (Q' (k, u)); tauto).
      destruct H as [H|H]; [injection H as -> ->; rewrite cset_same; reflexivity|]. rewrite cset_other; [apply IY; exact H|]. apply NP.
      destruct H as [H|[H|[H|H]]]; apply INM in H; unfold wpend; auto.
    - intros u. unfold s'. cbn [w_tr w_dep w_pot]. intros Hu. destruct (cell_eq_dec u ni) as [->|Ne]; [exact NZ|]. apply IE. specialize (QM u). tauto.
    - unfold s'. cbn [w_flag w_tr w_dep w_pot]. lia.
    - unfold wtotal, s'. cbn [w_pq w_tr w_dep w_pot w_flag]. lia.
  Qed.

  (** ** ProcessTraceQue *)
  (** From [u] a flagged cell below [z] is reached over unflagged cells that are not above [z]. *)
  Inductive chain (s : wst) (z : Z) (u : cellt) : Prop :=
  | ch_end x : w_flag s u = false -> inside u -> w_dem s u <= z -> nb8 u x -> w_flag s x = true -> w_dem s x < z -> chain s z u
  | ch_step u' : w_flag s u = false -> inside u -> w_dem s u <= z -> nb8 u u' -> chain s z u' -> chain s z u.
  Lemma chain_mono s s' z u : (forall v, w_dem s' v = w_dem s v) -> (forall v, w_flag s v = true -> w_flag s' v = true) ->
    (forall v, w_flag s v = false -> w_flag s' v = true -> z < w_dem s v) -> chain s z u -> chain s' z u.
  Proof.
    intros A B C H. induction H as [u x H1 H2 H3 H4 H5 H6|u u' H1 H2 H3 H4 H5 IH].
    - apply (ch_end _ _ _ x); rewrite ?A; auto. destruct (w_flag s' u) eqn:E; auto. specialize (C u H1 E). lia.
    - apply (ch_step _ _ _ u'); rewrite ?A; auto. destruct (w_flag s' u) eqn:E; auto. specialize (C u H1 E). lia.
  Qed.
  Lemma chain_here s z u : chain s z u -> w_flag s u = false /\ inside u /\ w_dem s u <= z.
  Proof. destruct 1; auto. Qed.
  Lemma chain_way c0 c X s u : WI c0 (c :: X) s -> chain s (w_dem s c) u -> way nb8 wdom (Fw (w_flag s)) (w_dem s) (wpend X s) (w_dem s c) u.
  Proof.
    intros I H. induction H as [u x H1 H2 H3 H4 H5 H6|u u' H1 H2 H3 H4 H5 IH].
    - destruct (unflagged _ _ _ _ I H2 H1) as [WD [_ NN]]. destruct (nb_off _ _ H4) as [n [Hn En]].
      assert (FX : Fw (w_flag s) x = true) by (apply Fw_true; split; auto; rewrite En; apply NN; auto).
      assert (LESS : forall v, wpend (c :: X) s v -> w_dem s v <= w_dem s x -> wpend X s v).
      { intros v [[<-|Hv]|Hv] Le; [lia|left; auto|right; auto]. }
      destruct (k_front _ _ _ _ _ _ _ _ (wi_k _ _ _ I) x u FX (nb8_sym _ _ H4) WD (Fw_false' _ _ H1)) as [PX|W].
      + apply (way_end _ _ _ _ _ _ u x); auto; try lia; [apply Fw_false'; auto|]. apply LESS; auto. lia.
      + apply (way_le _ _ _ _ _ (w_dem s x)); [|lia]. eapply way_mono; [|exact W]. exact LESS.
    - destruct (unflagged _ _ _ _ I H2 H1) as [WD _]. apply (way_step _ _ _ _ _ _ u u'); auto. apply Fw_false'; auto.
  Qed.

  Definition wlooked (c : cellt) (s : wst) (n : nat) : Prop := w_flag s (off c n) = true \/ chain s (w_dem s c) (off c n).

  Lemma wt_fold c0 node X : ~ zout w h (snd node) -> forall ns s mask stop m, incl ns (dirs D8) -> WI c0 (snd node :: X) s -> fst node = w_dem s (snd node) ->
    (stop = true -> In node (w_pq s) \/ In node (w_pot s)) -> (forall u, mask u = true -> chain s (fst node) u) ->
    (length (w_tr s) + length (w_dep s) + length (w_pot s) + (if stop then 0 else 1) + unf (w_flag s) w h <= Z.to_nat w * Z.to_nat h)%nat ->
    (wtotal s + (if stop then 0 else 1) <= m)%nat ->
    exists s' mask' stop', forM ns (wt_visit w h node) (s, mask, stop) = Ok (s', mask', stop') /\ WI c0 (snd node :: X) s' /\ fst node = w_dem s' (snd node) /\
      (stop' = true -> In node (w_pq s') \/ In node (w_pot s')) /\ (forall u, mask' u = true -> chain s' (fst node) u) /\
      (wtotal s' + (if stop' then 0 else 1) <= m)%nat /\ w_dep s' = w_dep s /\ (length (w_tr s') + unf (w_flag s') w h = length (w_tr s) + unf (w_flag s) w h)%nat /\
      (forall u, w_flag s u = true -> w_flag s' u = true) /\ (forall u, w_flag s u = false -> w_flag s' u = true -> fst node < w_dem s u) /\ (forall u, w_dem s' u = w_dem s u) /\ (stop = true -> stop' = true) /\
      (stop' = false -> forall n, In n ns -> wlooked (snd node) s' n).
  Proof.
    intros NZ. induction ns as [|n ns IH]; intros s mask stop m Inc I HN Hb HM HR Hm; cbn [forM].
    - exists s, mask, stop. repeat (split; [solve [auto; congruence]|]). intros _ n [].
    - assert (Hn : In n (dirs D8)) by (apply Inc; left; auto). assert (Inc' : incl ns (dirs D8)) by (intros a Ha; apply Inc; right; auto).
      assert (PN : wpend (snd node :: X) s (snd node)) by (left; left; auto).
      destruct (k_pend _ _ _ _ _ _ _ _ (wi_k _ _ _ I) _ PN) as [FN _]. assert (DN : inside (snd node)) by (apply Fw_true in FN; apply (wi_in _ _ _ I); tauto).
      assert (STEP : exists s' mask' stop', wt_visit w h node n (s, mask, stop) = Ok (s', mask', stop') /\ WI c0 (snd node :: X) s' /\ fst node = w_dem s' (snd node) /\
        (stop' = true -> In node (w_pq s') \/ In node (w_pot s')) /\ (forall u, mask' u = true -> chain s' (fst node) u) /\
        (length (w_tr s') + length (w_dep s') + length (w_pot s') + (if stop' then 0 else 1) + unf (w_flag s') w h <= Z.to_nat w * Z.to_nat h)%nat /\
        (wtotal s' + (if stop' then 0 else 1) <= m)%nat /\ w_dep s' = w_dep s /\ (length (w_tr s') + unf (w_flag s') w h = length (w_tr s) + unf (w_flag s) w h)%nat /\
        (forall u, w_flag s u = true -> w_flag s' u = true) /\ (forall u, w_flag s u = false -> w_flag s' u = true -> fst node < w_dem s u) /\ (forall u, w_dem s' u = w_dem s u) /\ (stop = true -> stop' = true) /\
        (stop' = false -> wlooked (snd node) s' n)).
      { unfold wt_visit. destruct stop.
        { exists s, mask, true. repeat (split; [solve [auto; congruence]|]). discriminate. }
        set (ni := off (snd node) n). assert (DI : inside ni) by (apply inner_off; auto). rewrite !(cat_ok _ ni DI). cbn [bind].
        destruct (w_flag s ni) eqn:FI.
        { exists s, mask, false. repeat (split; [solve [auto; congruence]|]). intros _. left. exact FI. }
        destruct (unflagged _ _ _ _ I DI FI) as [WD [NZI NNI]].
        rewrite Z.gtb_ltb. destruct (Z.ltb_spec (fst node) (w_dem s ni)) as [Lt|Ge].
        - rewrite (put_ok _ ni true DI). cbn [bind].
          destruct (wflag_step c0 (snd node :: X) s (snd node) ni (w_dem s ni) (w_tr s ++ [(w_dem s ni, ni)]) (w_dep s) I FN (off_nb _ n Hn) DI FI) with (dm := w_dem s) as [I1 [T1 R1]]; [left; lia|left; auto| |].
          { intros u. destruct (cell_eq_dec u ni) as [->|]; [symmetry; apply cset_same|symmetry; apply cset_other; auto]. }
          eexists. exists mask, false. split; [reflexivity|]. split; [exact I1|]. cbn [w_dem w_flag w_pq w_tr w_dep w_pot] in *.
          assert (MON : forall u, w_flag s u = true -> cset (w_flag s) ni true u = true) by (intros u Hu; destruct (cell_eq_dec u ni) as [->|]; [apply cset_same|rewrite cset_other; auto]).
          assert (NEW : forall u, w_flag s u = false -> cset (w_flag s) ni true u = true -> fst node < w_dem s u).
          { intros u A B. destruct (cell_eq_dec u ni) as [->|]; [exact Lt|rewrite cset_other in B by auto; congruence]. }
          split; [exact HN|]. split; [discriminate|]. split; [intros u Hu; eapply chain_mono; [| | |apply HM, Hu]; cbn [w_dem w_flag]; auto|].
          split; [lia|]. split; [lia|]. split; [reflexivity|]. split; [lia|]. split; [exact MON|]. split; [exact NEW|]. split; [reflexivity|]. split; [auto|].
          intros _. left. cbn [w_flag]. fold ni. apply cset_same.
        - rewrite (anyM_ok _ _ (fun k => mask (off ni k) || (w_flag s (off ni k) && (w_dem s (off ni k) <? fst node)))).
          2: { intros k Hk. destruct (mask (off ni k)); [reflexivity|]. destruct (NNI k Hk) as [DK _]. rewrite !(cat_ok _ _ DK). cbn [bind orb]. destruct (w_flag s (off ni k)); reflexivity. }
          cbn [bind]. destruct (existsb _ (dirs D8)) eqn:EX.
          + assert (CH : chain s (fst node) ni).
            { apply existsb_exists in EX. destruct EX as [k [Hk EX]]. apply orb_true_iff in EX. destruct EX as [EX|EX].
              - apply (ch_step _ _ _ (off ni k)); auto; [apply off_nb; auto].
              - apply andb_true_iff in EX. destruct EX as [A B]. apply Z.ltb_lt in B. apply (ch_end _ _ _ (off ni k)); auto. apply off_nb; auto. }
            exists s, (cset mask ni true), false. repeat (split; [solve [auto; congruence]|]). split.
            { intros u Hu. destruct (cell_eq_dec u ni) as [->|]; [exact CH|rewrite cset_other in Hu by auto; auto]. }
            repeat (split; [solve [auto; congruence]|]). intros _. right. rewrite <- HN. exact CH.
          + assert (GEN : forall pq pot, (pq = w_pq s /\ pot = w_pot s ++ [node] \/ pq = node :: w_pq s /\ pot = w_pot s) ->
               let s1 := mkW (w_dem s) (w_flag s) pq (w_tr s) (w_dep s) pot in WI c0 (snd node :: X) s1 /\ (In node pq \/ In node pot) /\ (wtotal s1 = S (wtotal s))%nat /\ (length pot <= S (length (w_pot s)))%nat).
            { intros pq pot Q s1. pose proof I as [A1 A2 A3 A4 A5 A6].
              assert (QE : forall q, In q pq \/ In q pot <-> In q (w_pq s) \/ In q (w_pot s) \/ q = node).
              { intros q. destruct Q as [[-> ->]|[-> ->]]; rewrite ?in_app_iff; cbn [In]; intuition auto. }
              assert (QM : forall u, In u (map snd pq) \/ In u (map snd pot) <-> In u (map snd (w_pq s)) \/ In u (map snd (w_pot s)) \/ u = snd node).
              { intros q. destruct Q as [[-> ->]|[-> ->]]; rewrite ?map_app, ?in_app_iff; cbn [map In]; intuition auto. }
              assert (LP : (length pq + length pot = S (length (w_pq s) + length (w_pot s)))%nat) by (destruct Q as [[-> ->]|[-> ->]]; rewrite ?app_length; cbn [length]; lia).
              split; [constructor; unfold s1; cbn [w_dem w_flag w_pq w_tr w_dep w_pot]; auto|].
              - eapply K_ext; [| | |exact A1]; try reflexivity. intros u. unfold wpend. cbn [w_pq w_tr w_dep w_pot In]. specialize (QM u). intuition auto.
              - intros k v Hv. assert (H : (k, v) = node \/ (In (k, v) (w_pq s) \/ In (k, v) (w_tr s) \/ In (k, v) (w_dep s) \/ In (k, v) (w_pot s))) by (specialize (QE (k, v)); tauto).
                destruct H as [<-|H]; [exact HN|apply A4; exact H].
              - intros v Hv. destruct (cell_eq_dec v (snd node)) as [->|]; [exact NZ|]. apply A5. destruct Hv as [Hv|[Hv|Hv]]; auto. right; right.
                destruct Q as [[_ ->]|[_ ->]]; [|exact Hv]. rewrite map_app, in_app_iff in Hv. destruct Hv as [Hv|[Hv|[]]]; [exact Hv|congruence].
              - destruct Q as [[-> ->]|[-> ->]]; rewrite ?app_length; cbn [length]; lia.
              - split; [apply QE; auto|]. unfold wtotal, s1. cbn [w_dem w_flag w_pq w_tr w_dep w_pot]. split; [lia|]. destruct Q as [[-> ->]|[-> ->]]; rewrite ?app_length; cbn [length]; lia. }
            destruct (n <? 2)%nat.
            * destruct (GEN (w_pq s) (w_pot s ++ [node])) as [G1 [G2 [G3 G4]]]; [left; auto|]. eexists. exists mask, true. split; [reflexivity|]. split; [exact G1|]. cbn [w_dem w_flag w_pq w_tr w_dep w_pot] in *.
              split; [exact HN|]. split; [auto|]. split; [intros u Hu; eapply chain_mono; [| | |apply HM, Hu]; cbn [w_dem w_flag]; auto; congruence|].
              split; [lia|]. split; [lia|]. repeat (split; [solve [auto; congruence]|]). discriminate.
            * destruct (GEN (node :: w_pq s) (w_pot s)) as [G1 [G2 [G3 G4]]]; [right; auto|]. eexists. exists mask, true. split; [reflexivity|]. split; [exact G1|]. cbn [w_dem w_flag w_pq w_tr w_dep w_pot] in *.
              split; [exact HN|]. split; [auto|]. split; [intros u Hu; eapply chain_mono; [| | |apply HM, Hu]; cbn [w_dem w_flag]; auto; congruence|].
              split; [lia|]. split; [lia|]. repeat (split; [solve [auto; congruence]|]). discriminate. }
      destruct STEP as [s1 [mask1 [b1 [E1 [I1 [N1 [B1 [K1 [HR1 [M1 [D1 [R1 [L1 [F1 [V1 [BB1 Q1]]]]]]]]]]]]]]]]. rewrite E1. cbn [bind].
      destruct (IH s1 mask1 b1 m Inc' I1 N1 B1 K1 HR1 M1) as [s2 [mask2 [b2 [E2 [I2 [N2 [B2 [K2 [M2 [D2 [R2 [L2 [F2 [V2 [BB2 Q2]]]]]]]]]]]]]]].
      assert (F12 : forall u, w_flag s u = false -> w_flag s2 u = true -> fst node < w_dem s u).
      { intros u A B. destruct (w_flag s1 u) eqn:E; [auto|]. rewrite <- V1. auto. }
      exists s2, mask2, b2. split; [exact E2|]. split; [exact I2|]. split; [exact N2|]. split; [exact B2|]. split; [exact K2|]. split; [exact M2|]. split; [congruence|].
      split; [lia|]. split; [auto|]. split; [exact F12|]. split; [intros u; rewrite V2; auto|]. split; [auto|].
      intros Hb2 k [<-|Hk]; [|auto]. assert (Hb1 : b1 = false) by (destruct b1; auto; rewrite BB2 in Hb2 by auto; discriminate Hb2).
      destruct (Q1 Hb1) as [A|A]; [left; auto|right]. rewrite <- N1 in A. rewrite <- N2. eapply chain_mono; [| | |exact A]; auto.
  Qed.

  Lemma WI_done c0 c X s : WI c0 (c :: X) s -> (forall n, In n (dirs D8) -> inside (off c n) -> wlooked c s n) -> WI c0 X s.
  Proof.
    intros I H. pose proof I as [A1 A2 A3 A4 A5 A6]. constructor; auto. apply (K_done nb8 wdom wout e0 nb8_sym c0 _ _ (wpend (c :: X) s) _ c); auto.
    - intros u [[<-|Hu]|Hu]; [left; auto|right; left; auto|right; right; auto].
    - intros u [Hu|Hu]; [left; right; auto|right; auto].
    - intros u N D Fu. destruct (nb_off _ _ N) as [n [Hn ->]]. destruct (H n Hn (proj1 D)) as [T|C].
      + apply Fw_false in Fu; auto. congruence.
      + eapply chain_way; eauto.
  Qed.
  Lemma WI_dup c0 c X s : WI c0 (c :: X) s -> wpend X s c -> WI c0 X s.
  Proof.
    intros [A1 A2 A3 A4 A5 A6] H. constructor; auto. eapply K_ext; [| | |exact A1]; try reflexivity. intros v. split.
    - intros [[<-|Hv]|Hv]; [exact H|left; auto|right; auto].
    - intros [Hv|Hv]; [left; right; auto|right; auto].
  Qed.
  Lemma wdem_flagged c0 X c1 Y s s' : WI c0 X s -> WI c1 Y s' -> forall v, Fw (w_flag s) v = true -> Fw (w_flag s') v = true -> w_dem s' v = w_dem s v.
  Proof.
    intros I I' v L L'. apply (lev_unique nb8 wdom wout e0 v).
    - apply (k_lev _ _ _ _ _ _ _ _ (wi_k _ _ _ I')). auto.
    - apply (k_lev _ _ _ _ _ _ _ _ (wi_k _ _ _ I)). auto.
  Qed.

  Lemma wt_loop_ok c0 X m i s : WI c0 X s -> w_dep s = [] -> (wtotal s <= m)%nat ->
    exists s', whileR wt_pop (wt_body w h) (wei_fuel w h) i s = Some (Ok s') /\ WI c0 X s' /\ w_dep s' = [] /\ w_tr s' = [] /\ (wtotal s' <= m)%nat /\
      (forall u, w_flag s u = true -> w_flag s' u = true).
  Proof.
    intros I D0 Hm.
    destruct (whileR_inv wt_pop (wt_body w h) (fun s' => WI c0 X s' /\ w_dep s' = [] /\ (wtotal s' <= m)%nat /\ (forall u, w_flag s u = true -> w_flag s' u = true))
      (fun s => (length (w_tr s) + unf (w_flag s) w h)%nat)) with (fuel := wei_fuel w h) (i := i) (s := s) as [s' [i' [E [[A [B [C D]]] G]]]].
    - clear I D0 Hm i. intros i s1 node s2 [I [D0 [Hm MO]]] P. unfold wt_pop in P. destruct (w_tr s1) as [|c q] eqn:TR; [discriminate P|]. injection P as <- <-.
      assert (INC : In c (w_tr s1)) by (rewrite TR; left; auto).
      set (s2 := mkW (w_dem s1) (w_flag s1) (w_pq s1) q (w_dep s1) (w_pot s1)).
      assert (I2 : WI c0 (snd c :: X) s2).
      { pose proof I as [A1 A2 A3 A4 A5 A6]. constructor; unfold s2; cbn [w_dem w_flag w_pq w_tr w_dep w_pot]; auto.
        - eapply K_ext; [| | |exact A1]; try reflexivity. intros u. unfold wpend. cbn [w_pq w_tr w_dep w_pot In]. rewrite TR. cbn [map In]. tauto.
        - intros k v Hv. apply A4. rewrite TR. cbn [In]. tauto.
        - intros v Hv. apply A5. rewrite TR. cbn [map In]. tauto.
        - rewrite TR in A6. cbn [length] in A6. lia. }
      assert (NZ : ~ zout w h (snd c)) by (apply (wi_inner _ _ _ I); left; apply in_map; auto).
      assert (HN : fst c = w_dem s2 (snd c)) by (apply (wi_key _ _ _ I); destruct c; auto).
      destruct (wt_fold c0 c X NZ (dirs D8) s2 (fun _ => false) false m (incl_refl _) I2 HN) as [s3 [mask [b [E [I3 [N3 [B3 [_ [M3 [D3 [R3 [L3 [_ [V3 [_ Q3]]]]]]]]]]]]]]]; try discriminate.
      + pose proof (wi_room _ _ _ I) as R. rewrite TR in R. unfold s2. cbn [w_dem w_flag w_pq w_tr w_dep w_pot length] in *. lia.
      + clear - Hm TR. unfold wtotal, s2 in *. rewrite TR in Hm. cbn [w_dem w_flag w_pq w_tr w_dep w_pot length] in *. lia.
      + exists s3. unfold wt_body. rewrite E. cbn [bind fst]. split; [reflexivity|].
        assert (I4 : WI c0 X s3).
        { destruct b; [|apply (WI_done _ (snd c)); auto]. apply (WI_dup _ (snd c)); auto. right. destruct (B3 eq_refl) as [H|H]; apply (in_map snd) in H; auto. }
        split; [split; [exact I4|]; split; [rewrite D3; exact D0|]; split; [destruct b; lia|intros u Hu; apply L3; apply MO; exact Hu]|].
        clear - R3 TR. unfold s2 in R3. rewrite ?TR. cbn [w_dem w_flag w_pq w_tr w_dep w_pot length] in *. lia.
    - auto.
    - pose proof (wi_room _ _ _ I). unfold wei_fuel. lia.
    - exists s'. split; [exact E|]. split; [exact A|]. split; [exact B|]. split; [|auto]. unfold wt_pop in G. destruct (w_tr s'); [auto|discriminate G].
  Qed.

  Lemma wq_loop_ok c0 X m i s : WI c0 X s -> w_dep s = [] -> w_tr s = [] -> (wtotal s <= m)%nat ->
    exists s', whileR wq_pop (wq_body w h) (wei_fuel w h) i s = Some (Ok s') /\ WI c0 X s' /\ w_dep s' = [] /\ w_tr s' = [] /\ w_pot s' = [] /\ (wtotal s' <= m)%nat /\
      (forall u, w_flag s u = true -> w_flag s' u = true).
  Proof.
    intros I D0 T0 Hm.
    destruct (whileR_inv wq_pop (wq_body w h) (fun s' => WI c0 X s' /\ w_dep s' = [] /\ w_tr s' = [] /\ (wtotal s' <= m)%nat /\ (forall u, w_flag s u = true -> w_flag s' u = true))
      (fun s => length (w_pot s))) with (fuel := wei_fuel w h) (i := i) (s := s) as [s' [i' [E [[A [B [C [D F]]]] G]]]].
    - clear I D0 T0 Hm i. intros i s1 node s2 [I [D0 [T0 [Hm MO]]]] P. unfold wq_pop in P. destruct (w_pot s1) as [|c q] eqn:TR; [discriminate P|]. injection P as <- <-.
      assert (INC : In c (w_pot s1)) by (rewrite TR; left; auto).
      set (s2 := mkW (w_dem s1) (w_flag s1) (w_pq s1) (w_tr s1) (w_dep s1) q).
      assert (NZ : ~ zout w h (snd c)) by (apply (wi_inner _ _ _ I); right; right; apply in_map; auto).
      assert (PN : wpend X s1 (snd c)) by (right; right; right; right; apply in_map; auto).
      destruct (k_pend _ _ _ _ _ _ _ _ (wi_k _ _ _ I) _ PN) as [FN _]. assert (DN : inside (snd c)) by (apply Fw_true in FN; apply (wi_in _ _ _ I); tauto).
      assert (HN : fst c = w_dem s1 (snd c)) by (apply (wi_key _ _ _ I); destruct c; auto).
      unfold wq_body. rewrite (anyM_ok _ _ (fun n => negb (w_flag s1 (off (snd c) n)))).
      2: { intros n Hn. rewrite cat_ok by (apply inner_off; auto). reflexivity. }
      cbn [bind]. pose proof I as [A1 A2 A3 A4 A5 A6].
      destruct (existsb _ (dirs D8)) eqn:EX.
      + eexists. split; [reflexivity|]. split; [split|].
        * constructor; unfold s2; cbn [w_dem w_flag w_pq w_tr w_dep w_pot]; auto.
          -- eapply K_ext; [| | |exact A1]; try reflexivity. intros u. unfold wpend. cbn [w_pq w_tr w_dep w_pot In]. rewrite TR. cbn [map In]. tauto.
          -- intros k v Hv. apply A4. rewrite TR. cbn [In] in *. tauto.
          -- intros v Hv. apply A5. rewrite TR. cbn [map In]. tauto.
          -- rewrite TR in A6. cbn [length] in A6. lia.
        * unfold s2, wtotal in *. rewrite TR in Hm. cbn [w_dem w_flag w_pq w_tr w_dep w_pot length] in *. split; [auto|]. split; [auto|]. split; [lia|auto].
        * unfold s2. cbn [w_pot length]. lia.
      + exists s2. split; [reflexivity|]. split; [split|].
        * apply (WI_done _ (snd c)).
          -- constructor; unfold s2; cbn [w_dem w_flag w_pq w_tr w_dep w_pot]; auto.
             ++ eapply K_ext; [| | |exact A1]; try reflexivity. intros u. unfold wpend. cbn [w_pq w_tr w_dep w_pot In]. rewrite TR. cbn [map In]. tauto.
             ++ intros k v Hv. apply A4. rewrite TR. cbn [In] in *. tauto.
             ++ intros v Hv. apply A5. rewrite TR. cbn [map In]. tauto.
             ++ rewrite TR in A6. cbn [length] in A6. lia.
          -- intros n Hn _. left. unfold s2. cbn [w_flag]. destruct (w_flag s1 (off (snd c) n)) eqn:E; auto.
             assert (existsb (fun n => negb (w_flag s1 (off (snd c) n))) (dirs D8) = true) by (apply existsb_exists; exists n; rewrite E; auto). congruence.
        * clear EX. unfold s2, wtotal in *. rewrite TR in Hm. cbn [w_dem w_flag w_pq w_tr w_dep w_pot length] in *. split; [auto|]. split; [auto|]. split; [lia|auto].
        * unfold s2. cbn [w_pot length]. lia.
    - auto.
    - pose proof (wi_room _ _ _ I). unfold wei_fuel. lia.
    - exists s'. split; [exact E|]. split; [exact A|]. split; [exact B|]. split; [exact C|]. split; [|auto]. unfold wq_pop in G. destruct (w_pot s'); [auto|discriminate G].
  Qed.

  Lemma trace_ok c0 X m s : WI c0 X s -> w_dep s = [] -> (wtotal s <= m)%nat ->
    exists s', ProcessTraceQue w h s = Some (Ok s') /\ WI c0 X s' /\ w_dep s' = [] /\ w_tr s' = [] /\ w_pot s' = [] /\ (wtotal s' <= m)%nat /\
      (forall u, w_flag s u = true -> w_flag s' u = true).
  Proof.
    intros I D0 Hm. destruct (wt_loop_ok c0 X m 0 s I D0 Hm) as [s1 [E1 [I1 [D1 [T1 [M1 L1]]]]]].
    destruct (wq_loop_ok c0 X m 0 s1 I1 D1 T1 M1) as [s2 [E2 [I2 [D2 [T2 [P2 [M2 L2]]]]]]].
    exists s2. unfold ProcessTraceQue. rewrite E1. cbn [then_w]. rewrite E2. split; [reflexivity|]. repeat (split; [solve [auto]|]). auto.
  Qed.

  (** ** ProcessPit *)
  Lemma wp_fold c0 node X : fst node = c0 -> ~ zout w h (snd node) -> forall ns s m, incl ns (dirs D8) -> WI c0 (snd node :: X) s -> w_dem s (snd node) = c0 ->
    (forall a, In a (w_dep s) -> fst a = c0) -> (wtotal s <= m)%nat ->
    exists s', forM ns (wp_visit w h node) s = Ok s' /\ WI c0 (snd node :: X) s' /\ (forall a, In a (w_dep s') -> fst a = c0) /\ (wtotal s' <= m)%nat /\
      w_pot s' = w_pot s /\ (length (w_dep s') + unf (w_flag s') w h <= length (w_dep s) + unf (w_flag s) w h)%nat /\
      (forall u, w_flag s u = true -> w_flag s' u = true) /\ (forall n, In n ns -> w_flag s' (off (snd node) n) = true).
  Proof.
    intros HC NZ. induction ns as [|n ns IH]; intros s m Inc I HN HD Hm; cbn [forM].
    - exists s. repeat (split; [solve [auto]|]). intros n [].
    - assert (Hn : In n (dirs D8)) by (apply Inc; left; auto). assert (Inc' : incl ns (dirs D8)) by (intros a Ha; apply Inc; right; auto).
      assert (PN : wpend (snd node :: X) s (snd node)) by (left; left; auto).
      destruct (k_pend _ _ _ _ _ _ _ _ (wi_k _ _ _ I) _ PN) as [FN _]. assert (DN : inside (snd node)) by (apply Fw_true in FN; apply (wi_in _ _ _ I); tauto).
      assert (DI : inside (off (snd node) n)) by (apply inner_off; auto).
      assert (STEP : exists s', wp_visit w h node n s = Ok s' /\ WI c0 (snd node :: X) s' /\ w_dem s' (snd node) = c0 /\ (forall a, In a (w_dep s') -> fst a = c0) /\ (wtotal s' <= m)%nat /\
        w_pot s' = w_pot s /\ (length (w_dep s') + unf (w_flag s') w h <= length (w_dep s) + unf (w_flag s) w h)%nat /\
        (forall u, w_flag s u = true -> w_flag s' u = true) /\ w_flag s' (off (snd node) n) = true).
      { unfold wp_visit. set (ni := off (snd node) n) in *. rewrite !(cat_ok _ _ DI). cbn [bind]. destruct (w_flag s ni) eqn:FL.
        - exists s. repeat (split; [solve [auto]|]). auto.
        - rewrite (put_ok _ _ _ DI). cbn [bind].
          assert (MON : forall u, w_flag s u = true -> cset (w_flag s) ni true u = true) by (intros u Hu; destruct (cell_eq_dec u ni) as [->|]; [apply cset_same|rewrite cset_other; auto]).
          assert (NN : snd node <> ni) by (intros E; apply Fw_true in FN; rewrite E in FN; destruct FN; congruence).
          assert (NB : nb8 (snd node) ni) by (apply off_nb; auto).
          rewrite Z.gtb_ltb. destruct (Z.ltb_spec (fst node) (w_dem s ni)) as [Lt|Ge].
          + destruct (wflag_step c0 (snd node :: X) s (snd node) ni (w_dem s ni) (w_tr s ++ [(w_dem s ni, ni)]) (w_dep s) I FN NB DI FL) with (dm := w_dem s) as [I1 [M1 R1]]; [left; lia|left; auto| |].
            { intros u. destruct (cell_eq_dec u ni) as [->|]; [rewrite cset_same|rewrite cset_other by auto]; auto. }
            eexists. split; [reflexivity|]. split; [exact I1|]. cbn [w_dem w_flag w_pq w_tr w_dep w_pot] in *. split; [auto|]. split; [auto|]. split; [lia|]. split; [auto|].
            split; [rewrite app_length in R1; cbn [length] in R1; lia|]. split; [exact MON|apply cset_same].
          + rewrite (put_ok _ _ _ DI). cbn [bind].
            destruct (wflag_step c0 (snd node :: X) s (snd node) ni (fst node) (w_tr s) (w_dep s ++ [(fst node, ni)]) I FN NB DI FL) with (dm := cset (w_dem s) ni (fst node)) as [I1 [M1 R1]]; [right; lia|right; auto|auto|].
            eexists. split; [reflexivity|]. split; [exact I1|]. cbn [w_dem w_flag w_pq w_tr w_dep w_pot] in *. split; [rewrite cset_other by auto; auto|].
            split; [intros a Ha; apply in_app_iff in Ha; destruct Ha as [Ha|[<-|[]]]; auto|]. split; [lia|]. split; [auto|].
            split; [lia|]. split; [exact MON|apply cset_same]. }
      destruct STEP as [s1 [E1 [I1 [N1 [D1 [M1 [P1 [R1 [L1 F1]]]]]]]]]. rewrite E1. cbn [bind].
      destruct (IH s1 m Inc' I1 N1 D1 M1) as [s2 [E2 [I2 [D2 [M2 [P2 [R2 [L2 F2]]]]]]]].
      exists s2. split; [exact E2|]. split; [exact I2|]. split; [exact D2|]. split; [exact M2|]. split; [congruence|]. split; [lia|]. split; [auto|].
      intros k [<-|Hk]; auto.
  Qed.

  Lemma wpit_ok c0 X m s : WI c0 X s -> (forall a, In a (w_dep s) -> fst a = c0) -> w_pot s = [] -> (wtotal s <= m)%nat ->
    exists s', ProcessPit w h s = Some (Ok s') /\ WI c0 X s' /\ w_dep s' = [] /\ w_pot s' = [] /\ (wtotal s' <= m)%nat /\
      (forall u, w_flag s u = true -> w_flag s' u = true).
  Proof.
    intros I HD P0 Hm. unfold ProcessPit.
    destruct (whileR_inv wp_pop (fun c s => forM (dirs D8) (wp_visit w h c) s)
      (fun s' => WI c0 X s' /\ (forall a, In a (w_dep s') -> fst a = c0) /\ w_pot s' = [] /\ (wtotal s' <= m)%nat /\ (forall u, w_flag s u = true -> w_flag s' u = true))
      (fun s => (length (w_dep s) + unf (w_flag s) w h)%nat)) with (fuel := wei_fuel w h) (i := 0%nat) (s := s) as [s' [i' [E [[A [B [C [D F]]]] G]]]].
    - clear I HD P0 Hm. intros i s1 node s2 [I [HD [P0 [Hm MO]]]] P. unfold wp_pop in P. destruct (w_dep s1) as [|c q] eqn:TR; [discriminate P|]. injection P as <- <-.
      assert (INC : In c (w_dep s1)) by (rewrite TR; left; auto).
      set (s2 := mkW (w_dem s1) (w_flag s1) (w_pq s1) (w_tr s1) q (w_pot s1)).
      assert (NZ : ~ zout w h (snd c)) by (apply (wi_inner _ _ _ I); right; left; apply in_map; auto).
      assert (HN : fst c = w_dem s1 (snd c)) by (apply (wi_key _ _ _ I); destruct c; auto).
      assert (HC : fst c = c0) by (apply HD; left; auto).
      assert (I2 : WI c0 (snd c :: X) s2).
      { pose proof I as [A1 A2 A3 A4 A5 A6]. constructor; unfold s2; cbn [w_dem w_flag w_pq w_tr w_dep w_pot]; auto.
        - eapply K_ext; [| | |exact A1]; try reflexivity. intros u. unfold wpend. cbn [w_pq w_tr w_dep w_pot In]. rewrite TR. cbn [map In]. tauto.
        - intros k v Hv. apply A4. rewrite TR. cbn [In]. tauto.
        - intros v Hv. apply A5. rewrite TR. cbn [map In]. tauto.
        - rewrite TR in A6. cbn [length] in A6. lia. }
      destruct (wp_fold c0 c X HC NZ (dirs D8) s2 (Nat.pred m) (incl_refl _) I2) as [s3 [E [I3 [D3 [M3 [P3 [R3 [L3 F3]]]]]]]].
      + unfold s2. cbn [w_dem]. congruence.
      + unfold s2. cbn [w_dep]. intros a Ha. apply HD. right. exact Ha.
      + clear - Hm TR. unfold wtotal, s2 in *. rewrite TR in Hm. cbn [w_dem w_flag w_pq w_tr w_dep w_pot length] in *. lia.
      + exists s3. split; [exact E|]. split; [split; [apply (WI_done _ (snd c)); auto; intros n Hn _; left; auto|]|].
        * split; [exact D3|]. split; [rewrite P3; exact P0|]. split; [lia|]. intros u Hu. apply L3. unfold s2. cbn [w_flag]. auto.
        * clear - R3 TR. unfold s2 in R3. rewrite ?TR. cbn [w_dem w_flag w_pq w_tr w_dep w_pot length] in *. lia.
    - auto.
    - pose proof (wi_room _ _ _ I). unfold wei_fuel. lia.
    - exists s'. split; [exact E|]. split; [exact A|]. split; [|auto]. unfold wp_pop in G. destruct (w_dep s'); [auto|discriminate G].
  Qed.

  (** ** The main loop *)
  Lemma wm_fold c : forall ns s m, incl ns (dirs D8) -> WI (fst c) [snd c] s -> w_dem s (snd c) = fst c -> w_tr s = [] -> w_dep s = [] -> w_pot s = [] -> (wtotal s <= m)%nat ->
    exists s', fold_left (wm_visit w h c) ns (Some (Ok s)) = Some (Ok s') /\ WI (fst c) [snd c] s' /\ (wtotal s' <= m)%nat /\ w_tr s' = [] /\ w_dep s' = [] /\ w_pot s' = [] /\
      (forall u, w_flag s u = true -> w_flag s' u = true) /\ (forall n, In n ns -> inside (off (snd c) n) -> w_flag s' (off (snd c) n) = true).
  Proof.
    induction ns as [|n ns IH]; intros s m Inc I HN T0 D0 P0 Hm; cbn [fold_left].
    - exists s. repeat (split; [solve [auto]|]). intros n [].
    - assert (Hn : In n (dirs D8)) by (apply Inc; left; auto). assert (Inc' : incl ns (dirs D8)) by (intros a Ha; apply Inc; right; auto).
      assert (PN : wpend [snd c] s (snd c)) by (left; left; auto).
      destruct (k_pend _ _ _ _ _ _ _ _ (wi_k _ _ _ I) _ PN) as [FN _].
      assert (STEP : exists s', wm_visit w h c (Some (Ok s)) n = Some (Ok s') /\ WI (fst c) [snd c] s' /\ (wtotal s' <= m)%nat /\ w_tr s' = [] /\ w_dep s' = [] /\ w_pot s' = [] /\
        (forall u, w_flag s u = true -> w_flag s' u = true) /\ (inside (off (snd c) n) -> w_flag s' (off (snd c) n) = true)).
      { unfold wm_visit. cbn [then_w]. set (ni := off (snd c) n) in *. destruct (inR w h ni) eqn:IR; cbn [negb].
        2: { exists s. repeat (split; [solve [auto]|]). intros D. apply (inR_iff w h) in D. congruence. }
        apply (inR_iff w h) in IR. rewrite !(cat_ok _ _ IR), (put_ok _ _ _ IR). cbn [bind]. destruct (w_flag s ni) eqn:FL.
        - exists s. repeat (split; [solve [auto]|]). auto.
        - assert (MON : forall u, w_flag s u = true -> cset (w_flag s) ni true u = true) by (intros u Hu; destruct (cell_eq_dec u ni) as [->|]; [apply cset_same|rewrite cset_other; auto]).
          assert (NB : nb8 (snd c) ni) by (apply off_nb; auto).
          destruct (Z.leb_spec (w_dem s ni) (fst c)) as [Le|Gt].
          + destruct (wflag_step (fst c) [snd c] s (snd c) ni (fst c) (w_tr s) (w_dep s ++ [(fst c, ni)]) I FN NB IR FL) with (dm := cset (w_dem s) ni (fst c)) as [I1 [M1 R1]]; [right; lia|right; auto|auto|].
            remember (mkW (cset (w_dem s) ni (fst c)) (cset (w_flag s) ni true) (w_pq s) (w_tr s) (w_dep s ++ [(fst c, ni)]) (w_pot s)) as s1 eqn:ES1.
            destruct (wpit_ok (fst c) [snd c] m s1 I1) as [s2 [E2 [I2 [D2 [P2 [M2 L2]]]]]].
            { rewrite ES1. cbn [w_dep]. rewrite D0. intros a [<-|[]]. reflexivity. } { rewrite ES1. exact P0. } { lia. }
            rewrite E2. cbn [then_w]. destruct (trace_ok (fst c) [snd c] m s2 I2 D2 M2) as [s3 [E3 [I3 [D3 [T3 [P3 [M3 L3]]]]]]].
            exists s3. rewrite E3. split; [reflexivity|]. repeat (split; [solve [auto]|]). rewrite ES1 in L2. cbn [w_flag] in L2.
            split; [auto|]. intros _. apply L3, L2. apply cset_same.
          + destruct (wflag_step (fst c) [snd c] s (snd c) ni (w_dem s ni) (w_tr s ++ [(w_dem s ni, ni)]) (w_dep s) I FN NB IR FL) with (dm := w_dem s) as [I1 [M1 R1]]; [left; lia|left; auto| |].
            { intros u. destruct (cell_eq_dec u ni) as [->|]; [rewrite cset_same|rewrite cset_other by auto]; auto. }
            remember (mkW (w_dem s) (cset (w_flag s) ni true) (w_pq s) (w_tr s ++ [(w_dem s ni, ni)]) (w_dep s) (w_pot s)) as s1 eqn:ES1. cbn [then_w].
            destruct (trace_ok (fst c) [snd c] m s1 I1) as [s3 [E3 [I3 [D3 [T3 [P3 [M3 L3]]]]]]]; [rewrite ES1; exact D0|lia|].
            exists s3. rewrite E3. split; [reflexivity|]. repeat (split; [solve [auto]|]). rewrite ES1 in L3. cbn [w_flag] in L3. split; [auto|]. intros _. apply L3. apply cset_same. }
      destruct STEP as [s1 [E1 [I1 [M1 [T1 [D1 [P1 [L1 F1]]]]]]]]. rewrite E1.
      assert (N1 : w_dem s1 (snd c) = fst c).
      { rewrite <- HN. apply (wdem_flagged _ _ _ _ _ _ I I1); auto. apply Fw_true. apply Fw_true in FN. destruct FN. auto. }
      destruct (IH s1 m Inc' I1 N1 T1 D1 P1 M1) as [s2 [E2 [I2 [M2 [T2 [D2 [P2 [L2 F2]]]]]]]].
      exists s2. repeat (split; [solve [auto]|]). intros k [<-|Hk] D; auto.
  Qed.

  Lemma wm_loop_ok tb : forall fuel i s, (exists c0, WI c0 [] s) -> w_tr s = [] -> w_dep s = [] -> w_pot s = [] -> (wtotal s <= fuel)%nat ->
    exists s', wm_loop tb w h fuel i s = Some (Ok s') /\ (exists c0, WI c0 [] s') /\ w_pq s' = [] /\ w_tr s' = [] /\ w_dep s' = [] /\ w_pot s' = [].
  Proof.
    assert (KEY : forall (q : list (Z * cellt)), q <> [] -> exists a, In a q /\ forall b, In b q -> (fst a >? fst b) = false) by (intros q; apply (min_by_key fst)).
    assert (STEP : forall i s c q, (exists c0, WI c0 [] s) -> w_tr s = [] -> w_dep s = [] -> w_pot s = [] -> pq_pop (fun a b : Z * cellt => fst a >? fst b) (tb i) (w_pq s) = Some (c, q) ->
      exists s', fold_left (wm_visit w h c) (dirs D8) (Some (Ok (mkW (w_dem s) (w_flag s) q (w_tr s) (w_dep s) (w_pot s)))) = Some (Ok s') /\
        (exists c0, WI c0 [] s') /\ w_tr s' = [] /\ w_dep s' = [] /\ w_pot s' = [] /\ (wtotal s' < wtotal s)%nat).
    { intros i s c q [c0 I] T0 D0 P0 E. apply pq_pop_some in E. destruct E as [PM MIN].
      assert (INC : In c (w_pq s)) by (apply (Permutation_in _ (Permutation_sym PM)); left; auto).
      set (s1 := mkW (w_dem s) (w_flag s) q (w_tr s) (w_dep s) (w_pot s)).
      pose proof I as [A1 A2 A3 A4 A5 A6].
      assert (PC : wpend [] s (snd c)) by (right; left; apply in_map; auto).
      assert (KC : fst c = w_dem s (snd c)) by (apply A4; destruct c; left; exact INC).
      assert (PP : forall u, wpend [] s u <-> wpend [snd c] s1 u).
      { intros u. unfold wpend, s1. cbn [w_pq w_tr w_dep w_pot In]. rewrite T0, D0, P0. cbn [In map].
        assert (In u (map snd (w_pq s)) <-> snd c = u \/ In u (map snd q)).
        { split; [intros H; apply (Permutation_in _ (Permutation_map snd PM)) in H; exact H|intros H; apply (Permutation_in _ (Permutation_sym (Permutation_map snd PM))); exact H]. }
        tauto. }
      assert (LOW : forall u, wpend [] s u -> Fw (w_flag s) u = true /\ fst c <= w_dem s u).
      { intros u Pu. split; [apply (k_pend _ _ _ _ _ _ _ _ A1 _ Pu)|]. destruct Pu as [[]|[Pu|Pu]]; [|rewrite T0, D0, P0 in Pu; destruct Pu as [[]|[[]|[]]]].
        apply in_map_iff in Pu. destruct Pu as [[k v] [<- Hv]]. cbn [snd]. rewrite <- (A4 k v (or_introl Hv)). specialize (MIN _ Hv). cbn [fst] in MIN. rewrite Z.gtb_ltb in MIN. apply Z.ltb_ge in MIN. exact MIN. }
      assert (LEN : length (w_pq s) = S (length q)) by (rewrite (Permutation_length PM); reflexivity).
      assert (I1 : WI (fst c) [snd c] s1).
      { constructor; unfold s1 in *; cbn [w_flag w_dem w_pq w_tr w_dep w_pot] in *; auto.
        - eapply (K_ext _ _ _ _ _ (Fw (w_flag s)) _ (w_dem s) _ (wpend [] s)); try reflexivity.
          + exact PP.
          + apply (K_more _ _ _ _ c0 (fst c) _ _ (wpend [] s)); auto.
        - intros k u [Hu|Hu]; apply A4; [left; apply (Permutation_in _ (Permutation_sym PM)); right; auto|auto]. }
      destruct (wm_fold c (dirs D8) s1 (wtotal s1) (incl_refl _) I1) as [s2 [E2 [I2 [M2 [T2 [D2 [P2 [L2 F2]]]]]]]]; auto.
      exists s2. split; [exact E2|]. split; [exists (fst c); apply (WI_done (fst c) (snd c)); auto; intros n Hn Dn; left; auto|]. split; [exact T2|]. split; [exact D2|]. split; [exact P2|].
      assert (TS : (wtotal s1 < wtotal s)%nat) by (clear E2 I2 M2 L2 F2; unfold wtotal, s1 in *; cbn [w_flag w_dem w_pq w_tr w_dep w_pot] in *; lia). clear - TS M2. lia. }
    induction fuel as [|f IH]; intros i s I T0 D0 P0 Hm; cbn [wm_loop]; destruct (pq_pop _ (tb i) (w_pq s)) as [[c q]|] eqn:E.
    - exfalso. destruct (STEP i s c q I T0 D0 P0 E) as [s' [_ [_ [_ [_ [_ LT]]]]]]. lia.
    - exists s. repeat (split; [solve [auto]|]). split; auto. eapply pq_pop_none; [|exact E]. apply KEY.
    - destruct (STEP i s c q I T0 D0 P0 E) as [s' [E' [I' [T' [D' [P' LT]]]]]]. rewrite E'. cbn [then_w]. apply IH; auto. lia.
    - exists s. repeat (split; [solve [auto]|]). split; auto. eapply pq_pop_none; [|exact E]. apply KEY.
  Qed.

  (** ** InitPriorityQue *)
  Record NI (s : wst) : Prop := {
    ni_dem : forall c, w_dem s c = e0 c;
    ni_tr : w_tr s = []; ni_dep : w_dep s = []; ni_pot : w_pot s = [];
    ni_in : forall c, w_flag s c = true -> inside c;
    ni_pq : forall k v, In (k, v) (w_pq s) -> k = e0 v /\ wdom v /\ wout v /\ w_flag s v = true;
    ni_all : forall v, w_flag s v = true -> e0 v <> nd -> In v (map snd (w_pq s));
    ni_room : (length (w_pq s) + unf (w_flag s) w h <= Z.to_nat w * Z.to_nat h)%nat }.
  Definition grew (s s' : wst) : Prop := forall u, w_flag s u = true -> w_flag s' u = true.

  Lemma NI_push s c : NI s -> inside c -> w_flag s c = false -> e0 c <> nd -> wout c ->
    NI (mkW (w_dem s) (cset (w_flag s) c true) ((w_dem s c, c) :: w_pq s) (w_tr s) (w_dep s) (w_pot s)).
  Proof.
    intros [A B C D E F G R] Dc Fc Nc Oc. constructor; cbn [w_flag w_dem w_pq w_tr w_dep w_pot]; auto.
    - intros u. destruct (cell_eq_dec u c) as [->|Ne]; [auto|rewrite cset_other; auto].
    - intros k v [H|H].
      + injection H as <- <-. rewrite cset_same. split; [auto|]. split; [split; auto|auto].
      + destruct (F k v H) as [F1 [F2 [F3 F4]]]. split; [auto|]. split; [auto|]. split; [auto|]. rewrite cset_other; auto. intros ->. congruence.
    - intros v. destruct (cell_eq_dec v c) as [->|Ne]; [left; reflexivity|]. rewrite cset_other by auto. intros H1 H2. right. auto.
    - rewrite (unf_cset (w_flag s) w h c) in R; [cbn [length]; lia|apply zdom_cells; auto|auto].
  Qed.
  Lemma NI_nodata s c : NI s -> inside c -> w_flag s c = false -> e0 c = nd -> NI (mkW (w_dem s) (cset (w_flag s) c true) (w_pq s) (w_tr s) (w_dep s) (w_pot s)).
  Proof.
    intros [A B C D E F G R] Dc Fc Nc. constructor; cbn [w_flag w_dem w_pq w_tr w_dep w_pot]; auto.
    - intros u. destruct (cell_eq_dec u c) as [->|Ne]; [auto|rewrite cset_other; auto].
    - intros k v H. destruct (F k v H) as [F1 [F2 [F3 F4]]]. split; [auto|]. split; [auto|]. split; [auto|]. rewrite cset_other; auto. intros ->. congruence.
    - intros v. destruct (cell_eq_dec v c) as [->|Ne]; [intros _ H; contradiction|]. rewrite cset_other by auto. auto.
    - rewrite (unf_cset (w_flag s) w h c) in R; [lia|apply zdom_cells; auto|auto].
  Qed.
  Lemma grew_cset s c dm pq tr dep pot : grew s (mkW dm (cset (w_flag s) c true) pq tr dep pot).
  Proof. intros u Hu. cbn [w_flag]. destruct (cell_eq_dec u c) as [->|]; [apply cset_same|rewrite cset_other; auto]. Qed.

  Lemma near_fold c : inside c -> e0 c = nd -> forall ns s, incl ns (dirs D8) -> NI s ->
    exists s', forM ns (wi_near w h nd c) s = Ok s' /\ NI s' /\ grew s s' /\ (forall n, In n ns -> inside (off c n) -> e0 (off c n) <> nd -> w_flag s' (off c n) = true) /\
      (forall u, e0 u = nd -> w_flag s' u = w_flag s u).
  Proof.
    intros Dc Ec. induction ns as [|n ns IH]; intros s Inc I; cbn [forM].
    - exists s. split; [reflexivity|]. split; [auto|]. split; [intros u; auto|]. split; [intros n []|auto].
    - assert (Hn : In n (dirs D8)) by (apply Inc; left; auto). assert (Inc' : incl ns (dirs D8)) by (intros a Ha; apply Inc; right; auto).
      assert (STEP : exists s', wi_near w h nd c n s = Ok s' /\ NI s' /\ grew s s' /\ (inside (off c n) -> e0 (off c n) <> nd -> w_flag s' (off c n) = true) /\ (forall u, e0 u = nd -> w_flag s' u = w_flag s u)).
      { unfold wi_near. set (ni := off c n) in *. destruct (inR w h ni) eqn:IR; cbn [negb].
        2: { exists s. split; [reflexivity|]. split; [auto|]. split; [intros u; auto|]. split; [|auto]. intros D. apply (inR_iff w h) in D. congruence. }
        apply (inR_iff w h) in IR. rewrite !(cat_ok _ _ IR). cbn [bind]. destruct (w_flag s ni) eqn:FL.
        { exists s. split; [reflexivity|]. split; [auto|]. split; [intros u; auto|]. split; [|auto]. auto. }
        destruct (Z.eqb_spec (w_dem s ni) nd) as [E|E].
        { exists s. split; [reflexivity|]. split; [auto|]. split; [intros u; auto|]. split; [|auto]. rewrite (ni_dem _ I) in E. contradiction. }
        rewrite (put_ok _ _ _ IR). cbn [bind]. eexists. split; [reflexivity|]. split; [|split; [apply grew_cset|split]].
        - apply NI_push; auto; [rewrite <- (ni_dem _ I); auto|]. right. exists c. split; [auto|]. split; [apply nb8_sym, off_nb; auto|auto].
        - intros _ _. cbn [w_flag]. apply cset_same.
        - intros u Hu. cbn [w_flag]. apply cset_other. intros ->. rewrite (ni_dem _ I) in E. contradiction. }
      destruct STEP as [s1 [E1 [I1 [G1 [F1 N1]]]]]. rewrite E1. cbn [bind]. destruct (IH s1 Inc' I1) as [s2 [E2 [I2 [G2 [F2 N2]]]]].
      exists s2. split; [exact E2|]. split; [exact I2|]. split; [intros u Hu; apply G2, G1, Hu|]. split; [intros k [<-|Hk]; auto|]. intros u Hu. rewrite N2, N1; auto.
  Qed.

  (** what has been seen to for a cell *)
  Definition seen (s : wst) (c : cellt) : Prop :=
    (zout w h c -> w_flag s c = true) /\ (e0 c = nd -> w_flag s c = true).
  Definition surr (s : wst) : Prop := forall c n, w_flag s c = true -> e0 c = nd -> In n (dirs D8) -> inside (off c n) -> e0 (off c n) <> nd -> w_flag s (off c n) = true.

  Lemma init_fold : forall q s, (forall c, In c q -> inside c) -> NI s -> surr s ->
    exists s', forM q (wi_cell w h nd) s = Ok s' /\ NI s' /\ grew s s' /\ surr s' /\ (forall c, In c q -> seen s' c).
  Proof.
    induction q as [|c q IH]; intros s HQ I SU; cbn [forM].
    - exists s. split; [reflexivity|]. split; [auto|]. split; [intros u; auto|]. split; [auto|]. intros c [].
    - assert (Dc : inside c) by (apply HQ; left; auto).
      assert (STEP : exists s', wi_cell w h nd c s = Ok s' /\ NI s' /\ grew s s' /\ surr s' /\ seen s' c).
      { unfold wi_cell. rewrite !(cat_ok _ _ Dc). cbn [bind]. destruct (w_flag s c) eqn:FL.
        { exists s. split; [reflexivity|]. split; [auto|]. split; [intros u; auto|]. split; [auto|]. split; auto. }
        destruct (Z.eqb_spec (w_dem s c) nd) as [E|E]; rewrite (ni_dem _ I) in E.
        - rewrite (put_ok _ _ _ Dc). cbn [bind]. destruct (near_fold c Dc E (dirs D8) _ (incl_refl _) (NI_nodata s c I Dc FL E)) as [s1 [E1 [I1 [G1 [F1 N1]]]]].
          exists s1. split; [exact E1|]. split; [exact I1|]. split; [intros u Hu; apply G1; apply (grew_cset s c); exact Hu|].
          assert (FC : w_flag s1 c = true) by (apply G1; cbn [w_flag]; apply cset_same). split; [|split; auto].
          intros v n Hv Ev Hn Dn En. destruct (cell_eq_dec v c) as [->|Ne]; [apply F1; auto|]. rewrite N1 in Hv by auto. cbn [w_flag] in Hv. rewrite cset_other in Hv by auto.
          apply G1. apply (grew_cset s c). apply (SU v n); auto.
        - destruct (isEdgeCell w h (fst c) (snd c)) eqn:ED.
          + rewrite (put_ok _ _ _ Dc). cbn [bind]. eexists. split; [reflexivity|]. split; [apply NI_push; auto; left|].
            * unfold zout, on_edge. split; [exact Dc|]. unfold isEdgeCell in ED. rewrite !orb_true_iff, !Z.eqb_eq in ED. tauto.
            * split; [apply grew_cset|]. split; [|split; [intros _; apply cset_same|contradiction]].
              intros v n Hv Ev Hn Dn En. cbn [w_flag] in *. destruct (cell_eq_dec v c) as [->|Ne]; [contradiction|]. rewrite cset_other in Hv by auto.
              apply (grew_cset s c (w_dem s) [] [] [] []). apply (SU v n); auto.
          + exists s. split; [reflexivity|]. split; [auto|]. split; [intros u; auto|]. split; [auto|]. split; [|contradiction].
            intros [_ O]. unfold isEdgeCell in ED. rewrite !orb_false_iff, !Z.eqb_neq in ED. tauto. }
      destruct STEP as [s1 [E1 [I1 [G1 [S1 N1]]]]]. rewrite E1. cbn [bind]. destruct (IH s1) as [s2 [E2 [I2 [G2 [S2 N2]]]]]; auto; [intros a Ha; apply HQ; right; auto|].
      exists s2. split; [exact E2|]. split; [exact I2|]. split; [intros u Hu; apply G2, G1, Hu|]. split; [exact S2|]. intros k [<-|Hk]; [|auto]. destruct N1 as [A B]. split; intros H; apply G2; auto.
  Qed.

  (** every data cell has a way out *)
  Lemma esc_exists c : wdom c -> exists L, esc nb8 wdom wout e0 L c.
  Proof.
    destruct c as [x y]. intros D. assert (Hx : 0 <= x) by (destruct D as [[? ?] _]; cbn in *; lia). revert D. pattern x. revert x Hx. apply natlike_ind.
    - intros D. exists (e0 (0, y)). apply esc_out; auto; [|lia]. left. split; [exact (proj1 D)|]. cbn. auto.
    - intros x Hx IH D. unfold Z.succ in *. assert (NB : nb8 (x + 1, y) (x, y)) by (unfold nb8, adjacent; cbn [fst snd]; split; [intros E; injection E; lia|lia]).
      assert (DI : inside (x, y)) by (destruct D as [[? ?] _]; unfold zdom, in_raster; cbn in *; lia).
      destruct (Z.eq_dec (e0 (x, y)) nd) as [E|E].
      + exists (e0 (x + 1, y)). apply esc_out; auto; [|lia]. right. exists (x, y). auto.
      + destruct IH as [L HL]; [split; auto|]. exists (Z.max L (e0 (x + 1, y))). apply (esc_step _ _ _ _ _ _ (x, y)); auto; [lia|]. apply (esc_le _ _ _ _ L); [exact HL|lia].
  Qed.
End Wei.

Lemma scan_inside w h c : In c (scan w h) <-> zdom w h c.
Proof. destruct c as [x y]. rewrite scan_In. unfold zdom, in_raster. cbn. tauto. Qed.

Theorem wei_correct tb w h nd dem : 
  let e := fun c : cellt => dem (fst c) (snd c) in
  exists r, PriorityFlood_Wei2018 tb w h nd dem = Some (Ok r) /\
    (forall c, zdom w h c -> e c = nd -> r (fst c) (snd c) = nd) /\
    (forall c, zdom w h c -> e c <> nd -> lev nb8 (wdom w h nd e) (wout w h nd e) e c (r (fst c) (snd c))).
Proof.
  intros e. unfold PriorityFlood_Wei2018. set (s0 := mkW (fun c => dem (fst c) (snd c)) (fun _ => false) [] [] [] []).
  assert (I0 : NI w h nd e s0).
  { constructor; unfold s0; cbn [w_flag w_dem w_pq w_tr w_dep w_pot]; auto; try discriminate; try contradiction. cbn [length]. apply unf_bound. }
  destruct (init_fold w h nd e (scan w h) s0) as [s1 [E1 [I1 [_ [SU SE]]]]]; auto.
  - intros c. apply scan_inside.
  - intros c n H. discriminate H.
  - unfold InitPriorityQue. rewrite E1. cbn [then_w]. pose proof I1 as [A1 A2 A3 A4 A5 A6 A7 A8].
    assert (MINV : exists c0, forall v, In v (map snd (w_pq s1)) -> c0 <= e v).
    { generalize (map snd (w_pq s1)). induction l as [|a q [c0 IH]]; [exists 0; intros v []|]. exists (Z.min (e a) c0). intros v [<-|Hv]; [lia|]. specialize (IH v Hv). lia. }
    destruct MINV as [c0 Hc].
    assert (OUT : forall v, wdom w h nd e v -> wout w h nd e v -> w_flag s1 v = true).
    { intros v Dv [O|[n [Dn [N En]]]].
      - apply (proj1 (SE v (proj2 (scan_inside w h v) (proj1 Dv)))). exact O.
      - destruct (nb_off _ _ (nb8_sym _ _ N)) as [k [Hk ->]]. apply (SU n k); auto; try apply Dv. apply (proj2 (SE n (proj2 (scan_inside w h n) Dn))). exact En. }
    assert (I : exists c0, WI w h nd e c0 [] s1).
    { exists c0. constructor; auto.
      - constructor.
        + intros v Dv Ov. apply Fw_true. split; [auto|apply Dv].
        + intros v Hv. apply Fw_true in Hv. destruct Hv. split; auto.
        + auto.
        + intros v Hv. apply Fw_true in Hv. destruct Hv as [F1 F2]. specialize (A7 v F1 F2). apply in_map_iff in A7. destruct A7 as [[k u] [<- Hv]]. cbn [snd].
          destruct (A6 _ _ Hv) as [_ [B1 [B2 _]]]. rewrite A1. split; [apply esc_out; auto; lia|]. intros L' EL. exact (esc_here _ _ _ _ _ _ EL).
        + intros v [[]|[Pv|Pv]]; [|rewrite A2, A3, A4 in Pv; destruct Pv as [[]|[[]|[]]]]. rewrite A1. split; [|auto]. apply in_map_iff in Pv. destruct Pv as [[k u] [<- Hv]].
          destruct (A6 _ _ Hv) as [_ [B1 [_ B2]]]. apply Fw_true. split; [auto|apply B1].
        + intros v u Hv _ _ _. left. right. left. apply Fw_true in Hv. destruct Hv. auto.
      - intros c Dc Ec. split; [|rewrite A1; auto]. apply (proj2 (SE c (proj2 (scan_inside w h c) Dc))). exact Ec.
      - intros k v Hv. rewrite A2, A3, A4 in Hv. destruct Hv as [Hv|[[]|[[]|[]]]]. rewrite A1. apply A6. auto.
      - intros v Hv. rewrite A2, A3, A4 in Hv. destruct Hv as [[]|[[]|[]]].
      - rewrite A2, A3, A4. cbn [length]. lia. }
    destruct (wm_loop_ok w h nd e tb (Z.to_nat w * Z.to_nat h) 0 s1 I A2 A3 A4) as [s [E [[c1 J] [Q1 [Q2 [Q3 Q4]]]]]].
    + unfold wtotal. rewrite A2, A3, A4. cbn [length]. lia.
    + rewrite E. eexists. split; [reflexivity|]. split.
      * intros [x y] Dc Ec. apply (wi_nd _ _ _ _ _ _ _ J); auto.
      * intros [x y] Dc Ec. apply (k_lev _ _ _ _ _ _ _ _ (wi_k _ _ _ _ _ _ _ J)).
        assert (WD : wdom w h nd e (x, y)) by (split; auto).
        apply (K_end nb8 _ (wout w h nd e) e nb8_sym c1 _ _ _ (wi_k _ _ _ _ _ _ _ J)); [|exact WD|apply esc_exists; exact WD].
        intros v [[]|[Pv|[Pv|[Pv|Pv]]]]; [rewrite Q1 in Pv|rewrite Q2 in Pv|rewrite Q3 in Pv|rewrite Q4 in Pv]; destruct Pv.
Qed.
