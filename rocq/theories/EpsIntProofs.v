(** Integer Priority-Flood+Epsilon on rasters without negative elevations. *)
From Coq Require Import ZArith List Lia Bool Permutation Sorted.
From Verif Require Import Base RasterSpec RasterFacts PFModel PFInv PFProofs EpsIntModel.
Import ListNotations.
Open Scope Z_scope.

Section EpsInt.
  Variables (tb : nat -> nat) (nd : Z) (t : topology) (w h : Z) (e0 : grid Z).
  Hypothesis H0 : forall x y, in_raster w h x y -> 0 <= e0 x y.
  Hypothesis HD : forall x y, in_raster w h x y -> e0 x y <> nd.

  (** strictly below every level at which the cell drains *)
  Definition under (z x y : Z) : Prop := forall L, drains t w h e0 L x y -> z + 1 <= L.

  Record XI (cl : grid bool) (el : grid Z) (F : list item) : Prop := {
    xi_edge : forall x y, on_edge w h x y -> cl x y = true;
    xi_raster : forall x y, cl x y = true -> in_raster w h x y;
    xi_unclosed : forall x y, cl x y = false -> el x y = e0 x y;
    xi_keep : forall x y, e0 x y <= el x y /\ (on_edge w h x y -> el x y = e0 x y);
    xi_under : forall x y, cl x y = true -> el x y = e0 x y \/ under (el x y) x y;
    xi_slope : forall x y, cl x y = true -> el x y <> e0 x y -> exists x' y', adjacent t x y x' y' /\ cl x' y' = true /\ el x' y' = el x y + 1;
    xi_item : forall it, In it F -> cl (ix it) (iy it) = true /\ el (ix it) (iy it) = iz it /\ 0 <= iz it;
    xi_front : forall x y x' y', cl x y = true -> adjacent t x y x' y' -> in_raster w h x' y' ->
      cl x' y' = false -> exists it, In it F /\ ix it = x /\ iy it = y }.

  Lemma XI_equiv cl el F F' : (forall it, In it F <-> In it F') -> XI cl el F -> XI cl el F'.
  Proof.
    intros E [A1 A2 A3 A4 A5 A6 A7 A8]. constructor; auto; try (intros it Hin; apply E in Hin; auto).
    intros x y x' y' A A' C D. destruct (A8 x y x' y' A A' C D) as [it [Hi Hr]]. exists it. rewrite <- E. auto.
  Qed.

  Lemma XI_visit cl el F c nx ny z el' :
    XI cl el F -> In c F -> adjacent t (ix c) (iy c) nx ny -> in_raster w h nx ny -> cl nx ny = false ->
    (forall x y, (x, y) <> (nx, ny) -> el' x y = el x y) -> el' nx ny = z ->
    (z = e0 nx ny \/ (e0 nx ny <= z /\ z + 1 = iz c /\ under z nx ny)) ->
    XI (gset cl nx ny true) el' (mkItem nx ny z :: F).
  Proof.
    intros HI Hc Ha Hr Hn Hel Hz HZ. pose proof HI as [A1 A2 A3 A4 A5 A6 A7 A8].
    assert (Hne : ~ on_edge w h nx ny) by (intros He; rewrite (A1 _ _ He) in Hn; discriminate).
    destruct (A7 _ Hc) as [Hcc [Hce Hc0]].
    assert (Hcn : (ix c, iy c) <> (nx, ny)) by (eapply adjacent_neq; eauto).
    assert (Hext : forall x y, cl x y = true -> gset cl nx ny true x y = true /\ el' x y = el x y).
    { intros x y Hxy. assert ((x, y) <> (nx, ny)) by (intros E; inversion E; subst; congruence).
      rewrite gset_other by auto. auto. }
    constructor.
    - intros x y He. apply Hext; auto.
    - intros x y Hxy. destruct (gset_cases cl nx ny true x y) as [[E _]|[_ E]]; [inversion E; subst; auto|].
      rewrite E in Hxy. auto.
    - intros x y Hxy. destruct (gset_cases cl nx ny true x y) as [[_ E]|[Hne' E]]; rewrite E in Hxy; [discriminate|].
      rewrite Hel; auto.
    - intros x y. destruct (gset_cases cl nx ny true x y) as [[E _]|[Hne' _]].
      + inversion E; subst x y. rewrite Hz. split; [lia|]. contradiction.
      + rewrite Hel by auto. apply A4.
    - intros x y Hxy. destruct (gset_cases cl nx ny true x y) as [[E _]|[Hne' E]].
      + inversion E; subst x y. rewrite Hz. destruct HZ as [HZ|[_ [_ HZ]]]; auto.
      + rewrite E in Hxy. rewrite Hel by auto. auto.
    - intros x y Hxy Hd. destruct (gset_cases cl nx ny true x y) as [[E _]|[Hne' E]].
      + inversion E; subst x y. rewrite Hz in *. destruct HZ as [HZ|[_ [HZ _]]]; [congruence|].
        exists (ix c), (iy c). split; [apply adjacent_sym; auto|]. destruct (Hext _ _ Hcc) as [-> ->]. split; [auto|]. congruence.
      + rewrite E in Hxy. rewrite Hel in * by auto. destruct (A6 x y Hxy Hd) as [x' [y' [B1 [B2 B3]]]]. exists x', y'.
        destruct (Hext _ _ B2) as [-> ->]. auto.
    - intros it [<-|Hin]; cbn [ix iy iz].
      + rewrite gset_same. split; [auto|]. split; [auto|]. specialize (H0 _ _ Hr). lia.
      + destruct (A7 _ Hin) as [A [A' A'']]. destruct (Hext _ _ A) as [-> ->]. auto.
    - intros x y x' y' Hx Hadj Hr' Hx'.
      assert (Hold : cl x' y' = false).
      { destruct (gset_cases cl nx ny true x' y') as [[_ E]|[_ E]]; rewrite E in Hx'; [discriminate|auto]. }
      destruct (gset_cases cl nx ny true x y) as [[E _]|[_ E]].
      + inversion E; subst. eexists. simpl. split; [left; reflexivity|]. auto.
      + rewrite E in Hx. destruct (A8 _ _ _ _ Hx Hadj Hr' Hold) as [it [Hi Hp]]. exists it. simpl; auto.
  Qed.

  Lemma XI_finish cl el F c : XI cl el (c :: F) ->
    (forall x y, adjacent t (ix c) (iy c) x y -> in_raster w h x y -> cl x y = true) -> XI cl el F.
  Proof.
    intros [A1 A2 A3 A4 A5 A6 A7 A8] Hall. constructor; auto; try (intros it Hin; apply A7; simpl; auto).
    intros x y x' y' A A' C D. destruct (A8 _ _ _ _ A A' C D) as [it [[<-|Hin] [Ex Ey]]]; [|eauto].
    subst x y. rewrite (Hall _ _ A' C) in D. discriminate.
  Qed.

  Lemma XI_done cl el : XI cl el [] -> forall x y, in_raster w h x y -> cl x y = true.
  Proof.
    intros HI x y Hr. destruct (cl x y) eqn:Hc; auto. exfalso.
    assert (H : forall n x, x = Z.of_nat n -> in_raster w h x y -> cl x y = false -> False).
    { induction n as [|n IH]; intros x0 Hx Hr0 Hc0.
      - rewrite (xi_edge _ _ _ HI) in Hc0; [discriminate|]. split; [auto|left; lia].
      - destruct (cl (x0 - 1) y) eqn:Hc'.
        + destruct (xi_front _ _ _ HI (x0-1) y x0 y Hc') as [it [[] _]]; auto.
          replace x0 with ((x0 - 1) + 1) at 2 by lia. apply adjacent_right.
        + apply (IH (x0 - 1)); auto; [lia|]. destruct Hr0; split; lia. }
    apply (H (Z.to_nat x) x); auto. destruct Hr; lia.
  Qed.

  (** a cell that drains and is not closed yet drains through a closed cell of the front *)
  Lemma front_level cl el F L x y : XI cl el F -> drains t w h e0 L x y -> cl x y = false ->
    exists it, In it F /\ drains t w h e0 L (ix it) (iy it).
  Proof.
    intros HI D. induction D as [x y He Hle|x y x' y' Hr Hle Ha Hd IH]; intros Hc.
    - rewrite (xi_edge _ _ _ HI _ _ He) in Hc. discriminate.
    - destruct (cl x' y') eqn:Hc'; [|auto].
      destruct (xi_front _ _ _ HI x' y' x y Hc' (adjacent_sym _ _ _ _ _ Ha) Hr Hc) as [it [Hi [<- <-]]]. eauto.
  Qed.

  Definition ge_item (a b : item) : Prop := iz b <= iz a.
  (** the queues between two steps *)
  Record QI (op pit : list item) : Prop := {
    q_sorted : StronglySorted ge_item pit;
    q_close : forall a b, In a pit -> In b pit -> iz a - 1 <= iz b;
    q_open : forall a b, In a pit -> In b op -> iz a <= iz b;
    q_kind : forall a, In a pit -> under (iz a) (ix a) (iy a) \/ forall b, In b pit -> iz b = 0 }.
  (** while the cell [c] is processed *)
  Record QC (c : item) (op pit : list item) : Prop := {
    c_sorted : StronglySorted ge_item pit;
    c_pit : forall a, In a pit -> iz c - 1 <= iz a <= iz c;
    c_open : forall b, In b op -> iz c <= iz b;
    c_kind : forall a, In a pit -> under (iz a) (ix a) (iy a) \/ iz c = 0 }.

  Lemma QC_done c op pit : (forall a, In a pit -> 0 <= iz a) -> QC c op pit -> QI op pit.
  Proof.
    intros P [B1 B2 B3 B4]. constructor; auto.
    - intros a b Ia Ib. pose proof (B2 a Ia). pose proof (B2 b Ib). lia.
    - intros a b Ia Ib. pose proof (B2 a Ia). pose proof (B3 b Ib). lia.
    - intros a Ia. destruct (B4 a Ia) as [?|Z]; [auto|right]. intros b Ib. specialize (B2 b Ib). specialize (P b Ib). lia.
  Qed.

  Lemma sorted_snoc pit c : StronglySorted ge_item pit -> (forall a, In a pit -> iz c <= iz a) -> StronglySorted ge_item (pit ++ [c]).
  Proof.
    induction 1 as [|a l HS IH HF]; intros P; cbn [app].
    - constructor; constructor.
    - constructor; [apply IH; intros b Ib; apply P; right; exact Ib|]. apply Forall_app. split; [exact HF|]. constructor; [|constructor]. unfold ge_item. apply P. left. reflexivity.
  Qed.

  Lemma pop_pit p pit op : QI op (p :: pit) -> QC p op pit.
  Proof.
    intros [B1 B2 B3 B4]. inversion B1 as [|? ? S1 F1]; subst. rewrite Forall_forall in F1. constructor; [exact S1| | |].
    - intros a Ia. split; [apply B2; [left; reflexivity|right; exact Ia]|apply F1; exact Ia].
    - intros b Ib. apply B3; [left; reflexivity|exact Ib].
    - intros a Ia. destruct (B4 a (or_intror Ia)) as [?|Z]; [auto|right; apply Z; left; reflexivity].
  Qed.

  Lemma pop_open k op c q pit : pq_pop item_gt k op = Some (c, q) -> QI op pit -> (forall p pt', pit = p :: pt' -> iz p = iz c) -> QC c q pit.
  Proof.
    intros Hq [B1 B2 B3 B4] Hz. apply pq_pop_item in Hq. destruct Hq as [HP Hmin]. 
    assert (Sub : forall b, In b q -> In b op) by (intros b Ib; eapply Permutation_in; [apply Permutation_sym; exact HP|right; exact Ib]).
    assert (Ic : In c op) by (eapply Permutation_in; [apply Permutation_sym; exact HP|left; reflexivity]).
    constructor; [exact B1| | |].
    - intros a Ia. destruct pit as [|p pit]; [contradiction|]. pose proof (Hz p pit eq_refl) as E. specialize (B2 p a (or_introl eq_refl) Ia).
      specialize (B3 a c Ia Ic). lia.
    - intros b Ib. apply Hmin. auto.
    - intros a Ia. destruct (B4 a Ia) as [?|Zz]; [auto|right]. destruct pit as [|p pit]; [contradiction|]. pose proof (Hz p pit eq_refl) as E.
      rewrite <- E. apply Zz. left. reflexivity.
  Qed.

  Definition xmu (s : bstate) : nat := msr w h (b_closed s) (length (b_pit s) + length (b_open s)).
  Definition XJ (s : bstate) : Prop := XI (b_closed s) (b_elev s) (b_pit s ++ b_open s) /\ QI (b_open s) (b_pit s).
  Definition XC (c : item) (m : nat) (s : bstate) : Prop :=
    XI (b_closed s) (b_elev s) (c :: b_pit s ++ b_open s) /\ QC c (b_open s) (b_pit s) /\ xmu s = m.

  Lemma epsi_pop_inv i s c s1 : XJ s -> eps_pop tb i s = Some (c, s1) -> XC c (xmu s1) s1 /\ (xmu s1 < xmu s)%nat.
  Proof.
    intros [HJ HQ] Hp. unfold eps_pop in Hp. destruct s as [cl el op pt]; cbn [b_closed b_elev b_open b_pit] in *.
    assert (Hopen : forall c' q, pq_pop item_gt (tb i) op = Some (c', q) -> (forall p pt', pt = p :: pt' -> iz p = iz c') ->
      XC c' (xmu (mkB cl el q pt)) (mkB cl el q pt) /\ (xmu (mkB cl el q pt) < xmu (mkB cl el op pt))%nat).
    { intros c' q Hq Hz. split.
      - split; [|split; [|reflexivity]]; cbn [b_closed b_elev b_open b_pit].
        + apply pq_pop_item in Hq. destruct Hq as [HP _]. eapply XI_equiv; [|exact HJ]. intros it. cbn [In]. rewrite !in_app_iff.
          assert (E : In it op <-> c' = it \/ In it q).
          { split; [apply (Permutation_in it HP)|apply (Permutation_in it (Permutation_sym HP))]. }
          tauto.
        + eapply pop_open; [exact Hq|exact HQ|]. exact Hz.
      - apply pq_pop_item in Hq. destruct Hq as [HP _]. unfold xmu, msr. cbn. rewrite (Permutation_length HP). cbn. lia. }
    assert (Hpit : forall p pt', pt = p :: pt' ->
      XC p (xmu (mkB cl el op pt')) (mkB cl el op pt') /\ (xmu (mkB cl el op pt') < xmu (mkB cl el op pt))%nat).
    { intros p pt' ->. split; [split; [exact HJ|split; [apply pop_pit; exact HQ|reflexivity]]|]. unfold xmu, msr. cbn. lia. }
    destruct pt as [|p pt'].
    - destruct (pq_pop item_gt (tb i) op) as [[c' q]|]; [|discriminate].
      inversion Hp; subst c' s1. apply Hopen; [reflexivity|]. intros; discriminate.
    - destruct (pq_pop item_gt (tb i) op) as [[c' q]|].
      + destruct (Z.eqb_spec (iz c') (iz p)) as [E|E]; inversion Hp; subst; auto.
        apply Hopen; [reflexivity|]. intros p0 pt0 Q. inversion Q; subst. auto.
      + inversion Hp; subst; auto.
  Qed.

  Lemma epsi_step i s c s1 : XJ s -> eps_pop tb i s = Some (c, s1) ->
    XJ (epsi_body nd t w h c s1) /\ (xmu (epsi_body nd t w h c s1) < xmu s)%nat.
  Proof.
    intros HJ Hp. destruct (epsi_pop_inv _ _ _ _ HJ Hp) as [HI Hlt]. clear HJ Hp.
    destruct (visit_all_nostop t w h b_closed (epsi_visit nd c) (ix c) (iy c) (XC c (xmu s1)) (dirs t) s1)
      as [HI' [_ Hall]]; auto.
    - clear s HI Hlt. generalize (xmu s1) as m. clear s1.
      intros m s n nx ny [HE [HQ Hm]] Hn Hx Hy Hr Hc.
      assert (Ha : adjacent t (ix c) (iy c) nx ny) by (eapply visit_adjacent; eauto).
      assert (Hun : unclosed (b_closed s) w h = S (unclosed (gset (b_closed s) nx ny true) w h))
        by (apply unclosed_gset; auto; apply Hr).
      assert (Hen : b_elev s nx ny = e0 nx ny) by (apply (xi_unclosed _ _ _ HE); auto).
      assert (Hin : In c (c :: b_pit s ++ b_open s)) by (simpl; auto).
      destruct (xi_item _ _ _ HE c Hin) as [Hcc [Hcel Hc0]].
      pose proof HQ as [B1 B2 B3 B4].
      unfold epsi_visit. rewrite Hen. rewrite (proj2 (Z.eqb_neq _ _) (HD _ _ Hr)).
      destruct (int_below (e0 nx ny) (iz c)) eqn:Hb.
      + assert (K : int_next (iz c) = e0 nx ny /\ iz c = 0 \/ 0 < iz c /\ e0 nx ny <= int_next (iz c) /\ int_next (iz c) + 1 = iz c /\ under (int_next (iz c)) nx ny).
        { unfold int_below, int_next in *. destruct (Z.ltb_spec 0 (iz c)) as [Hz|Hz].
          - right. apply Z.ltb_lt in Hb. split; [lia|]. split; [lia|]. split; [lia|]. intros L D.
            destruct (Z.le_gt_cases (iz c) L) as [?|HL]; [lia|exfalso].
            destruct (front_level _ _ _ L nx ny HE D Hc) as [it [Hi Di]]. pose proof (drains_here _ _ _ _ _ _ _ Di) as Dh.
            destruct (xi_item _ _ _ HE it Hi) as [I1 [I2 I3]].
            destruct Hi as [<-|Hi]; [|apply in_app_or in Hi; destruct Hi as [Hi|Hi]].
            + destruct (xi_under _ _ _ HE _ _ I1) as [U|U]; [lia|]. specialize (U L Di). lia.
            + specialize (B2 it Hi). destruct (B4 it Hi) as [U|U]; [|lia]. specialize (U L Di). lia.
            + specialize (B3 it Hi). destruct (xi_under _ _ _ HE _ _ I1) as [U|U]; [lia|]. specialize (U L Di). lia.
          - left. apply Z.leb_le in Hb. specialize (H0 _ _ Hr). assert (iz c = 0) by lia. rewrite H in *. split; [|reflexivity]. cbn. lia. }
        split; [|reflexivity]. split; [|split]; cbn [b_closed b_elev b_open b_pit].
        * eapply XI_equiv; [|eapply (XI_visit _ (b_elev s) _ c nx ny (int_next (iz c)) _ HE); eauto].
          -- intros it. simpl. rewrite !in_app_iff. simpl. tauto.
          -- intros x y Hne. rewrite gset_other; auto.
          -- apply gset_same.
          -- destruct K as [[K _]|[_ K]]; auto.
        * assert (R : iz c - 1 <= int_next (iz c) <= iz c) by (destruct K as [[K K']|[K [K' [K'' _]]]]; [unfold int_next; rewrite K'; cbn; lia|lia]).
          assert (R2 : forall a, In a (b_pit s) -> int_next (iz c) <= iz a).
          { intros a Ia. destruct (xi_item _ _ _ HE a) as [_ [_ Ip]]; [right; apply in_or_app; left; exact Ia|]. specialize (B2 a Ia).
            destruct K as [[K K']|[K [K' [K'' _]]]]; [|lia]. unfold int_next. rewrite K'. cbn. exact Ip. }
          constructor.
          -- apply sorted_snoc; auto.
          -- intros a Ia. apply in_app_or in Ia. destruct Ia as [Ia|[<-|[]]]; [auto|exact R].
          -- exact B3.
          -- intros a Ia. apply in_app_or in Ia. destruct Ia as [Ia|[<-|[]]]; [auto|]. cbn [ix iy iz]. destruct K as [[K K']|[K [K' [K'' U]]]]; auto.
        * rewrite <- Hm. unfold xmu, msr. cbn. rewrite ?app_length. cbn. lia.
      + split; [|reflexivity]. split; [|split]; cbn [b_closed b_elev b_open b_pit].
        * eapply XI_equiv; [|eapply (XI_visit _ (b_elev s) _ c nx ny (e0 nx ny) (b_elev s) HE); eauto].
          intros it. simpl. rewrite !in_app_iff. simpl. tauto.
        * constructor; auto. intros b [<-|Ib]; [|auto]. cbn [iz]. unfold int_below in Hb. destruct (Z.ltb_spec 0 (iz c)); [apply Z.ltb_ge in Hb; lia|apply Z.leb_gt in Hb; lia].
        * rewrite <- Hm. unfold xmu, msr. cbn. rewrite ?app_length. cbn. lia.
    - reflexivity.
    - fold (epsi_body nd t w h c s1) in *. cbv zeta in *. destruct HI' as [HE [HQ Hm]].
      assert (HE' : XI (b_closed (epsi_body nd t w h c s1)) (b_elev (epsi_body nd t w h c s1)) (b_pit (epsi_body nd t w h c s1) ++ b_open (epsi_body nd t w h c s1))).
      { eapply XI_finish; eauto. }
      split; [|lia]. split; [exact HE'|]. eapply QC_done; [|exact HQ]. intros a Ia.
      destruct (xi_item _ _ _ HE' a) as [_ [_ ?]]; [apply in_or_app; left; exact Ia|assumption].
  Qed.

  Lemma epsi_correct : 0 < w -> 0 < h ->
    exists r, PriorityFloodEpsilon_int tb nd t w h e0 = Some r /\
      forall x y, in_raster w h x y -> e0 x y <= r x y /\ (on_edge w h x y -> r x y = e0 x y) /\ (r x y = e0 x y \/ under (r x y) x y) /\
        (r x y <> e0 x y -> exists x' y', in_raster w h x' y' /\ adjacent t x y x' y' /\ r x' y' = r x y + 1).
  Proof.
    intros Hw Hh. unfold PriorityFloodEpsilon_int.
    destruct (while_pop_inv (eps_pop tb) (epsi_body nd t w h) XJ xmu) with (fuel := pf_fuel w h) (i := 0%nat)
      (s := mkB (init_closed w h) e0 (seeds w h e0) []) as [s' [i' [E [[HE _] Hn]]]].
    - intros; eapply epsi_step; eauto.
    - split; cbn.
      + constructor; auto.
        * intros x y He. apply init_closed_iff; auto.
        * intros x y Hc. apply init_closed_iff in Hc; auto. apply Hc.
        * intros x y. split; [lia|auto].
        * intros x y _ []. reflexivity.
        * intros it Hin. apply seeds_In in Hin; auto. destruct Hin as [He Hz]. split; [apply init_closed_iff; auto|]. split; [auto|]. rewrite Hz. apply H0. apply He.
        * intros x y x' y' Hc _ _ _. apply init_closed_iff in Hc; auto.
          exists (mkItem x y (e0 x y)). cbn. split; auto. apply seeds_In; auto.
      + constructor; [constructor| | |]; intros; contradiction.
    - cbn. apply init_fuel.
    - rewrite E. cbn. eexists. split; [reflexivity|]. intros x y Hr.
      unfold eps_pop in Hn. destruct (b_pit s') as [|p pt] eqn:Hpit.
      + destruct (pq_pop item_gt (tb i') (b_open s')) as [[? ?]|] eqn:Hq; [discriminate|].
        apply pq_pop_item_none in Hq. rewrite Hq in HE. cbn in HE. pose proof (XI_done _ _ HE) as Dn.
        split; [apply (xi_keep _ _ _ HE)|]. split; [apply (xi_keep _ _ _ HE)|]. split; [apply (xi_under _ _ _ HE); auto|].
        intros Hd. destruct (xi_slope _ _ _ HE x y (Dn x y Hr) Hd) as [x' [y' [S1 [S2 S3]]]]. exists x', y'. split; [apply (xi_raster _ _ _ HE); auto|auto].
      + destruct (pq_pop item_gt (tb i') (b_open s')) as [[? ?]|]; [destruct (_ =? _)|]; discriminate.
  Qed.
End EpsInt.
