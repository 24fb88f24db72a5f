(** Depression breaching: selective and constrained breaching, and the flood after it. *)
From Coq Require Import ZArith List Lia Bool Permutation.
From Verif Require Import Base Res RasterSpec RasterFacts Kahn FlowModel FlowProofs TraceFlood ZhouModel ZhouProofs WeiModel WeiProofs BreachModel BreachSpec BreachProofs BreachLoop BreachComplete BreachTop.
Open Scope Z_scope.

Section Walks.
  Variables (w h : Z) (down : Z -> Z) (back : cellt -> option cellt) (rk : cellt -> nat).
  Hypothesis Hb : forall x p, back x = Some p -> zdom w h p /\ (rk p < rk x)%nat.
  Lemma survey_ok D : forall fuel cc th len dep, (match cc with Some p => zdom w h p /\ (rk p < fuel)%nat | None => True end) ->
    exists r, survey w h down back D fuel cc th len dep = Some (Ok r).
  Proof.
    induction fuel as [|f IH]; intros [p|] th len dep H; cbn [survey]; try (eexists; reflexivity); [destruct H; lia|].
    destruct H as [H1 H2]. rewrite !(cat_ok w h _ _ H1). destruct (Z.geb_spec (D p) th); [|eexists; reflexivity].
    apply IH. destruct (back p) as [r|] eqn:B; auto. destruct (Hb p r B). split; auto. lia.
  Qed.
  Lemma constrain_ok within depth th : forall fuel cc cur D, (match cc with Some p => zdom w h p /\ (rk p < fuel)%nat | None => True end) ->
    exists D', constrain w h down back within depth th fuel cc cur D = Some (Ok D') /\ forall x, D' x = D x \/ exists p, cc = Some p /\ chain back p x.
  Proof.
    induction fuel as [|f IH]; intros [p|] cur D H; cbn [constrain]; try (eexists; split; [reflexivity|auto]; fail); [destruct H; lia|].
    destruct H as [H1 H2]. rewrite !(cat_ok w h _ _ H1). destruct (Z.geb_spec (D p) th); [|eexists; split; [reflexivity|auto]].
    rewrite (put_ok w h) by auto. destruct (IH (back p) (down cur) (cset D p (if within then cur else D p - depth))) as [D' [E C]].
    - destruct (back p) as [r|] eqn:B; auto. destruct (Hb p r B). split; auto. lia.
    - exists D'. split; [exact E|]. intros x. destruct (C x) as [X|[r [X Y]]]; [|right; exists p; split; auto; apply (chain_up _ _ r); auto].
      destruct (cell_eq_dec x p) as [->|Ne]; [right; exists p; split; auto; constructor|rewrite cset_other in X by auto; auto].
  Qed.
End Walks.

Section Modes.
  Variables (w h nd mx lo maxlen maxdepth : Z) (e : cellt -> Z) (down : Z -> Z) (pit0 : cellt -> bool) (fill : bool) (m : lmode).
  Notation t := D8.
  Notation F := (F t w h nd mx e down).
  Notation BI := (BI t w h nd mx e down pit0 fill).
  Hypothesis Hd : forall z, down z <= z.

  Definition QM (ps : list cellt) (s : lst) : Prop := m <> CONSTRAINED ->
    (forall x, l_dem s x <= F x) /\
    (forall x, l_dem s x <> F x -> exists p, In p ps /\ pit0 p = true /\ chain (l_back s) p x /\ l_dem s x <= F p /\ ((forall z, down z = z) -> l_dem s x = F p)).

  Lemma QM_visit ps rk s c ni : BI ps rk s -> QM ps s -> In c ps -> l_vis s ni = false ->
    QM ps (mkL (l_dem s) (cset (l_vis s) ni true) (l_pit s) (cset (l_back s) ni (Some c)) ((l_dem s ni, ni) :: l_pq s) (l_tot s) (if fill then l_flood s ++ [ni] else l_flood s)).
  Proof.
    intros I Q PC V NC. destruct (Q NC) as [Q1 Q3].
    assert (NB : l_back s ni = None) by (destruct (l_back s ni) as [p|] eqn:B; auto; destruct (b_back _ _ _ _ _ _ _ _ _ _ _ _ I _ _ B) as [_ [_ [X _]]]; congruence).
    split; cbn [l_dem l_back]; auto.
    intros x N. destruct (Q3 x N) as [p [A [B [C D]]]]. exists p. split; auto. split; auto. split; auto. apply (chain_mono (l_back s)); auto. intros y r H. rewrite cset_other; auto. intros ->. congruence.
  Qed.
  Lemma QM_pop ps rk s c q : BI ps rk s -> QM ps s -> Permutation (l_pq s) (c :: q) -> pit0 (snd c) = false ->
    QM (snd c :: ps) (mkL (l_dem s) (l_vis s) (l_pit s) (l_back s) q (l_tot s) (l_flood s)).
  Proof.
    intros I Q PM NP NC. destruct (Q NC) as [Q1 Q3]. split; cbn [l_dem l_back]; auto. intros x N. destruct (Q3 x N) as [p [A B]]. exists p. split; [right; auto|auto].
  Qed.
  Lemma QM_breach ps rk s c q : BI ps rk s -> QM ps s -> Permutation (l_pq s) (c :: q) -> pit0 (snd c) = true ->
    exists dm, breach_mode m maxlen maxdepth lo w h down (snd c) (mkL (l_dem s) (l_vis s) (l_pit s) (l_back s) q (l_tot s) (l_flood s)) = Some (Ok dm) /\ (forall u, ~ In u (snd c :: ps) -> dm u = l_dem s u) /\
      QM (snd c :: ps) (mkL dm (l_vis s) (l_pit s) (l_back s) q (l_tot s - 1) (l_flood s)).
  Proof.
    intros I Q PM PC. assert (NI : ~ In (snd c) ps).
    { intros H. pose proof (b_nd _ _ _ _ _ _ _ _ _ _ _ _ I) as ND. apply (Permutation_NoDup (Permutation_app_head ps (Permutation_map snd PM))) in ND. cbn [map] in ND. apply NoDup_remove_2 in ND. apply ND, in_app_iff. auto. }
    assert (VC : l_vis s (snd c) = true). { apply (b_vis _ _ _ _ _ _ _ _ _ _ _ _ I), in_app_iff. right. apply in_map. apply (Permutation_in _ (Permutation_sym PM)). left. auto. }
    assert (DC : zdom w h (snd c)) by (apply (b_dom _ _ _ _ _ _ _ _ _ _ _ _ I _ VC)).
    pose proof (b_back _ _ _ _ _ _ _ _ _ _ _ _ I) as HB.
    assert (Hb : forall x p, l_back s x = Some p -> zdom w h p /\ (rk p < rk x)%nat).
    { intros x p H. destruct (HB x p H) as [B1 [_ [_ B4]]]. split; auto. apply (b_dom _ _ _ _ _ _ _ _ _ _ _ _ I). apply (b_ps _ _ _ _ _ _ _ _ _ _ _ _ _ I); auto. }
    assert (FU : (rk (snd c) < path_fuel w h)%nat) by (unfold path_fuel; pose proof (b_rk _ _ _ _ _ _ _ _ _ _ _ _ I _ VC); pose proof (b_len _ _ _ _ _ _ _ _ _ _ _ _ I); lia).
    assert (FC : l_dem s (snd c) = F (snd c)) by (apply (b_un _ _ _ _ _ _ _ _ _ _ _ _ I _ NI)).
    assert (CI : forall x, chain (l_back s) (snd c) x -> In x (snd c :: ps)).
    { intros x C. inversion C as [|r q' B C']; subst; [left; auto|right]. apply (chain_ps (l_back s) ps) with (r := r); auto; [intros y p H; apply (HB y p H)|apply (HB _ _ B)]. }
    destruct (carve_ok w h down (l_back s) rk Hb (path_fuel w h) (Some (snd c)) (l_dem s (snd c)) (l_dem s) (conj DC FU)) as [D' [EC CV]].
    assert (CARVE : (forall u, ~ In u (snd c :: ps) -> D' u = l_dem s u) /\ QM (snd c :: ps) (mkL D' (l_vis s) (l_pit s) (l_back s) q (l_tot s - 1) (l_flood s))).
    { pose proof (cv_off down (l_back s) Hd _ _ _ _ CV) as OFF. split; [|intros NC; destruct (Q NC) as [Q1 Q3]; split]; cbn [l_dem l_back].
      - intros u Hu. destruct (OFF u) as [E|[p [E1 [E2 _]]]]; auto. injection E1 as <-. exfalso. auto.
      - intros x. pose proof (cv_le down (l_back s) _ _ _ _ CV x). specialize (Q1 x). lia.
      - intros x N. destruct (OFF x) as [E|[p [E1 [E2 [E3 E4]]]]].
        + rewrite E in *. destruct (Q3 x N) as [p [A B]]. exists p. split; [right; auto|auto].
        + injection E1 as <-. exists (snd c). split; [left; auto|]. split; auto. split; auto. rewrite <- FC. auto. }
    assert (SAME : QM (snd c :: ps) (mkL (l_dem s) (l_vis s) (l_pit s) (l_back s) q (l_tot s - 1) (l_flood s))).
    { intros NC. destruct (Q NC) as [Q1 Q3]. split; cbn [l_dem l_back]; auto. intros x N. destruct (Q3 x N) as [p [A B]]. exists p. split; [right; auto|auto]. }
    unfold breach_mode, breach_complete. cbn [l_dem l_back]. rewrite (cat_ok w h _ _ DC). destruct (survey_ok w h down (l_back s) rk Hb (l_dem s) (path_fuel w h) (Some (snd c)) (l_dem s (snd c)) 0 lo (conj DC FU)) as [[len dep] ES]. rewrite ES.
    destruct m eqn:EM; [exists D'; auto|destruct ((len <=? maxlen) && (dep <=? maxdepth)); eauto|].
    destruct ((len <=? maxlen) && (dep <=? maxdepth)); [exists D'; auto|].
    destruct (constrain_ok w h down (l_back s) rk Hb (dep <=? maxdepth) dep (l_dem s (snd c)) (path_fuel w h) (Some (snd c)) (l_dem s (snd c)) (l_dem s) (conj DC FU)) as [D2 [E2 C2]].
    exists D2. split; [exact E2|]. split; [|intros X; destruct X; exact EM].
    intros u Hu. destruct (C2 u) as [E|[p [E1 E3]]]; auto. injection E1 as <-. exfalso. auto.
  Qed.
End Modes.

Section Flood.
  Variables (w h : Z) (up : Z -> Z) (s0 : lst).
  Hypothesis Hup : forall z, z <= up z.
  Hypothesis HF1 : NoDup (l_flood s0).
  Hypothesis HF2 : forall x, In x (l_flood s0) <-> l_back s0 x <> None.
  Hypothesis HF3 : forall l1 x l2 p, l_flood s0 = l1 ++ x :: l2 -> l_back s0 x = Some p -> l_back s0 p = None \/ In p l1.
  Hypothesis HF4 : forall x p, l_back s0 x = Some p -> zdom w h p /\ zdom w h x.

  Lemma flood_ok : exists s, forM (l_flood s0) (flood_cell w h up) s0 = Ok s /\ (forall x, l_back s0 x = None -> l_dem s x = l_dem s0 x) /\ (forall x, l_dem s0 x <= l_dem s x) /\
    (forall x p, l_back s0 x = Some p -> l_dem s p <= l_dem s x /\ ((forall z, z < up z) -> l_dem s p < l_dem s x)).
  Proof.
    assert (G : forall l2 l1 s, l_flood s0 = l1 ++ l2 -> l_back s = l_back s0 -> (forall x, ~ In x l1 -> l_dem s x = l_dem s0 x) -> (forall x, l_dem s0 x <= l_dem s x) ->
      (forall x p, In x l1 -> l_back s0 x = Some p -> l_dem s p <= l_dem s x /\ ((forall z, z < up z) -> l_dem s p < l_dem s x)) ->
      exists s', forM l2 (flood_cell w h up) s = Ok s' /\ (forall x, l_back s0 x = None -> l_dem s' x = l_dem s0 x) /\ (forall x, l_dem s0 x <= l_dem s' x) /\
      (forall x p, l_back s0 x = Some p -> l_dem s' p <= l_dem s' x /\ ((forall z, z < up z) -> l_dem s' p < l_dem s' x))).
    { induction l2 as [|f l2 IH]; intros l1 s EF EB H1 H2 H3; cbn [forM].
      - exists s. split; [reflexivity|]. rewrite app_nil_r in EF. split; [|split; [auto|]].
        + intros x B. apply H1. rewrite <- EF, HF2. congruence.
        + intros x p B. apply H3; auto. rewrite <- EF, HF2. congruence.
      - assert (FI : In f (l_flood s0)) by (rewrite EF; apply in_app_iff; right; left; auto). pose proof FI as FB. rewrite HF2 in FB. destruct (l_back s0 f) as [p|] eqn:B; [|congruence]. clear FB.
        destruct (HF4 _ _ B) as [Dp Df]. assert (NF : ~ In f l1). { intros H. rewrite EF in HF1. apply NoDup_remove_2 in HF1. apply HF1, in_app_iff. auto. }
        assert (PP := HF3 _ _ _ _ EF B). assert (PF : p <> f) by (intros ->; destruct PP as [X|X]; [congruence|contradiction]).
        assert (EF' : l_flood s0 = (l1 ++ [f]) ++ l2) by (rewrite <- app_assoc; exact EF).
        assert (ND : forall x q, In x l1 -> l_back s0 x = Some q -> q <> f).
        { intros x q Hx Bx ->. apply in_split in Hx. destruct Hx as [a [b ->]]. rewrite <- app_assoc in EF. cbn [app] in EF. destruct (HF3 _ _ _ _ EF Bx) as [X|X]; [congruence|]. apply NF, in_app_iff. auto. }
        unfold flood_cell at 1. rewrite EB, (cat_ok w h _ _ Df). cbn [bind]. rewrite B. rewrite !(cat_ok w h) by auto. cbn [bind]. destruct (Z.leb_spec (l_dem s f) (l_dem s p)) as [Le|Gt].
        + rewrite (put_ok w h) by auto. cbn [bind]. apply (IH (l1 ++ [f])); cbn [l_dem l_back]; auto.
          * intros x Hx. rewrite in_app_iff in Hx. cbn [In] in Hx. rewrite cset_other by (intros ->; tauto). apply H1. tauto.
          * intros x. destruct (cell_eq_dec x f) as [->|Ne]; [rewrite cset_same; specialize (H2 f); specialize (Hup (l_dem s p)); lia|rewrite cset_other by auto; auto].
          * intros x q Hx Bx. apply in_app_iff in Hx. destruct Hx as [Hx|[<-|[]]].
            -- rewrite !cset_other; [apply H3; auto|intros ->; contradiction|apply (ND x q); auto].
            -- rewrite B in Bx. injection Bx as <-. rewrite cset_same, cset_other by auto. split; [apply Hup|auto].
        + apply (IH (l1 ++ [f])); auto.
          * intros x Hx. apply H1. intros X. apply Hx, in_app_iff. auto.
          * intros x q Hx Bx. apply in_app_iff in Hx. destruct Hx as [Hx|[<-|[]]]; [apply H3; auto|]. rewrite B in Bx. injection Bx as <-. split; [lia|auto]. }
    apply (G (l_flood s0) [] s0); auto; [intros x; lia|intros x p []].
  Qed.
End Flood.

Section ModeTop.
  Variables (w h nd mx lo maxlen maxdepth : Z) (eg : grid Z) (down : Z -> Z) (m : lmode).
  Notation e := (fun c : cellt => eg (fst c) (snd c)).
  Notation bdom := (bdom w h nd e).
  Notation bout := (bout D8 w h nd e).
  Notation inner := (inner D8 w h nd e).
  Notation F := (F D8 w h nd mx e down).
  Hypothesis Hmx : forall x y, is_data w h nd eg x y -> eg x y <= mx.
  Hypothesis Hdown : forall z, down z <= z.
  Hypothesis Hge : forall z' z, z' < z -> z' <= down z.
  Hypothesis Hnd : (forall z, down z = z) \/ (forall x y, is_data w h nd eg x y -> nd < eg x y).
  Notation Hmx' := (Hmx' w h nd mx eg Hmx).
  Notation Hnd' := (Hnd' w h nd eg down Hnd).

  Lemma run_mode tb fill s0 : PI D8 w h nd mx e down (scan w h) s0 ->
    exists s ps rk, b_loop D8 w h nd fill (breach_mode m maxlen maxdepth lo w h down) tb (Z.to_nat w * Z.to_nat h) 0 s0 = Some (Ok s) /\
      BI D8 w h nd mx e down (l_pit s0) fill ps rk s /\ QM w h nd mx e down (l_pit s0) m ps s /\ (forall c, l_pit s0 c = true -> In c ps) /\ (l_tot s = 0 \/ forall c, bdom c -> In c ps).
  Proof.
    intros P0. destruct (start_BI D8 w h nd mx e down fill s0 Hmx' Hnd' P0) as [I0 C0].
    destruct (loop_ok D8 w h nd mx e down (l_pit s0) fill (start_pit D8 w h nd mx e down s0 P0) (F_data D8 w h nd mx e down Hmx' Hge Hnd')
      (fun c H => eq_trans (F_not_inner D8 w h nd mx e down Hmx' Hnd' c (fun X => proj2 (proj1 X) H)) H)
      (QM w h nd mx e down (l_pit s0) m) (QM_visit w h nd mx e down (l_pit s0) fill m) (breach_mode m maxlen maxdepth lo w h down) (QM_breach w h nd mx lo maxlen maxdepth e down (l_pit s0) fill m Hdown) (QM_pop w h nd mx e down (l_pit s0) fill m)
      tb (Z.to_nat w * Z.to_nat h)%nat O [] (fun _ => O) s0 I0 C0) as [ps [rk [s [E [I [Q [PITS T]]]]]]].
    - intros _. split; [|intros x N; destruct (N (b_un _ _ _ _ _ _ _ _ _ _ _ _ I0 x (fun X => X)))]. intros x. rewrite (b_un _ _ _ _ _ _ _ _ _ _ _ _ I0 x (fun X => X)). lia.
    - cbn [length]. lia.
    - exists s, ps, rk. auto.
  Qed.

  (** a cell without lower neighbour in the input is taken for a pit *)
  Lemma sink_pit s0 c : PI D8 w h nd mx e down (scan w h) s0 -> inner c -> (forall n, nbt D8 c n -> e c <= e n) -> l_pit s0 c = true.
  Proof.
    intros P0 I H. assert (SC : In c (scan w h)) by (apply in_scan; apply I). destruct (l_pit s0 c) eqn:E; auto. exfalso.
    destruct (raisedb D8 w h nd mx e c) eqn:R; [rewrite (p_raised _ _ _ _ _ _ _ _ _ P0 c SC R) in E; discriminate|].
    destruct (p_nopit _ _ _ _ _ _ _ _ _ P0 c SC I E) as [n [N C]]. specialize (H n N). assert (FC : F c = e c) by (unfold BreachProofs.F; rewrite R; reflexivity).
    pose proof (F_ge D8 w h nd mx e down Hge n) as G. cbn beta in *. destruct C as [C|[C [Rn _]]]; [lia|].
    apply raised_iff with (down := down) in Rn; [|exact Hmx'|exact Hnd']. destruct Rn as [_ Rn]. specialize (Rn c (nbt_sym _ _ _ N)). cbn beta in Rn. lia.
  Qed.

  Lemma run_flood up fill s0 s ps rk : (forall z, z <= up z) -> PI D8 w h nd mx e down (scan w h) s0 -> BI D8 w h nd mx e down (l_pit s0) fill ps rk s -> fill = true ->
    exists s', forM (l_flood s) (flood_cell w h up) s = Ok s' /\ (forall x, ~ bdom x -> l_dem s' x = l_dem s x) /\ (forall x, l_dem s x <= l_dem s' x) /\
      (forall x, l_vis s x = true -> runs_off D8 w h nd eg (fun x y => l_dem s' (x, y)) (fst x) (snd x)) /\
      ((forall z, z < up z) -> forall x, l_vis s x = true -> runs_down D8 w h nd eg (fun x y => l_dem s' (x, y)) (fst x) (snd x)).
  Proof.
    intros Hup P0 I FT. destruct (b_fl _ _ _ _ _ _ _ _ _ _ _ _ I FT) as [F1 [F2 F3]]. pose proof (b_back _ _ _ _ _ _ _ _ _ _ _ _ I) as HB. pose proof (b_dom _ _ _ _ _ _ _ _ _ _ _ _ I) as HD.
    destruct (flood_ok w h up s Hup F1 F2 F3) as [s' [E [G1 [G2 G3]]]].
    { intros x p B. destruct (HB x p B) as [B1 [B2 [B3 B4]]]. split; [apply HD, (b_ps _ _ _ _ _ _ _ _ _ _ _ _ _ I); auto|apply HD; auto]. }
    exists s'. split; [exact E|]. split; [|split; [auto|split]].
    - intros x N. apply G1. destruct (l_back s x) as [p|] eqn:B; auto. destruct (HB x p B) as [_ [_ [V _]]]. destruct (N (HD x V)).
    - assert (G : forall n x, (rk x < n)%nat -> l_vis s x = true -> runs_off D8 w h nd eg (fun x y => l_dem s' (x, y)) (fst x) (snd x)).
      { induction n as [|n IH]; intros x Hn V; [lia|]. destruct (l_back s x) as [p|] eqn:B.
        - destruct (HB x p B) as [B1 [B2 [B3 B4]]]. apply (ro_step _ _ _ _ _ _ _ _ (fst p) (snd p)); auto; [apply HD; auto|rewrite <- !surjective_pairing; apply G3; auto|]. apply IH; [lia|apply (b_ps _ _ _ _ _ _ _ _ _ _ _ _ _ I); auto].
        - apply ro_out. apply outlet_iff. rewrite <- surjective_pairing. split; [auto|apply (b_root _ _ _ _ _ _ _ _ _ _ _ _ I); auto]. }
      intros x V. apply (G (S (rk x))); auto.
    - intros ST. assert (G : forall n x, (rk x < n)%nat -> l_vis s x = true -> runs_down D8 w h nd eg (fun x y => l_dem s' (x, y)) (fst x) (snd x)).
      { induction n as [|n IH]; intros x Hn V; [lia|]. destruct (l_back s x) as [p|] eqn:B.
        - destruct (HB x p B) as [B1 [B2 [B3 B4]]]. apply (rd_step _ _ _ _ _ _ _ _ (fst p) (snd p)); auto; [apply HD; auto|rewrite <- !surjective_pairing; apply (proj2 (G3 x p B)); auto|]. apply IH; [lia|apply (b_ps _ _ _ _ _ _ _ _ _ _ _ _ _ I); auto].
        - apply rd_out. apply outlet_iff. rewrite <- surjective_pairing. split; [auto|apply (b_root _ _ _ _ _ _ _ _ _ _ _ _ I); auto]. }
      intros x V. apply (G (S (rk x))); auto.
  Qed.
End ModeTop.
