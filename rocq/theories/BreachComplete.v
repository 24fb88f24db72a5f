(** Depression breaching: complete breaching. *)
From Coq Require Import ZArith List Lia Bool Permutation.
From Verif Require Import Base Res RasterSpec RasterFacts Kahn FlowModel FlowProofs TraceFlood ZhouModel ZhouProofs WeiModel WeiProofs BreachModel BreachProofs BreachLoop.
Open Scope Z_scope.

(** the path back from [x] to [q] runs over cells not below [L] *)
Inductive stays (back : cellt -> option cellt) (D : cellt -> Z) (L : Z) : cellt -> cellt -> Prop :=
| st_here x : L <= D x -> stays back D L x x
| st_up x r q : L <= D x -> back x = Some r -> stays back D L r q -> stays back D L x q.
(** the cell drains to the next one on its path *)
Definition fol (down : Z -> Z) (back : cellt -> option cellt) (D : cellt -> Z) (q : cellt) : Prop :=
  match back q with None => True | Some r => D r <= down (D q) end.
Definition Sx (down : Z -> Z) (back : cellt -> option cellt) (D : cellt -> Z) (x : cellt) : Prop :=
  forall q, stays back D (D x) x q -> fol down back D q.

Section Carve.
  Variables (w h : Z) (down : Z -> Z) (back : cellt -> option cellt) (rk : cellt -> nat).
  Hypothesis Hb : forall x p, back x = Some p -> zdom w h p /\ (rk p < rk x)%nat.
  Hypothesis Hd : forall z, down z <= z.
  Hypothesis Hid : (forall z, down z = z) \/ (forall z, down z < z).

  Inductive carved : option cellt -> Z -> (cellt -> Z) -> (cellt -> Z) -> Prop :=
  | cv_none th D : carved None th D D
  | cv_stop p th D : D p < th -> carved (Some p) th D D
  | cv_go p th D D' : th <= D p -> carved (back p) (down th) (cset D p th) D' -> carved (Some p) th D D'.

  Lemma carve_ok : forall fuel cc th D, (match cc with Some p => zdom w h p /\ (rk p < fuel)%nat | None => True end) ->
    exists D', carve w h down back fuel cc th D = Some (Ok D') /\ carved cc th D D'.
  Proof.
    induction fuel as [|f IH]; intros [p|] th D H; cbn [carve]; try (exists D; split; [reflexivity|constructor]); [destruct H; lia|].
    destruct H as [H1 H2]. rewrite !(cat_ok w h _ _ H1). destruct (Z.geb_spec (D p) th) as [G|G].
    - rewrite (put_ok w h) by auto. destruct (IH (back p) (down th) (cset D p th)) as [D' [E C]].
      + destruct (back p) as [r|] eqn:B; auto. destruct (Hb p r B). split; auto. lia.
      + exists D'. split; [exact E|]. apply cv_go; auto.
    - exists D. split; [reflexivity|]. apply cv_stop. lia.
  Qed.

  Lemma chain_rk p q : chain back p q -> (rk q <= rk p)%nat.
  Proof. induction 1 as [|p r q B C IH]; [lia|]. destruct (Hb _ _ B). lia. Qed.
  Lemma cv_le cc th D D' : carved cc th D D' -> forall x, D' x <= D x.
  Proof.
    induction 1 as [th D|p th D H|p th D D' H C IH]; intros x; try lia. specialize (IH x). destruct (cell_eq_dec x p) as [->|Ne]; [rewrite cset_same in IH; lia|rewrite cset_other in IH by auto; auto].
  Qed.
  Lemma cv_off cc th D D' : carved cc th D D' -> forall x, D' x = D x \/ (exists p, cc = Some p /\ chain back p x /\ D' x <= th /\ ((forall z, down z = z) -> D' x = th)).
  Proof.
    induction 1 as [th D|p th D H|p th D D' H C IH]; intros x; auto. destruct (IH x) as [E|[r [E1 [E2 [E3 E4]]]]].
    - destruct (cell_eq_dec x p) as [->|Ne]; [|rewrite cset_other in E by auto; auto]. rewrite cset_same in E. right. exists p. split; [auto|]. split; [constructor|]. split; [lia|auto].
    - right. exists p. split; [auto|]. split; [apply (chain_up _ _ r); auto|]. split; [pose proof (Hd th); lia|]. intros X. rewrite (E4 X). apply X.
  Qed.
  Lemma cv_head p th D D' : carved (Some p) th D D' -> D' p <= th /\ (th <= D p -> D' p = th).
  Proof.
    intros C. inversion C as [|q th0 D0 H|q th0 D0 D1 H C1]; subst; [split; lia|].
    destruct (cv_off _ _ _ _ C1 p) as [E|[r [E1 [E2 _]]]].
    - rewrite cset_same in E. split; [lia|auto].
    - apply chain_rk in E2. destruct (Hb _ _ E1). lia.
  Qed.
  Lemma cv_fol cc th D D' : carved cc th D D' -> forall x, fol down back D x -> fol down back D' x.
  Proof.
    induction 1 as [th D|p th D H|p th D D' H C IH]; intros x Fx; auto. destruct (cell_eq_dec x p) as [->|Ne].
    - unfold fol. destruct (back p) as [r|] eqn:B; auto. pose proof (cv_head r _ _ _ C) as [A _].
      assert (D' p = th). { destruct (cv_off _ _ _ _ C p) as [E|[r' [E1 [E2 _]]]]; [rewrite cset_same in E; auto|]. injection E1 as <-. apply chain_rk in E2. destruct (Hb _ _ B). lia. }
      rewrite H0. exact A.
    - apply IH. unfold fol in *. destruct (back x) as [r|]; auto. rewrite (cset_other _ p _ x) by auto. destruct (cell_eq_dec r p) as [->|N2]; [rewrite cset_same; lia|rewrite cset_other; auto].
  Qed.
  Lemma cv_stays cc th D D' : carved cc th D D' -> forall p q, cc = Some p -> stays back D' th p q -> fol down back D' q.
  Proof.
    induction 1 as [th D|p th D H|p th D D' H C IH]; intros p0 q E St; [discriminate|injection E as <-; inversion St; subst; lia|injection E as <-].
    assert (FP : fol down back D' p).
    { unfold fol. destruct (back p) as [r|] eqn:B; auto. pose proof (cv_head r _ _ _ C) as [A _].
      assert (X : D' p = th). { destruct (cv_off _ _ _ _ C p) as [E|[r' [E1 [E2 _]]]]; [rewrite cset_same in E; auto|]. injection E1 as <-. apply chain_rk in E2. destruct (Hb _ _ B). lia. }
      rewrite X. exact A. }
    inversion St as [x L|x r q' L B St']; subst; auto. rewrite B in *. pose proof (cv_head r _ _ _ C) as [A _]. destruct Hid as [HI|HI].
    - apply (IH r q eq_refl). rewrite HI. exact St'.
    - inversion St'; subst; specialize (HI th); lia.
  Qed.
  Lemma cv_S cc th D D' : carved cc th D D' -> forall x, D' x <> D x -> Sx down back D' x.
  Proof.
    induction 1 as [th D|p th D H|p th D D' H C IH]; intros x N; try congruence.
    destruct (Z.eq_dec (D' x) (cset D p th x)) as [E|E]; [|apply IH; auto]. destruct (cell_eq_dec x p) as [->|Ne]; [|rewrite cset_other in E by auto; congruence].
    rewrite cset_same in E. intros q St. rewrite E in St. apply (cv_stays _ _ _ _ (cv_go p th D D' H C) p q eq_refl St).
  Qed.
  Lemma stays_anti D D' L x q : (forall y, D' y <= D y) -> stays back D' L x q -> stays back D L x q.
  Proof. intros H St. induction St as [x A|x r q A B C IH]; [apply st_here|apply (st_up _ _ _ _ r); auto]; specialize (H x); lia. Qed.
  Lemma cv_keepS cc th D D' : carved cc th D D' -> forall x, D' x = D x -> Sx down back D x -> Sx down back D' x.
  Proof. intros C x E S q St. apply (cv_fol _ _ _ _ C). apply S. rewrite E in St. apply (stays_anti D D'); auto. intros y. apply (cv_le _ _ _ _ C). Qed.
End Carve.

Section Complete.
  Variables (t : topology) (w h nd mx : Z) (e : cellt -> Z) (down : Z -> Z) (pit0 : cellt -> bool) (fill : bool).
  Notation inside := (zdom w h).
  Notation nbt := (nbt t).
  Notation bdom := (bdom w h nd e).
  Notation bout := (bout t w h nd e).
  Notation inner := (inner t w h nd e).
  Notation F := (F t w h nd mx e down).
  Notation BI := (BI t w h nd mx e down pit0 fill).
  Hypothesis Hd : forall z, down z <= z.
  Hypothesis Hid : (forall z, down z = z) \/ (forall z, down z < z).

  Definition QC (ps : list cellt) (s : lst) : Prop :=
    (forall x, l_dem s x <= F x) /\
    (forall x, In x ps -> l_dem s x < F x \/ pit0 x = true -> Sx down (l_back s) (l_dem s) x) /\
    (forall x, l_dem s x <> F x -> exists p, In p ps /\ pit0 p = true /\ chain (l_back s) p x /\ l_dem s x <= F p /\ ((forall z, down z = z) -> l_dem s x = F p)).

  Lemma stays_ps ps back back' D L x q : (forall y p, back y = Some p -> In p ps) -> (forall y, In y ps -> back' y = back y) -> In x ps -> stays back' D L x q -> stays back D L x q /\ In q ps.
  Proof.
    intros HP HE H St. induction St as [x A|x r q A B C IH]; [split; [apply st_here; auto|auto]|]. rewrite HE in B by auto. destruct (IH (HP _ _ B)) as [I1 I2]. split; auto. apply (st_up _ _ _ _ r); auto.
  Qed.
  Lemma chain_mono back back' p q : (forall y r, back y = Some r -> back' y = Some r) -> chain back p q -> chain back' p q.
  Proof. intros HE C. induction C as [|p r q B C IH]; [constructor|]. apply (chain_up _ _ r); auto. Qed.

  Lemma QC_visit ps rk s c ni : BI ps rk s -> QC ps s -> In c ps -> l_vis s ni = false ->
    QC ps (mkL (l_dem s) (cset (l_vis s) ni true) (l_pit s) (cset (l_back s) ni (Some c)) ((l_dem s ni, ni) :: l_pq s) (l_tot s) (if fill then l_flood s ++ [ni] else l_flood s)).
  Proof.
    intros I [Q1 [Q2 Q3]] PC V. assert (NP : ~ In ni ps) by (intros H; apply (b_ps _ _ _ _ _ _ _ _ _ _ _ _ _ I) in H; congruence).
    assert (HP : forall y p, l_back s y = Some p -> In p ps) by (intros y p H; apply (b_back _ _ _ _ _ _ _ _ _ _ _ _ I y p H)).
    assert (HE : forall y, In y ps -> cset (l_back s) ni (Some c) y = l_back s y) by (intros y Hy; apply cset_other; intros ->; contradiction).
    assert (NB : l_back s ni = None) by (destruct (l_back s ni) as [p|] eqn:B; auto; destruct (b_back _ _ _ _ _ _ _ _ _ _ _ _ I _ _ B) as [_ [_ [X _]]]; congruence).
    split; [|split]; cbn [l_dem l_back]; auto.
    - intros x Hx H q St. destruct (stays_ps ps (l_back s) _ _ _ _ _ HP HE Hx St) as [St' Hq]. pose proof (Q2 x Hx H q St') as X. unfold fol in *. rewrite HE by auto. exact X.
    - intros x N. destruct (Q3 x N) as [p [A [B [C D]]]]. exists p. split; auto. split; auto. split; auto. apply (chain_mono (l_back s)); auto. intros y r H. rewrite cset_other; auto. intros ->. congruence.
  Qed.
  Lemma QC_pop ps rk s c q : BI ps rk s -> QC ps s -> Permutation (l_pq s) (c :: q) -> pit0 (snd c) = false ->
    QC (snd c :: ps) (mkL (l_dem s) (l_vis s) (l_pit s) (l_back s) q (l_tot s) (l_flood s)).
  Proof.
    intros I [Q1 [Q2 Q3]] PM NP. assert (NI : ~ In (snd c) ps).
    { intros H. pose proof (b_nd _ _ _ _ _ _ _ _ _ _ _ _ I) as ND. apply (Permutation_NoDup (Permutation_app_head ps (Permutation_map snd PM))) in ND. cbn [map] in ND. apply NoDup_remove_2 in ND. apply ND, in_app_iff. auto. }
    split; [|split]; cbn [l_dem l_back]; auto.
    - intros x [<-|Hx] H; [|auto]. rewrite (b_un _ _ _ _ _ _ _ _ _ _ _ _ I _ NI) in H. destruct H; [lia|congruence].
    - intros x N. destruct (Q3 x N) as [p [A B]]. exists p. split; [right; auto|auto].
  Qed.
  Lemma QC_breach ps rk s c q : BI ps rk s -> QC ps s -> Permutation (l_pq s) (c :: q) -> pit0 (snd c) = true ->
    exists dm, breach_complete w h down (snd c) (mkL (l_dem s) (l_vis s) (l_pit s) (l_back s) q (l_tot s) (l_flood s)) = Some (Ok dm) /\ (forall u, ~ In u (snd c :: ps) -> dm u = l_dem s u) /\
      QC (snd c :: ps) (mkL dm (l_vis s) (l_pit s) (l_back s) q (l_tot s - 1) (l_flood s)).
  Proof.
    intros I [Q1 [Q2 Q3]] PM PC. assert (NI : ~ In (snd c) ps).
    { intros H. pose proof (b_nd _ _ _ _ _ _ _ _ _ _ _ _ I) as ND. apply (Permutation_NoDup (Permutation_app_head ps (Permutation_map snd PM))) in ND. cbn [map] in ND. apply NoDup_remove_2 in ND. apply ND, in_app_iff. auto. }
    assert (VC : l_vis s (snd c) = true). { apply (b_vis _ _ _ _ _ _ _ _ _ _ _ _ I), in_app_iff. right. apply in_map. apply (Permutation_in _ (Permutation_sym PM)). left. auto. }
    assert (DC : inside (snd c)) by (apply (b_dom _ _ _ _ _ _ _ _ _ _ _ _ I _ VC)).
    pose proof (b_back _ _ _ _ _ _ _ _ _ _ _ _ I) as HB.
    assert (Hb : forall x p, l_back s x = Some p -> inside p /\ (rk p < rk x)%nat).
    { intros x p H. destruct (HB x p H) as [B1 [_ [_ B4]]]. split; auto. apply (b_dom _ _ _ _ _ _ _ _ _ _ _ _ I). apply (b_ps _ _ _ _ _ _ _ _ _ _ _ _ _ I); auto. }
    unfold breach_complete. cbn [l_dem l_back]. rewrite (cat_ok w h _ _ DC).
    destruct (carve_ok w h down (l_back s) rk Hb (path_fuel w h) (Some (snd c)) (l_dem s (snd c)) (l_dem s)) as [D' [EC CV]].
    { split; auto. unfold path_fuel. pose proof (b_rk _ _ _ _ _ _ _ _ _ _ _ _ I _ VC). pose proof (b_len _ _ _ _ _ _ _ _ _ _ _ _ I). lia. }
    assert (FC : l_dem s (snd c) = F (snd c)) by (apply (b_un _ _ _ _ _ _ _ _ _ _ _ _ I _ NI)).
    exists D'. split; [exact EC|]. assert (CI : forall x, chain (l_back s) (snd c) x -> In x (snd c :: ps)).
    { intros x C. inversion C as [|r q' B C']; subst; [left; auto|right]. apply (chain_ps (l_back s) ps) with (r := r); auto; [intros y p H; apply (HB y p H)|apply (HB _ _ B)]. }
    pose proof (cv_off down (l_back s) Hd _ _ _ _ CV) as OFF. split; [|split; [|split]]; cbn [l_dem l_back].
    - intros u Hu. destruct (OFF u) as [E|[p [E1 [E2 _]]]]; auto. injection E1 as <-. exfalso. auto.
    - intros x. pose proof (cv_le down (l_back s) _ _ _ _ CV x). specialize (Q1 x). lia.
    - intros x Hx H. destruct (Z.eq_dec (D' x) (l_dem s x)) as [E|E].
      + destruct Hx as [<-|Hx].
        * intros u St. rewrite E in St. apply (cv_stays w h down (l_back s) rk Hb Hd Hid _ _ _ _ CV (snd c) u eq_refl St).
        * rewrite E in H. apply (cv_keepS w h down (l_back s) rk Hb Hd _ _ _ _ CV x E). apply Q2; auto.
      + apply (cv_S w h down (l_back s) rk Hb Hd Hid _ _ _ _ CV); auto.
    - intros x N. destruct (OFF x) as [E|[p [E1 [E2 [E3 E4]]]]].
      + rewrite E in *. destruct (Q3 x N) as [p [A B]]. exists p. split; [right; auto|auto].
      + injection E1 as <-. exists (snd c). split; [left; auto|]. split; auto. split; auto. rewrite <- FC. auto.
  Qed.
End Complete.

Section Start.
  Variables (t : topology) (w h nd mx : Z) (e : cellt -> Z) (down : Z -> Z) (fill : bool) (s0 : lst).
  Notation inside := (zdom w h).
  Notation nbt := (nbt t).
  Notation bdom := (bdom w h nd e).
  Notation bout := (bout t w h nd e).
  Notation inner := (inner t w h nd e).
  Notation F := (F t w h nd mx e down).
  Notation BI := (BI t w h nd mx e down (l_pit s0) fill).
  Hypothesis Hmx : forall c, bdom c -> e c <= mx.
  Hypothesis Hnd : (forall z, down z = z) \/ (forall c, bdom c -> nd < e c).
  Hypothesis P0 : PI t w h nd mx e down (scan w h) s0.

  Lemma in_scan c : inside c <-> In c (scan w h).
  Proof. destruct c as [x y]. symmetry. apply scan_In. Qed.

  Lemma start_BI : BI [] (fun _ => O) s0 /\ closed t w h nd e [] s0.
  Proof.
    destruct P0 as [A1 A2 A3 A4 A5 A6 A7 A8 A9 A10 A11 A12]. split; [|intros x y []]. constructor; cbn [app]; auto.
    - intros c. symmetry. apply A6.
    - intros c Hc. apply A3 in Hc. apply Hc.
    - intros c D O. apply A3. split; auto. apply in_scan. apply D.
    - intros c _. destruct (in_dec (fun a b => match ceqb_spec a b with ReflectT _ p => left p | ReflectF _ p => right p end) c (scan w h)) as [H|H]; auto.
      rewrite A2 by auto. symmetry. apply F_not_inner; auto. intros [[D _] _]. apply H, in_scan, D.
    - intros x p H. rewrite A11 in H. discriminate.
    - intros x V _. apply A3 in V. apply V.
    - intros m v L [].
    - intros x r q L H. rewrite A11 in H. discriminate.
    - cbn [filter length]. lia.
    - intros _. rewrite A12. split; [constructor|]. split; [intros x; rewrite A11; split; [intros []|congruence]|]. intros [|? ?] x l2 p E; discriminate E.
  Qed.
  Lemma start_pit c : l_pit s0 c = true -> inner c.
  Proof. intros H. apply (p_pit _ _ _ _ _ _ _ _ _ P0 c H). Qed.

  (** every cell drains, if the cells lowered and the pits follow their paths *)
  Section Drains.
    Variables (D : cellt -> Z) (back : cellt -> option cellt) (rk : cellt -> nat) (P : cellt -> Prop).
    Hypothesis HP_out : forall c, bdom c -> bout c -> P c.
    Hypothesis HP_step : forall x y, bdom x -> nbt x y -> D y <= D x -> ((forall z, down z < z) -> D y < D x) -> P y -> P x.
    Hypothesis Hd : forall z, down z <= z.
    Hypothesis HDF : forall x, D x <= F x.
    Hypothesis HS : forall x, bdom x -> D x < F x \/ l_pit s0 x = true -> Sx down back D x /\ (back x = None -> bout x).
    Hypothesis Hback : forall x p, back x = Some p -> bdom p /\ nbt x p /\ (rk p < rk x)%nat /\ (back p = None -> bout p).

    Lemma low_bound : exists B, forall c, bdom c -> B <= D c.
    Proof.
      assert (G : forall l : list cellt, exists B, forall c, In c l -> B <= D c).
      { induction l as [|a l [B HB]]; [exists 0; intros c []|]. exists (Z.min (D a) B). intros c [<-|Hc]; [lia|]. specialize (HB c Hc). lia. }
      destruct (G (scan w h)) as [B HB]. exists B. intros c [Dc _]. apply HB, in_scan, Dc.
    Qed.
    Lemma S_up x r : Sx down back D x -> back x = Some r -> D r = D x -> Sx down back D r.
    Proof. intros S B E q St. apply S. apply (st_up _ _ _ _ r); [lia|auto|]. rewrite <- E. exact St. Qed.
    Lemma follow_S : forall n x, (rk x < n)%nat -> bdom x -> Sx down back D x -> (back x = None -> bout x) -> (forall y, bdom y -> D y < D x -> P y) -> P x.
    Proof.
      induction n as [|n IH]; intros x Hn BD S R LOW; [lia|]. pose proof (S x (st_here _ _ _ x (Z.le_refl _))) as FX. unfold fol in FX. destruct (back x) as [r|] eqn:B; [|apply HP_out; auto].
      destruct (Hback _ _ B) as [B1 [B2 [B3 B4]]]. apply (HP_step x r); auto.
      - specialize (Hd (D x)). lia.
      - intros X. specialize (X (D x)). lia.
      - destruct (Z.eq_dec (D r) (D x)) as [E|E].
        + apply IH; auto; [lia|apply (S_up x); auto|]. rewrite E. exact LOW.
        + apply LOW; auto. specialize (Hd (D x)). lia.
    Qed.
    Lemma all_drain x : bdom x -> P x.
    Proof.
      destruct low_bound as [B HB].
      assert (G : forall n x, bdom x -> (Z.to_nat (D x - B) < n)%nat -> P x).
      { induction n as [|n IH]; intros y BD Hn; [lia|].
        assert (LOW : forall z, bdom z -> D z < D y -> P z). { intros z Bz Hz. apply IH; auto. pose proof (HB y BD). pose proof (HB z Bz). lia. }
        destruct (bout_dec t w h nd e down Hnd y BD) as [O|I]; [apply HP_out; auto|].
        destruct (Z_lt_dec (D y) (F y)) as [L|L].
        { destruct (HS y BD (or_introl L)) as [SS R]. apply (follow_S (S (rk y)) y); auto. }
        destruct (l_pit s0 y) eqn:PY.
        { destruct (HS y BD (or_intror PY)) as [SS R]. apply (follow_S (S (rk y)) y); auto. }
        assert (E : D y = F y) by (pose proof (HDF y); lia).
        destruct (p_nopit _ _ _ _ _ _ _ _ _ P0 y (proj1 (in_scan y) (proj1 BD)) I PY) as [m [N C]]. pose proof (inner_nbs t w h nd e y m I N) as Bm. pose proof (HDF m) as Fm. destruct C as [C|[C1 [C2 C3]]].
        - apply (HP_step y m); auto; [lia|lia|apply LOW; auto; lia].
        - apply (HP_step y m); auto; [lia|intros X; specialize (C3 X); lia|]. destruct (Z.eq_dec (D m) (D y)) as [E2|E2]; [|apply LOW; auto; lia].
          assert (PM : l_pit s0 m = true) by (apply (p_raised _ _ _ _ _ _ _ _ _ P0); auto; apply in_scan; apply Bm).
          destruct (HS m Bm (or_intror PM)) as [SS R]. apply (follow_S (S (rk m)) m); auto. rewrite E2. exact LOW. }
      intros BD. apply (G (S (Z.to_nat (D x - B)))); auto.
    Qed.
  End Drains.
End Start.
