(** Depression breaching: complete breaching, the whole run. *)
From Coq Require Import ZArith List Lia Bool Permutation.
From Verif Require Import Base Res RasterSpec RasterFacts Kahn FlowModel FlowProofs TraceFlood ZhouModel ZhouProofs WeiModel WeiProofs BreachModel BreachSpec BreachProofs BreachLoop BreachComplete.
Open Scope Z_scope.

Section Top.
  Variables (t : topology) (w h nd mx : Z) (eg : grid Z) (down : Z -> Z).
  Notation e := (fun c : cellt => eg (fst c) (snd c)).
  Notation inside := (zdom w h).
  Notation nbt := (nbt t).
  Notation bdom := (bdom w h nd e).
  Notation bout := (bout t w h nd e).
  Notation inner := (inner t w h nd e).
  Notation F := (F t w h nd mx e down).
  Notation esc := (esc nbt bdom bout).
  Definition Fg : grid Z := fun x y => F (x, y).

  Lemma data_iff x y : is_data w h nd eg x y <-> bdom (x, y).
  Proof. reflexivity. Qed.
  Lemma outlet_iff x y : is_outlet t w h nd eg x y <-> bdom (x, y) /\ bout (x, y).
  Proof.
    unfold is_outlet, BreachProofs.bout. rewrite data_iff. split.
    - intros [D H]. split; [exact D|]. destruct H as [O|[x' [y' [A [B C]]]]]; [left; split; [apply D|unfold on_edge in O; cbn [fst snd]; lia]|right; exists (x', y'); split; [exact A|split; [exact B|exact C]]].
    - intros [D H]. split; [exact D|]. destruct H as [O|[[x' y'] [A [B C]]]]; [left; split; [apply D|apply O]|right; exists x', y'; split; [exact A|split; [exact B|exact C]]].
  Qed.
  Lemma leaves_iff (G : grid Z) L x y : leaves_at t w h nd eg G L x y <-> esc (fun c => G (fst c) (snd c)) L (x, y).
  Proof.
    split.
    - induction 1 as [x y O Le|x y x' y' D Le A _ IH].
      + apply outlet_iff in O. apply esc_out; [apply O|apply O|exact Le].
      + apply (esc_step _ _ _ _ _ _ (x', y')); auto.
    - intros E. change (leaves_at t w h nd eg G L (fst (x, y)) (snd (x, y))). revert E. generalize (x, y). clear x y. intros c E. induction E as [c D O Le|c c' D Le A _ IH].
      + apply la_out; auto. apply outlet_iff. destruct c; auto.
      + apply (la_step _ _ _ _ _ _ _ _ _ (fst c') (snd c')); auto.
  Qed.
  Lemma inner_iff x y : is_data w h nd eg x y /\ ~ is_outlet t w h nd eg x y <-> inner (x, y).
  Proof. rewrite outlet_iff, data_iff. unfold BreachProofs.inner. tauto. Qed.

  Hypothesis Hmx : forall x y, is_data w h nd eg x y -> eg x y <= mx.
  Hypothesis Hdown : forall z, down z <= z.
  Hypothesis Hge : forall z' z, z' < z -> z' <= down z.
  Hypothesis Hid : (forall z, down z = z) \/ (forall z, down z < z).
  Hypothesis Hnd : (forall z, down z = z) \/ (forall x y, is_data w h nd eg x y -> nd < eg x y).
  Lemma Hmx' c : bdom c -> e c <= mx. Proof. destruct c as [x y]. apply Hmx. Qed.
  Lemma Hnd' : (forall z, down z = z) \/ (forall c, bdom c -> nd < e c). Proof. destruct Hnd; auto. Qed.

  Lemma raised_spec : pits_raised down t w h nd eg Fg.
  Proof.
    intros x y IR. assert (PC : pit_cell t w h nd eg x y <-> raisedb t w h nd mx e (x, y) = true).
    { rewrite (raised_iff t w h nd mx e down Hmx' Hnd' (x, y)). unfold pit_cell. rewrite <- inner_iff. split.
      - intros [A [B C]]. split; [auto|]. intros [x' y'] N. apply C. exact N.
      - intros [[A B] C]. split; [auto|]. split; [auto|]. intros x' y' N. apply (C (x', y')). exact N. }
    rewrite PC. unfold Fg. split.
    - intros R. destruct (F_raised t w h nd mx e down Hge (x, y) R) as [E _]. apply raised_iff with (down := down) in R; [|exact Hmx'|exact Hnd']. destruct R as [I _].
      destruct (minnb_spec t w h nd mx e Hmx' (x, y) I) as [M1 [[x1 y1] [M2 M3]]]. exists x1, y1. split; [exact M2|]. split; [|rewrite E, M3; reflexivity].
      intros x2 y2 N. cbn [fst snd] in M3. rewrite <- M3. apply (M1 (x2, y2) N).
    - intros R. unfold BreachProofs.F. destruct (raisedb t w h nd mx e (x, y)) eqn:X; [destruct R; reflexivity|reflexivity].
  Qed.
  (** raising the pits does not go above the level at which the cell drains *)
  Lemma F_level L c : esc e L c -> F c <= L.
  Proof.
    intros E. destruct (raisedb t w h nd mx e c) eqn:R.
    - pose proof R as R'. apply raised_iff with (down := down) in R'; [|exact Hmx'|exact Hnd']. destruct R' as [I _]. inversion E as [c0 D O Le|c0 c' D Le A E']; subst; [destruct I; contradiction|].
      pose proof (F_raised_le t w h nd mx e down Hmx' Hdown Hge Hnd' c c' R A). pose proof (esc_here _ _ _ _ _ _ E') as H9; cbn beta in *; lia.
    - unfold BreachProofs.F. rewrite R. inversion E; auto.
  Qed.

  Section Path.
    Variables (pit0 : cellt -> bool) (fill : bool) (ps : list cellt) (rk : cellt -> nat) (s : lst).
    Hypothesis I : BI t w h nd mx e down pit0 fill ps rk s.
    Lemma chain_trans p x q : chain (l_back s) p x -> chain (l_back s) x q -> chain (l_back s) p q.
    Proof. intros C. revert q. induction C as [|p r x B C IH]; intros q C2; auto. apply (chain_up _ _ r); auto. Qed.
    Lemma joined_chain L p x : bdom p -> (forall q, chain (l_back s) p q -> F q <= L) -> chain (l_back s) p x -> joined_at w h nd t eg Fg L (fst p) (snd p) (fst x) (snd x).
    Proof.
      intros D H C. revert D H. induction C as [p|p r x B C IH]; intros D H.
      - apply ja_here; [exact D|]. unfold Fg. rewrite <- surjective_pairing. apply H. constructor.
      - destruct (b_back _ _ _ _ _ _ _ _ _ _ _ _ I _ _ B) as [B1 [B2 [B3 B4]]].
        apply (ja_step _ _ _ _ _ _ _ _ _ (fst r) (snd r)); [exact D| |exact B2|].
        + unfold Fg. rewrite <- surjective_pairing. apply H. constructor.
        + apply IH; [apply (b_dom _ _ _ _ _ _ _ _ _ _ _ _ I), (b_ps _ _ _ _ _ _ _ _ _ _ _ _ _ I); auto|]. intros q Hq. apply H. apply (chain_up _ _ r); auto.
    Qed.
    Lemma leaves_chain L : forall n x, (rk x < n)%nat -> l_vis s x = true -> (forall q, chain (l_back s) x q -> F q <= L) -> esc F L x.
    Proof.
      induction n as [|n IH]; intros x Hn V H; [lia|]. pose proof (b_dom _ _ _ _ _ _ _ _ _ _ _ _ I x V) as D. destruct (l_back s x) as [r|] eqn:B.
      - destruct (b_back _ _ _ _ _ _ _ _ _ _ _ _ I _ _ B) as [B1 [B2 [B3 B4]]]. apply (esc_step _ _ _ _ _ _ r); auto; [apply H; constructor|]. apply IH; [lia|apply (b_ps _ _ _ _ _ _ _ _ _ _ _ _ _ I); auto|]. intros q Hq. apply H. apply (chain_up _ _ r); auto.
      - apply esc_out; auto; [apply (b_root _ _ _ _ _ _ _ _ _ _ _ _ I); auto|apply H; constructor].
    Qed.
    Lemma path_low L p : l_vis s p = true -> esc F L p -> forall q, chain (l_back s) p q -> F q <= L.
    Proof.
      intros V E q C. inversion C as [|r q' B C']; subst; [inversion E; auto|]. apply (b_chain _ _ _ _ _ _ _ _ _ _ _ _ I p r q L B C' E).
    Qed.
  End Path.

  (** a cell changed from [F] lies on the least-cost path of a pit and stands at its level *)
  Definition on_path (D : cellt -> Z) : Prop :=
    forall x y, D (x, y) <> Fg x y -> exists px py, no_lower t w h nd eg Fg px py /\ D (x, y) <= Fg px py /\ ((forall z, down z = z) -> D (x, y) = Fg px py) /\
       forall L, leaves_at t w h nd eg Fg L px py -> joined_at w h nd t eg Fg L px py x y /\ leaves_at t w h nd eg Fg L x y.
  Lemma on_path_ok fill ps rk s0 s : PI t w h nd mx e down (scan w h) s0 -> BI t w h nd mx e down (l_pit s0) fill ps rk s ->
    (forall x, l_dem s x <> F x -> exists p, In p ps /\ l_pit s0 p = true /\ chain (l_back s) p x /\ l_dem s x <= F p /\ ((forall z, down z = z) -> l_dem s x = F p)) -> on_path (l_dem s).
  Proof.
    intros P0 I Q3.
    intros x y N. destruct (Q3 (x, y) N) as [p [A1 [A2 [A3 [A4 A5]]]]]. exists (fst p), (snd p). destruct (p_pit _ _ _ _ _ _ _ _ _ P0 p A2) as [_ [Ip Lp]].
        assert (V : l_vis s p = true) by (apply (b_ps _ _ _ _ _ _ _ _ _ _ _ _ _ I); auto).
        assert (Fp : Fg (fst p) (snd p) = F p) by (unfold Fg; rewrite <- surjective_pairing; reflexivity). rewrite Fp.
        split; [|split; [exact A4|split; [exact A5|]]].
        * pose proof Ip as Ip'. destruct p as [a b]. apply inner_iff in Ip'. destruct Ip' as [J1 J2]. split; [exact J1|]. split; [exact J2|]. intros x' y' Nb. apply (Lp (x', y') Nb).
        * intros L EL. apply leaves_iff in EL. rewrite <- surjective_pairing in EL.
          assert (ELF : esc F L p). { clear - EL. unfold Fg in EL. induction EL as [c D O Le|c c' D Le A _ IH]; [apply esc_out|apply (esc_step _ _ _ _ _ _ c')]; auto; rewrite <- surjective_pairing in Le; auto. }
          pose proof (path_low _ _ _ _ _ I L p V ELF) as LOW. split.
          -- apply (joined_chain _ _ _ _ _ I L p (x, y)); auto. apply Ip.
          -- apply leaves_iff. assert (EX : esc F L (x, y)).
             { apply (leaves_chain _ _ _ _ _ I L (S (rk (x, y)))); auto.
               - inversion A3 as [|r q' B C']; subst; auto. apply (b_ps _ _ _ _ _ _ _ _ _ _ _ _ _ I). apply (chain_ps (l_back s) ps) with (r := r); auto; [intros a b Hab; apply (b_back _ _ _ _ _ _ _ _ _ _ _ _ I a b Hab)|apply (b_back _ _ _ _ _ _ _ _ _ _ _ _ I _ _ B)].
               - intros q Hq. apply LOW. apply (chain_trans s p (x, y)); auto. }
             clear - EX. unfold Fg. induction EX as [c D O Le|c c' D Le A _ IH]; [apply esc_out|apply (esc_step _ _ _ _ _ _ c')]; auto; rewrite <- surjective_pairing; auto.
  Qed.

  Definition breached (D : cellt -> Z) : Prop :=
    (forall x y, in_raster w h x y -> eg x y = nd -> D (x, y) = nd) /\
    (forall x y, D (x, y) <= Fg x y) /\
    (forall x y, is_data w h nd eg x y -> runs_off t w h nd eg (fun x y => D (x, y)) x y) /\
    ((forall z, down z < z) -> forall x y, is_data w h nd eg x y -> runs_down t w h nd eg (fun x y => D (x, y)) x y) /\
    on_path D.

  Lemma run_complete tb fill s0 : PI t w h nd mx e down (scan w h) s0 ->
    exists s, b_loop t w h nd fill (breach_complete w h down) tb (Z.to_nat w * Z.to_nat h) 0 s0 = Some (Ok s) /\ breached (l_dem s).
  Proof.
    intros P0. destruct (start_BI t w h nd mx e down fill s0 Hmx' Hnd' P0) as [I0 C0].
    destruct (loop_ok t w h nd mx e down (l_pit s0) fill (start_pit t w h nd mx e down s0 P0) (F_data t w h nd mx e down Hmx' Hge Hnd')
      (fun c H => eq_trans (F_not_inner t w h nd mx e down Hmx' Hnd' c (fun X => proj2 (proj1 X) H)) H)
      (QC t w h nd mx e down (l_pit s0)) (QC_visit t w h nd mx e down (l_pit s0) fill) (breach_complete w h down) (QC_breach t w h nd mx e down (l_pit s0) fill Hdown Hid) (QC_pop t w h nd mx e down (l_pit s0) fill)
      tb (Z.to_nat w * Z.to_nat h)%nat O [] (fun _ => O) s0 I0 C0) as [ps [rk [s [E [I [[Q1 [Q2 Q3]] [PITS _]]]]]]].
    - split; [|split].
      + intros x. rewrite (b_un _ _ _ _ _ _ _ _ _ _ _ _ I0 x (fun X => X)). lia.
      + intros x [].
      + intros x N. destruct (N (b_un _ _ _ _ _ _ _ _ _ _ _ _ I0 x (fun X => X))).
    - cbn [length]. lia.
    - exists s. split; [exact E|].
      assert (HS : forall x, bdom x -> l_dem s x < F x \/ l_pit s0 x = true -> Sx down (l_back s) (l_dem s) x /\ (l_back s x = None -> bout x)).
      { intros x D H. assert (IN : In x ps). { destruct H as [H|H]; [|auto]. destruct (in_dec (fun a b => match ceqb_spec a b with ReflectT _ p => left p | ReflectF _ p => right p end) x ps) as [Y|Y]; auto. rewrite (b_un _ _ _ _ _ _ _ _ _ _ _ _ I x Y) in H. lia. }
        split; [auto|]. apply (b_root _ _ _ _ _ _ _ _ _ _ _ _ I). apply (b_ps _ _ _ _ _ _ _ _ _ _ _ _ _ I); auto. }
      assert (HB : forall x p, l_back s x = Some p -> bdom p /\ nbt x p /\ (rk p < rk x)%nat /\ (l_back s p = None -> bout p)).
      { intros x p B. destruct (b_back _ _ _ _ _ _ _ _ _ _ _ _ I _ _ B) as [B1 [B2 [B3 B4]]]. assert (V : l_vis s p = true) by (apply (b_ps _ _ _ _ _ _ _ _ _ _ _ _ _ I); auto).
        split; [apply (b_dom _ _ _ _ _ _ _ _ _ _ _ _ I); auto|]. split; auto. split; auto. apply (b_root _ _ _ _ _ _ _ _ _ _ _ _ I); auto. }
      split; [|split; [|split; [|split]]].
      + intros x y IR N. rewrite (b_un _ _ _ _ _ _ _ _ _ _ _ _ I (x, y)).
        * rewrite (F_not_inner t w h nd mx e down Hmx' Hnd' (x, y)); [exact N|]. intros [[_ X] _]. apply X. exact N.
        * intros X. apply (b_ps _ _ _ _ _ _ _ _ _ _ _ _ _ I), (b_dom _ _ _ _ _ _ _ _ _ _ _ _ I) in X. apply X. exact N.
      + intros x y. apply Q1.
      + intros x y D. apply (all_drain t w h nd mx e down s0 Hnd' P0 (l_dem s) (l_back s) rk (fun c => runs_off t w h nd eg (fun x y => l_dem s (x, y)) (fst c) (snd c))) with (x := (x, y)); auto.
        * intros [a b] Dc Oc. apply ro_out. apply outlet_iff. auto.
        * intros [a b] [a' b'] D1 N1 Le _ R. apply (ro_step _ _ _ _ _ _ _ _ a' b'); auto.
      + intros ST x y D. apply (all_drain t w h nd mx e down s0 Hnd' P0 (l_dem s) (l_back s) rk (fun c => runs_down t w h nd eg (fun x y => l_dem s (x, y)) (fst c) (snd c))) with (x := (x, y)); auto.
        * intros [a b] Dc Oc. apply rd_out. apply outlet_iff. auto.
        * intros [a b] [a' b'] D1 N1 _ Le R. apply (rd_step _ _ _ _ _ _ _ _ a' b'); auto.
      + apply (on_path_ok fill ps rk s0); auto.
  Qed.
End Top.
