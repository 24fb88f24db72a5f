(** The invariant shared by the depression filling algorithms that trace slopes with a plain queue (Zhou2016, Wei2018).
    Cells are flagged once; [P] are the cells whose neighbours still have to be looked at. A flagged cell that is not
    pending may have unflagged neighbours, if from each of them a pending cell that is not higher can be reached over
    unflagged cells that are not higher either. *)
From Coq Require Import ZArith List Lia Bool.
From Verif Require Import Base Kahn FlowModel FlowProofs.
Open Scope Z_scope.

Lemma cset_same {A} (f : cellt -> A) x a : cset f x a x = a.
Proof. apply (kupd_same ceqb ceqb_spec). Qed.
Lemma cset_other {A} (f : cellt -> A) x a y : y <> x -> cset f x a y = f y.
Proof. apply (kupd_other ceqb ceqb_spec). Qed.

Section Engine.
  Variables (nb : cellt -> cellt -> Prop) (dom out : cellt -> Prop) (e0 : cellt -> Z).
  Hypothesis nb_sym : forall a b, nb a b -> nb b a.

  (** from the cell one gets to an outlet without rising above [L] *)
  Inductive esc (L : Z) : cellt -> Prop :=
  | esc_out x : dom x -> out x -> e0 x <= L -> esc L x
  | esc_step x y : dom x -> e0 x <= L -> nb x y -> esc L y -> esc L x.
  Definition lev (x : cellt) (L : Z) : Prop := esc L x /\ forall L', esc L' x -> L <= L'.

  Lemma esc_le L L' x : esc L x -> L <= L' -> esc L' x.
  Proof. induction 1; intros; [apply esc_out; auto; lia|eapply esc_step; eauto; lia]. Qed.
  Lemma esc_here L x : esc L x -> e0 x <= L.
  Proof. destruct 1; auto. Qed.
  Lemma lev_unique x L L' : lev x L -> lev x L' -> L = L'.
  Proof. intros [A B] [C D]. specialize (B _ C). specialize (D _ A). lia. Qed.

  Section Ways.
    Variables (F : cellt -> bool) (cur : cellt -> Z) (P : cellt -> Prop).
    Inductive way (z : Z) : cellt -> Prop :=
    | way_end u v : F u = false -> dom u -> cur u <= z -> nb u v -> P v -> cur v <= z -> way z u
    | way_step u u' : F u = false -> dom u -> cur u <= z -> nb u u' -> way z u' -> way z u.
    Lemma way_le z z' u : way z u -> z <= z' -> way z' u.
    Proof. induction 1; intros; [eapply way_end; eauto; lia|eapply way_step; eauto; lia]. Qed.
    Lemma way_here z u : way z u -> F u = false /\ dom u /\ cur u <= z.
    Proof. destruct 1; auto. Qed.
  End Ways.

  Lemma way_mono F cur (P P' : cellt -> Prop) z u : (forall v, P v -> cur v <= z -> P' v) -> way F cur P z u -> way F cur P' z u.
  Proof. intros S H. induction H; [eapply way_end; eauto|eapply way_step; eauto]. Qed.
  Lemma way_low F cur (P : cellt -> Prop) c0 z u : (forall v, P v -> c0 <= cur v) -> way F cur P z u -> c0 <= z.
  Proof. intros S H. induction H; auto. specialize (S v H3). lia. Qed.

  Record K (c0 : Z) (F : cellt -> bool) (cur : cellt -> Z) (P : cellt -> Prop) : Prop := {
    k_out : forall v, dom v -> out v -> F v = true;
    k_dom : forall v, F v = true -> dom v;
    k_cur : forall v, F v = false -> cur v = e0 v;
    k_lev : forall v, F v = true -> lev v (cur v);
    k_pend : forall v, P v -> F v = true /\ c0 <= cur v;
    k_front : forall v u, F v = true -> nb v u -> dom u -> F u = false -> P v \/ way F cur P (cur v) u }.

  Lemma K_low c0 F cur P : K c0 F cur P -> forall L x, esc L x -> F x = false -> c0 <= L.
  Proof.
    intros HK L x H. induction H as [x D O Le|x y D Le N E IH]; intros Fx; [rewrite (k_out _ _ _ _ HK x D O) in Fx; discriminate Fx|].
    destruct (F y) eqn:Fy; [|auto]. destruct (k_lev _ _ _ _ HK y Fy) as [_ M]. specialize (M _ E).
    destruct (k_front _ _ _ _ HK y x Fy (nb_sym _ _ N) D Fx) as [Py|Wy].
    - destruct (k_pend _ _ _ _ HK y Py). lia.
    - assert (c0 <= cur y); [|lia]. eapply way_low; [|exact Wy]. intros v Pv. apply (k_pend _ _ _ _ HK v Pv).
  Qed.

  (** Pending cells may be added and the lower bound changed. *)
  Lemma K_more c0 c1 F cur P (P' : cellt -> Prop) : K c0 F cur P -> (forall v, P v -> P' v) -> (forall v, P' v -> F v = true /\ c1 <= cur v) -> K c1 F cur P'.
  Proof.
    intros [A B C D E G] S T. constructor; auto. intros v u X Y Z0 W. destruct (G v u X Y Z0 W) as [?|?]; [left; auto|right].
    eapply way_mono; [|eassumption]. auto.
  Qed.

  Lemma way_flag F cur (P P' : cellt -> Prop) c0 x l z u : (forall v, P v -> F v = true /\ c0 <= cur v) -> F x = false -> (forall v, P v -> P' v) -> P' x ->
    (l = c0 \/ l = cur x) -> way F cur P z u -> u <> x -> way (cset F x true) (cset cur x l) P' z u.
  Proof.
    intros HP Fx S Px Hl H. assert (Lz := way_low F cur P c0 z u (fun v Pv => proj2 (HP v Pv)) H).
    assert (SC : forall A (f : cellt -> A) a y, y <> x -> cset f x a y = f y) by (intros; apply cset_other; auto).
    assert (SX : forall A (f : cellt -> A) a, cset f x a x = a) by (intros; apply cset_same).
    induction H as [u v H1 H2 H3 H4 H5 H6|u u' H1 H2 H3 H4 H5 IH]; intros Ne.
    - eapply (way_end _ _ _ z u v); rewrite ?SC; auto. all: intros ->; destruct (HP x H5); congruence.
    - destruct (way_here _ _ _ _ _ H5) as [W1 [W2 W3]].
      assert (DE : u' = x \/ u' <> x) by (unfold cellt in *; destruct u' as [a b], x as [a' b']; destruct (Z.eq_dec a a'), (Z.eq_dec b b'); subst; auto; right; congruence).
      destruct DE as [->|Ne'].
      + eapply (way_end _ _ _ z u x); rewrite ?SX, ?SC; auto. destruct Hl; subst l; lia.
      + eapply (way_step _ _ _ z u u'); rewrite ?SC; auto.
  Qed.

  (** A cell [x] next to a flagged cell [v] is flagged and becomes pending: either it lies higher than [v], or it is raised
      to the level [c0] of [v]. *)
  Lemma K_flag c0 F cur P (P' : cellt -> Prop) v x l : K c0 F cur P -> F v = true -> nb v x -> dom x -> F x = false ->
    (cur v <= cur x /\ l = cur x \/ cur v <= c0 /\ cur x <= c0 /\ l = c0) ->
    (forall u, P' u <-> P u \/ u = x) -> K c0 (cset F x true) (cset cur x l) P'.
  Proof.
    intros HK Fv N D Fx Hl HP. pose proof HK as [A B C LV E G].
    assert (SC : forall T (f : cellt -> T) a y, y <> x -> cset f x a y = f y) by (intros; apply cset_other; auto).
    assert (SX : forall T (f : cellt -> T) a, cset f x a x = a) by (intros; apply cset_same).
    assert (DE : forall u : cellt, u = x \/ u <> x) by (intros u; unfold cellt in *; destruct u as [a b], x as [a' b']; destruct (Z.eq_dec a a'), (Z.eq_dec b b'); subst; auto; right; congruence).
    assert (CX := C x Fx).
    assert (LX : lev x l).
    { destruct (LV v Fv) as [Ev _]. split.
      - apply (esc_step _ x v); auto; [lia|]. apply (esc_le (cur v)); [exact Ev|lia].
      - intros L' EL. pose proof (esc_here _ _ EL). pose proof (K_low _ _ _ _ HK _ _ EL Fx). lia. }
    assert (CL : c0 <= l) by (destruct LX as [LX _]; exact (K_low _ _ _ _ HK _ _ LX Fx)).
    constructor.
    - intros u Du Ou. destruct (DE u) as [->|Ne]; [apply SX|rewrite SC by auto; auto].
    - intros u. destruct (DE u) as [->|Ne]; [auto|rewrite SC by auto; auto].
    - intros u. destruct (DE u) as [->|Ne]; [rewrite SX; discriminate|rewrite !SC by auto; auto].
    - intros u. destruct (DE u) as [->|Ne]; [rewrite !SX; auto|rewrite !SC by auto; auto].
    - intros u Pu. destruct (DE u) as [->|Ne]; [rewrite !SX; auto|rewrite !SC by auto]. apply HP in Pu. destruct Pu; [auto|contradiction].
    - intros a b. destruct (DE b) as [->|Nb]; [rewrite SX; discriminate|]. rewrite (SC _ F true b) by auto. destruct (DE a) as [->|Na]; [left; apply HP; auto|].
      rewrite !SC by auto. intros Fa Nab Db Fb. destruct (G a b Fa Nab Db Fb) as [Pa|W]; [left; apply HP; auto|right].
      eapply (way_flag F cur P P' c0); eauto; [intros; apply HP; auto|apply HP; auto|]. lia.
  Qed.

  (** A pending cell is done. *)
  Lemma K_done c0 F cur P (P' : cellt -> Prop) v : K c0 F cur P -> (forall u, P u -> u = v \/ P' u) -> (forall u, P' u -> P u) ->
    (forall u, nb v u -> dom u -> F u = false -> way F cur P' (cur v) u) -> K c0 F cur P'.
  Proof.
    intros [A B C D E G] S T O. constructor; auto.
    assert (WW : forall z u, way F cur P z u -> way F cur P' z u).
    { intros z u H. induction H as [u x H1 H2 H3 H4 H5 H6|u u' H1 H2 H3 H4 H5 IH].
      - destruct (S x H5) as [->|Px]; [|eapply way_end; eauto]. apply (way_le _ _ _ (cur v)); [|exact H6]. apply O; auto.
      - eapply way_step; eauto. }
    intros a b Fa N Db Fb. destruct (G a b Fa N Db Fb) as [Pa|W]; [|right; auto].
    destruct (S a Pa) as [->|Pa']; [right; apply O; auto|left; auto].
  Qed.

  Lemma K_end c0 F cur P : K c0 F cur P -> (forall v, ~ P v) -> forall x, dom x -> (exists L, esc L x) -> F x = true.
  Proof.
    intros HK NP x _ [L H]. induction H as [x D O Le|x y D Le N E IH]; [exact (k_out _ _ _ _ HK x D O)|].
    destruct (F x) eqn:Fx; auto. exfalso. destruct (k_front _ _ _ _ HK y x IH (nb_sym _ _ N) D Fx) as [Py|W]; [exact (NP _ Py)|].
    clear -W NP. induction W; auto. exact (NP v H3).
  Qed.
End Engine.

Lemma way_ext nb dom F F' cur cur' (P P' : cellt -> Prop) z u : (forall v, F v = F' v) -> (forall v, cur v = cur' v) -> (forall v, P v -> P' v) ->
  way nb dom F cur P z u -> way nb dom F' cur' P' z u.
Proof.
  intros A B C H. induction H as [u v H1 H2 H3 H4 H5 H6|u u' H1 H2 H3 H4 H5 IH].
  - apply (way_end _ _ _ _ _ z u v); rewrite <- ?A, <- ?B; auto.
  - apply (way_step _ _ _ _ _ z u u'); rewrite <- ?A, <- ?B; auto.
Qed.
Lemma K_ext nb dom out e0 c0 F F' cur cur' (P P' : cellt -> Prop) : (forall v, F v = F' v) -> (forall v, cur v = cur' v) -> (forall v, P v <-> P' v) ->
  K nb dom out e0 c0 F cur P -> K nb dom out e0 c0 F' cur' P'.
Proof.
  intros A B C [H1 H2 H3 H4 H5 H6]. constructor.
  - intros v X Y. rewrite <- A. auto.
  - intros v X. rewrite <- A in X. auto.
  - intros v X. rewrite <- A in X. rewrite <- B. auto.
  - intros v X. rewrite <- A in X. rewrite <- B. auto.
  - intros v X. rewrite <- A, <- B. apply H5, C, X.
  - intros v u X Y Z0 W. rewrite <- A in X, W. destruct (H6 v u X Y Z0 W) as [Q|Q]; [left; apply C, Q|right]. rewrite <- B.
    eapply way_ext; [exact A|exact B|intros q; apply C|exact Q].
Qed.
