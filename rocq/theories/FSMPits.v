(** MoveWaterIntoPits against FSMSpec. *)
From Coq Require Import ZArith List Lia Bool Permutation QArith Qcanon.
From Verif Require Import Base Res QcTac Kahn RasterSpec RasterFacts FlowModel FlowSpec FlowProofs FlatsSpec FlatsProofs
  DHModel DHSpec FSMModel FSMSpec.
Open Scope Z_scope.

Lemma qsum_app l l' : qsum (l ++ l') = (qsum l + qsum l')%Qc.
Proof. unfold qsum. induction l as [|a l IH]; cbn [app fold_right]; [ring|]. rewrite IH. ring. Qed.
Lemma qsum_perm l l' : Permutation l l' -> qsum l = qsum l'.
Proof. unfold qsum. induction 1; cbn [fold_right]; [auto|congruence|ring|congruence]. Qed.
Lemma asum_qsum l : asum Qcplus 0%Qc l = qsum l.
Proof. reflexivity. Qed.
Lemma qsum_nonneg l : (forall a, In a l -> 0 <= a)%Qc -> (0 <= qsum l)%Qc.
Proof.
  unfold qsum. induction l as [|a l IH]; intros H; cbn [fold_right]; [apply Qcle_refl|].
  assert (0 <= a)%Qc by (apply H; left; auto). assert (0 <= fold_right Qcplus 0 l)%Qc by (apply IH; intros; apply H; right; auto).
  qlra.
Qed.
Lemma qmm x : (qmin 0 x + qmax 0 x = x)%Qc.
Proof. qlra. Qed.
Lemma qmax_nonneg x : (0 <= qmax 0 x)%Qc.
Proof. qlra. Qed.

Lemma filter_length_perm {B C} (f : B -> bool) (g : C -> bool) (m : B -> C) l l' :
  NoDup l -> NoDup l' -> (forall a b, In a l -> In b l -> m a = m b -> a = b) ->
  (forall a, In a l -> f a = true -> In (m a) l' /\ g (m a) = true) ->
  (forall c, In c l' -> g c = true -> exists a, In a l /\ f a = true /\ m a = c) ->
  length (filter f l) = length (filter g l').
Proof.
  intros N N' Inj H1 H2. rewrite <- (map_length m (filter f l)). apply Permutation_length, NoDup_Permutation.
  - assert (G : forall k, NoDup k -> incl k l -> NoDup (map m k)).
    { induction k as [|a k IH]; intros Hk Hi; cbn [map]; [constructor|]. inversion Hk; subst. constructor.
      - intros Cx. apply in_map_iff in Cx. destruct Cx as [b [E Hb]]. assert (b = a) by (apply Inj; auto using in_eq, in_cons).
        congruence.
      - apply IH; auto. intros x Hx. apply Hi. right; auto. }
    apply G; [apply NoDup_filter; auto|]. intros x Hx. apply filter_In in Hx. tauto.
  - apply NoDup_filter; auto.
  - intros c. rewrite in_map_iff, filter_In. split.
    + intros [a [<- Ha]]. apply filter_In in Ha. apply H1; tauto.
    + intros [Hc Hg]. destruct (H2 c Hc Hg) as [a [Ha [Hf E]]]. exists a. split; [auto|]. apply filter_In. auto.
Qed.

Section Pits.
  Variables (fd lab : grid Z) (w h : Z) (wv0 : list Qc) (wtd0 : cellt -> Qc).
  Hypothesis dirs_good : directions_ok fd w h.
  Hypothesis labs_good : forall p, inside w h p -> 0 <= elev_at lab p < Z.of_nat (length wv0).

  Notation V := (cells w h).
  Definition tgt (c : cellt) : cellt :=
    (fst c + dx D8 (Z.to_nat (elev_at fd c)), snd c + dy D8 (Z.to_nat (elev_at fd c))).
  (** [d] flows to [c] *)
  Definition ptsb (c d : cellt) : bool := negb (elev_at fd d =? 0) && ceqb (tgt d) c.

  Lemma code_range p : inside w h p -> 0 <= elev_at fd p <= 8.
  Proof. intros H. destruct (dirs_good p H) as [E|[q [_ [_ T]]]]; [lia|]. apply toward_iff in T. lia. Qed.
  Lemma tgt_inside p : inside w h p -> elev_at fd p <> 0 -> inside w h (tgt p) /\ flows fd w h p (tgt p).
  Proof.
    intros H Hn. destruct (dirs_good p H) as [E|[q F]]; [congruence|]. pose proof F as [_ [Hq T]]. apply toward_iff in T.
    destruct T as [_ [T1 T2]]. assert (E : q = tgt p) by (destruct q; unfold tgt; cbn [fst snd] in *; congruence).
    subst q. auto.
  Qed.
  Lemma flows_iff p q : flows fd w h p q <-> inside w h p /\ elev_at fd p <> 0 /\ q = tgt p.
  Proof.
    split.
    - intros [H1 [H2 T]]. apply toward_iff in T. destruct T as [T0 [T1 T2]]. split; [auto|]. split; [lia|].
      destruct q; unfold tgt; cbn [fst snd] in *; congruence.
    - intros [H1 [H2 ->]]. apply tgt_inside; auto.
  Qed.
  Lemma ptsb_iff c d : inside w h d -> (ptsb c d = true <-> flows fd w h d c).
  Proof.
    intros Hd. unfold ptsb. rewrite andb_true_iff, negb_true_iff, Z.eqb_neq, flows_iff.
    destruct (ceqb_spec (tgt d) c); intuition congruence.
  Qed.

  (** *** counting donors *)
  Lemma d8_nbr_inj n m : In n (dirs D8) -> In m (dirs D8) -> dx D8 n = dx D8 m -> dy D8 n = dy D8 m -> n = m.
  Proof.
    cbn [dirs nmax seq]. intros Hn Hm.
    repeat (destruct Hn as [<-|Hn]; [repeat (destruct Hm as [<-|Hm]; [try reflexivity; cbn; intros; discriminate|]); destruct Hm|]).
    destruct Hn.
  Qed.
  Lemma d8_inv_facts n : In n (dirs D8) -> In (dinverse D8 n) (dirs D8) /\ dinverse D8 (dinverse D8 n) = n /\
    dx D8 (dinverse D8 n) = - dx D8 n /\ dy D8 (dinverse D8 n) = - dy D8 n.
  Proof.
    cbn [dirs nmax seq In]. intros H.
    repeat (destruct H as [<-|H]; [cbn; repeat split; auto 12|]). destruct H.
  Qed.
  Lemma dirs8_iff n : In n (dirs D8) <-> (1 <= n <= 8)%nat.
  Proof. unfold dirs, nmax. rewrite in_seq. lia. Qed.

  Definition donb (c : cellt) (n : nat) : bool :=
    inGrid w h (fst c + dx D8 n) (snd c + dy D8 n) && (fd (fst c + dx D8 n) (snd c + dy D8 n) =? Z.of_nat (dinverse D8 n)).

  Lemma donors_loop c : forall l k, (forall n, In n l -> In n (dirs D8)) ->
    forM l (fun n k => if negb (inGrid w h (fst c + dx D8 n) (snd c + dy D8 n)) then Ok k
            else do f <- gat w h fd (fst c + dx D8 n) (snd c + dy D8 n);
                 Ok (if f =? Z.of_nat (dinverse D8 n) then k + 1 else k)) k
    = Ok (k + Z.of_nat (length (filter (donb c) l))).
  Proof.
    induction l as [|n l IH]; intros k Hl; cbn [forM filter length]; [f_equal; lia|].
    unfold donb at 1. destruct (inGrid w h (fst c + dx D8 n) (snd c + dy D8 n)) eqn:E; cbn [negb andb].
    - unfold gat. rewrite E. cbn [bind]. destruct (fd _ _ =? _); cbn [bind length]; rewrite IH by (intros; apply Hl; right; auto);
        f_equal; lia.
    - cbn [bind]. apply IH. intros; apply Hl; right; auto.
  Qed.

  Lemma donors_of_ok c : inside w h c -> donors_of fd w h c = Ok (Z.of_nat (length (filter (ptsb c) V))).
  Proof.
    intros Hc. unfold donors_of. rewrite donors_loop by auto. rewrite Z.add_0_l. do 2 f_equal.
    apply (filter_length_perm _ _ (fun n => (fst c + dx D8 n, snd c + dy D8 n))).
    - apply seq_NoDup.
    - apply cells_NoDup.
    - intros a b Ha Hb E. inversion E. apply d8_nbr_inj; auto; lia.
    - intros n Hn H. unfold donb in H. apply andb_true_iff in H. destruct H as [G E]. apply Z.eqb_eq in E.
      set (d := (fst c + dx D8 n, snd c + dy D8 n)).
      assert (Hd : inside w h d) by (apply inside_grid; exact G). split; [apply cells_inside; exact Hd|].
      destruct (d8_inv_facts n Hn) as [I1 [I2 [I3 I4]]]. apply dirs8_iff in I1.
      unfold ptsb. change (elev_at fd d) with (fd (fst c + dx D8 n) (snd c + dy D8 n)). rewrite E.
      replace (Z.of_nat (dinverse D8 n) =? 0) with false by (symmetry; apply Z.eqb_neq; lia). cbn [negb andb].
      destruct (ceqb_spec (tgt d) c) as [|Hne]; [auto|exfalso; apply Hne].
      unfold tgt. change (elev_at fd d) with (fd (fst c + dx D8 n) (snd c + dy D8 n)). rewrite E, Nat2Z.id, I3, I4.
      destruct c as [x y]. unfold d. cbn [fst snd]. f_equal; lia.
    - intros d Hd H. apply cells_inside in Hd. apply ptsb_iff in H; [|auto]. pose proof H as [_ [_ T]]. apply toward_iff in T.
      destruct T as [Tr [Tx Ty]]. set (m := Z.to_nat (elev_at fd d)) in *.
      assert (Hm : In m (dirs D8)) by (apply dirs8_iff; unfold m; lia).
      destruct (d8_inv_facts m Hm) as [I1 [I2 [I3 I4]]].
      assert (E : (fst c + dx D8 (dinverse D8 m), snd c + dy D8 (dinverse D8 m)) = d).
      { rewrite I3, I4. destruct d as [dx0 dy0]. cbn [fst snd] in *. f_equal; lia. }
      exists (dinverse D8 m). split; [auto|]. split; [|exact E].
      unfold donb. rewrite I2. inversion E as [[E1 E2]].
      change (fst c + dx D8 (dinverse D8 m)) with (fst (fst c + dx D8 (dinverse D8 m), snd c + dy D8 (dinverse D8 m))) at 1 2.
      change (snd c + dy D8 (dinverse D8 m)) with (snd (fst c + dx D8 (dinverse D8 m), snd c + dy D8 (dinverse D8 m))) at 2 4.
      rewrite E. apply inside_grid in Hd. rewrite Hd. cbn [andb]. apply Z.eqb_eq. unfold m. change (fd (fst d) (snd d)) with (elev_at fd d). lia.
  Qed.

  Lemma mwp_deps_ok order : Permutation order V ->
    exists d, mwp_deps fd w h order = Ok d /\ forall c, inside w h c -> d c = Z.of_nat (length (filter (ptsb c) V)).
  Proof.
    intros Ho. unfold mwp_deps.
    assert (G : forall l d0, (forall c, In c l -> inside w h c) ->
      exists d, forM l (fun c d => do k <- donors_of fd w h c; Ok (cset d c k)) d0 = Ok d /\
        forall c, d c = if existsb (ceqb c) l then Z.of_nat (length (filter (ptsb c) V)) else d0 c).
    { induction l as [|a l IH]; intros d0 Hl; cbn [forM existsb]; [exists d0; auto|].
      rewrite donors_of_ok by (apply Hl; left; auto). cbn [bind].
      destruct (IH (cset d0 a (Z.of_nat (length (filter (ptsb a) V))))) as [d [E H]]; [intros; apply Hl; right; auto|].
      exists d. split; [exact E|]. intros c. rewrite H. unfold cset, kupd.
      destruct (ceqb_spec c a) as [->|]; cbn [orb]; [destruct (existsb _ _); auto|auto]. }
    destruct (G order (fun _ => 0)) as [d [E H]].
    { intros c Hc. apply cells_inside. eapply Permutation_in; eauto. }
    exists d. split; [exact E|]. intros c Hc. rewrite H.
    replace (existsb (ceqb c) order) with true; [auto|]. symmetry. apply existsb_exists. exists c.
    split; [|destruct (ceqb_spec c c); congruence]. eapply Permutation_in; [symmetry; exact Ho|]. apply cells_inside; auto.
  Qed.

  (** *** the network that the queue sees *)
  Definition k0 : nat := length (filter (ptsb corner) V).
  Definition delb (c : cellt) : bool := (elev_at fd c =? 0) || ceqb (tgt c) corner.
  Definition outp (c : cellt) : list (cellt * unit) :=
    (if delb c then [] else [(tgt c, tt)]) ++ (if ceqb c corner then repeat (corner, tt) k0 else []).
  Notation gp := (fun (_ : cellt) (x : Qc) (_ : unit) => qmax 0 x).
  Notation hp := (fun (_ : cellt) (x : Qc) => qmin 0 x).

  Lemma delb_iff c : inside w h c -> (delb c = true <-> delivers fd w h c).
  Proof.
    intros Hc. unfold delb, delivers. rewrite orb_true_iff, Z.eqb_eq, flows_iff.
    destruct (ceqb_spec (tgt c) corner) as [E|E].
    - destruct (Z.eq_dec (elev_at fd c) 0); intuition.
    - intuition congruence.
  Qed.
  Lemma corner_in c : inside w h c -> inside w h corner.
  Proof. unfold inside, in_raster, corner. cbn. lia. Qed.
  Lemma k0_fed : (0 < k0)%nat <-> corner_fed fd w h.
  Proof.
    unfold k0, corner_fed. split.
    - destruct (filter (ptsb corner) V) as [|d l] eqn:E; cbn; [lia|]. intros _. exists d.
      assert (Hd : In d (filter (ptsb corner) V)) by (rewrite E; left; auto). apply filter_In in Hd. destruct Hd as [H1 H2].
      apply cells_inside in H1. apply ptsb_iff in H2; auto.
    - intros [p Hp]. assert (In p (filter (ptsb corner) V)).
      { apply filter_In. pose proof Hp as [H1 _]. split; [apply cells_inside; auto|apply ptsb_iff; auto]. }
      destruct (filter _ _); [destruct H|cbn; lia].
  Qed.

  Lemma edge_outp c m : inside w h c ->
    (edge outp c m <-> passes_to fd w h c m \/ (c = corner /\ m = corner /\ corner_fed fd w h)).
  Proof.
    intros Hc. unfold edge, outp. split.
    - intros [u H]. apply in_app_iff in H. destruct H as [H|H].
      + destruct (delb c) eqn:D; [destruct H|]. destruct H as [E|[]]. inversion E; subst m. left.
        unfold delb in D. apply orb_false_iff in D. destruct D as [D1 D2]. apply Z.eqb_neq in D1.
        split; [apply flows_iff; auto|]. destruct (ceqb_spec (tgt c) corner); congruence.
      + destruct (ceqb_spec c corner) as [->|]; [|destruct H]. right. split; [auto|]. apply repeat_spec in H as HE.
        inversion HE. split; [auto|]. apply k0_fed. destruct k0; [destruct H|lia].
    - intros [[F Hn]|[-> [-> F]]].
      + exists tt. apply in_app_iff. left. apply flows_iff in F. destruct F as [_ [F1 F2]]. subst m.
        unfold delb. destruct (Z.eqb_spec (elev_at fd c) 0); [congruence|]. destruct (ceqb_spec (tgt c) corner); [congruence|].
        cbn. auto.
      + exists tt. apply in_app_iff. right. destruct (ceqb_spec corner corner); [|congruence].
        apply k0_fed in F. destruct k0; [lia|]. cbn. auto.
  Qed.
  Lemma outp_V d m : In d V -> edge outp d m -> In m V.
  Proof.
    rewrite !cells_inside. intros Hd He. apply edge_outp in He; [|auto]. destruct He as [[[_ [H _]] _]|[_ [-> _]]]; [auto|].
    eapply corner_in; eauto.
  Qed.

  Lemma cnt_outp c d : inside w h d -> cnt ceqb c (outp d) =
    (if ceqb c corner then (if ceqb d corner then k0 else 0) else if ptsb c d then 1 else 0)%nat.
  Proof.
    intros Hd. unfold cnt, outp. rewrite filter_app, app_length.
    assert (R : forall k, length (filter (fun e : cellt * unit => ceqb (fst e) c) (repeat (corner, tt) k)) = if ceqb c corner then k else 0%nat).
    { induction k as [|k IH]; cbn [repeat filter fst]; [destruct (ceqb c corner); reflexivity|].
      destruct (ceqb_spec corner c), (ceqb_spec c corner); cbn [length]; try congruence; lia. }
    destruct (ceqb_spec c corner) as [->|Hc].
    - assert (E1 : length (filter (fun e : cellt * unit => ceqb (fst e) corner) (if delb d then [] else [(tgt d, tt)])) = 0%nat).
      { unfold delb. destruct (elev_at fd d =? 0); cbn [orb]; [reflexivity|].
        destruct (ceqb (tgt d) corner) eqn:E; cbn [filter fst]; [reflexivity|]. rewrite E. reflexivity. }
      rewrite E1. destruct (ceqb d corner); [rewrite R; destruct (ceqb_spec corner corner); [lia|congruence]|reflexivity].
    - assert (E2 : length (filter (fun e : cellt * unit => ceqb (fst e) c) (if ceqb d corner then repeat (corner, tt) k0 else [])) = 0%nat).
      { destruct (ceqb d corner); [rewrite R; destruct (ceqb_spec c corner); congruence|reflexivity]. }
      rewrite E2, Nat.add_0_r. unfold delb, ptsb. destruct (elev_at fd d =? 0); cbn [orb negb andb filter length]; [reflexivity|].
      destruct (ceqb_spec (tgt d) corner) as [E|E]; cbn [filter fst].
      + destruct (ceqb_spec (tgt d) c); [congruence|reflexivity].
      + destruct (ceqb (tgt d) c); reflexivity.
  Qed.

  Lemma indeg_outp c : inside w h c -> indeg ceqb outp V c = length (filter (ptsb c) V).
  Proof.
    intros Hc. destruct (ceqb_spec c corner) as [->|Hn].
    - assert (G : forall l, NoDup l -> (forall d, In d l -> inside w h d) ->
        indeg ceqb outp l corner = if existsb (ceqb corner) l then k0 else 0%nat).
      { induction l as [|d l IH]; intros HN Hl; cbn [indeg existsb]; [reflexivity|]. inversion HN; subst.
        rewrite cnt_outp by (apply Hl; left; auto). rewrite IH by (auto; intros; apply Hl; right; auto).
        destruct (ceqb_spec corner corner); [|congruence].
        destruct (ceqb_spec d corner) as [Ed|Ed], (ceqb_spec corner d) as [Ec|Ec]; try congruence; cbn [orb].
        - destruct (existsb (ceqb corner) l) eqn:X; [|lia]. apply existsb_exists in X. destruct X as [y [Y1 Y2]].
          destruct (ceqb_spec corner y); [subst y; rewrite Ed in *; contradiction|discriminate].
        - reflexivity. }
      rewrite G by (auto using cells_NoDup; intros; apply cells_inside; auto).
      replace (existsb (ceqb corner) V) with true; [reflexivity|]. symmetry. apply existsb_exists. exists corner.
      split; [apply cells_inside; auto|destruct (ceqb_spec corner corner); congruence].
    - assert (G : forall l, (forall d, In d l -> inside w h d) -> indeg ceqb outp l c = length (filter (ptsb c) l)).
      { induction l as [|d l IH]; intros Hl; cbn [indeg filter]; [reflexivity|].
        rewrite cnt_outp by (apply Hl; left; auto). rewrite IH by (intros; apply Hl; right; auto).
        destruct (ceqb_spec c corner); [congruence|]. destruct (ptsb c d); reflexivity. }
      apply G. intros; apply cells_inside; auto.
  Qed.

  (** *** blocked cells *)
  Lemma goes_reach p q : inside w h p -> goes_through fd w h p q -> reach outp p q.
  Proof.
    intros Hp. induction 1 as [|p q r H IH P]; [constructor|]. eapply reach_step; [apply IH; auto|].
    apply edge_outp; [apply P|]. auto.
  Qed.
  Lemma goes_inside p q : goes_through fd w h p q -> inside w h p -> inside w h q.
  Proof. induction 1 as [|p q r H IH P]; intros Hp; [auto|]. destruct P as [[_ [P _]] _]. auto. Qed.
  Lemma goes_trans p q r : goes_through fd w h p q -> goes_through fd w h q r -> goes_through fd w h p r.
  Proof. intros H K. revert H. induction K as [|a b c K IH P]; intros H; [auto|]. eapply gt_step; [apply IH; exact H|exact P]. Qed.
  Lemma reach_goes p q : inside w h p -> reach outp p q ->
    goes_through fd w h p q \/ (corner_fed fd w h /\ goes_through fd w h corner q).
  Proof.
    intros Hp. induction 1 as [|p d m R IH E]; [left; constructor|].
    assert (Hd : inside w h d).
    { apply cells_inside. apply (reach_V outp V outp_V p d R). apply cells_inside; auto. }
    apply edge_outp in E; [|auto]. destruct E as [P|[-> [-> F]]].
    - destruct (IH Hp) as [H|[F H]]; [left|right; split; [auto|]]; eapply gt_step; eauto.
    - right. split; [auto|constructor].
  Qed.
  Lemma blocked_iff p : inside w h p -> (loop_upstream outp V p <-> blocked fd w h p).
  Proof.
    intros Hp. split.
    - intros [v [Hv [[d [Hr He]] Hm]]]. apply cells_inside in Hv.
      assert (Hd : inside w h d).
      { apply cells_inside. apply (reach_V outp V outp_V v d Hr). apply cells_inside; auto. }
      assert (CF : corner_fed fd w h -> goes_through fd w h corner p -> blocked fd w h p).
      { intros F G. exists corner. auto. }
      destruct (reach_goes v p Hv Hm) as [G|[F G]]; [|auto].
      apply edge_outp in He; [|auto]. destruct He as [P|[-> [-> F]]]; [|auto].
      destruct (reach_goes v d Hv Hr) as [G'|[F G']].
      + exists v. split; [exact G|]. left. exists d. auto.
      + apply CF; [auto|]. eapply goes_trans; [eapply gt_step; [exact G'|exact P]|exact G].
    - intros [q [G H]].
      assert (Hq : inside w h q).
      { destruct H as [[r [_ [[_ [H _]] _]]]|[-> _]]; [auto|eapply corner_in; eauto]. }
      exists q. split; [apply cells_inside; auto|]. split; [|apply goes_reach; auto].
      destruct H as [[r [H P]]|[-> F]].
      + exists r. split; [apply goes_reach; auto|]. apply edge_outp; [apply P|auto].
      + exists corner. split; [constructor|]. apply edge_outp; auto.
  Qed.

  (** *** the queue *)
  Notation pb := (kbody ceqb Qcplus outp gp hp).
  Notation inv := (kinv ceqb Qcplus 0%Qc outp gp hp V wtd0).

  Definition share (X : cellt -> Qc) (P : list cellt) (l : Z) : Qc :=
    qsum (map (fun d => qmax 0 (X d)) (filter (fun d => delb d && (elev_at lab d =? l)) P)).
  Definition wvinv (P : list cellt) (X : cellt -> Qc) (wv : list Qc) : Prop :=
    length wv = length wv0 /\ forall l a, ix wv0 l = Some a -> ix wv l = Some (a + share X P l)%Qc.

  Lemma queue_not_stuck P X t c q : inv P X t -> k_q t = c :: q -> inside w h c /\ ~ In c P /\ (c = corner -> k0 = 0%nat).
  Proof.
    intros K E. pose proof (kstep ceqb Qcplus 0%Qc outp gp hp ceqb_spec Qcplus_comm Qcplus_assoc Qcplus_0_r V outp_V wtd0 P X t c q K E) as K'.
    pose proof (ki_ord _ _ _ _ _ _ _ _ _ _ _ K') as HO.
    assert (HcV : In c V) by (apply (ordered_incl outp V _ HO); left; auto).
    pose proof (ordered_nodup outp V _ HO) as HN. inversion HN; subst.
    split; [apply cells_inside; auto|]. split; [auto|]. intros ->.
    destruct (Nat.eq_dec k0 0) as [|Hk]; [auto|exfalso].
    apply (ordered_acyclic outp V outp_V _ HO corner); [left; auto|]. exists corner. split; [constructor|].
    apply edge_outp; [apply cells_inside; auto|]. right. split; [auto|]. split; [auto|]. apply k0_fed. lia.
  Qed.

  Lemma flat0 x y : inGrid w h x y = true -> (y * w + x =? NO_FLOW) = ceqb (x, y) corner.
  Proof.
    intros H. apply in_raster_iff in H. destruct H as [Hx Hy]. unfold NO_FLOW, ceqb, corner. cbn [fst snd].
    destruct (Z.eqb_spec x 0), (Z.eqb_spec y 0); cbn [andb]; apply Z.eqb_eq || apply Z.eqb_neq; nia.
  Qed.

  Lemma mwp_step_ok P X s t c q : keq (m_k s) t -> inv P X t -> wvinv P X (m_wv s) -> k_q t = c :: q ->
    exists s', mwp_step lab fd w h c (mkM (mkK (k_dep (m_k s)) (k_val (m_k s)) q) (m_wv s)) = Ok s' /\
      keq (m_k s') (pb c (mkK (k_dep t) (k_val t) q)) /\
      wvinv (c :: P) (kupd ceqb X c (k_val t c)) (m_wv s').
  Proof.
    intros [K1 [K2 K3]] K [W1 W2] E. destruct (queue_not_stuck P X t c q K E) as [Hc [HcP Hk]].
    pose proof (code_range c Hc) as Hr.
    assert (Hout : outp c = if delb c then [] else [(tgt c, tt)]).
    { unfold outp. destruct (ceqb_spec c corner) as [->|]; [rewrite Hk by auto; cbn; rewrite app_nil_r; auto|apply app_nil_r]. }
    assert (Hsh : forall l, share (kupd ceqb X c (k_val t c)) (c :: P) l =
              ((if delb c && (elev_at lab c =? l)%Z then qmax 0 (k_val t c) else 0) + share X P l)%Qc).
    { intros l. unfold share. cbn [filter].
      assert (EP : map (fun d => qmax 0 (kupd ceqb X c (k_val t c) d)) (filter (fun d => delb d && (elev_at lab d =? l)) P)
                 = map (fun d => qmax 0 (X d)) (filter (fun d => delb d && (elev_at lab d =? l)) P)).
      { apply map_ext_in. intros d Hd. apply filter_In in Hd. unfold kupd. destruct (ceqb_spec d c) as [->|]; [tauto|auto]. }
      destruct (delb c && (elev_at lab c =? l)); cbn [map]; rewrite EP.
      - unfold qsum. cbn [fold_right]. f_equal. unfold kupd. destruct (ceqb_spec c c); congruence.
      - ring. }
    unfold mwp_step. cbn [m_k m_wv k_val k_dep k_q]. rewrite gat_in by exact Hc. cbn [bind]. change (fd (fst c) (snd c)) with (elev_at fd c).
    unfold kbody. cbn [k_val k_dep k_q]. rewrite Hout.
    assert (Case : (do ni <- (if negb (elev_at fd c =? NO_FLOW) then
              do o <- off8 (elev_at fd c); do i <- flat w h (fst c + fst o) (snd c + snd o); Ok (i, (fst c + fst o, snd c + snd o))
            else Ok (NO_FLOW, c)); Ok ni) = Ok (if elev_at fd c =? 0 then (NO_FLOW, c) else (snd (tgt c) * w + fst (tgt c), tgt c))).
    { unfold NO_FLOW. destruct (Z.eqb_spec (elev_at fd c) 0); cbn [negb]; [reflexivity|].
      rewrite off8_ok by lia. cbn [bind fst snd]. unfold flat.
      destruct (tgt_inside c Hc n) as [Ht _]. apply inside_grid in Ht. unfold tgt in Ht. cbn [fst snd] in Ht. rewrite Ht. reflexivity. }
    destruct (if negb (elev_at fd c =? NO_FLOW) then _ else _) as [ni| |]; cbn [bind] in Case |- *; [|discriminate|discriminate].
    injection Case as Eni.
    assert (Hdel : (fst ni =? NO_FLOW) = delb c).
    { rewrite Eni. unfold delb. destruct (Z.eqb_spec (elev_at fd c) 0) as [E0|E0]; cbn [orb fst]; [reflexivity|].
      destruct (tgt_inside c Hc E0) as [Ht _]. apply inside_grid in Ht. rewrite flat0 by exact Ht. reflexivity. }
    destruct ni as [i n]. cbn [fst] in Hdel. cbv beta iota zeta. rewrite <- ?Eni.
    rewrite Hdel.
    assert (Hn : delb c = false -> n = tgt c /\ n <> c).
    { intros D. unfold delb in D. apply orb_false_iff in D. destruct D as [D1 D2]. rewrite D1 in Eni. inversion Eni.
      split; [auto|]. intros C. apply Z.eqb_neq in D1. destruct (tgt_inside c Hc D1) as [_ [_ [_ T]]]. rewrite C in T.
      apply toward_iff in T. destruct T as [Tr [T1 T2]].
      assert (CC : In (Z.to_nat (elev_at fd c)) (dirs D8)) by (apply dirs8_iff; lia).
      revert T1 T2 CC. generalize (Z.to_nat (elev_at fd c)). clear. intros n T1 T2 CC.
      assert (A : dx D8 n = 0) by lia. assert (B : dy D8 n = 0) by lia. revert A B. cbn [dirs nmax seq In] in CC.
      repeat (destruct CC as [<-|CC]; [cbn; lia|]). destruct CC. }
    destruct (delb c) eqn:D.
    - rewrite K2. destruct (qltP 0 (k_val t c)) as [L|L].
      + rewrite gat_in by exact Hc. cbn [bind]. change (lab (fst c) (snd c)) with (elev_at lab c).
        pose proof (labs_good c Hc) as Hl. rewrite <- W1 in Hl.
        destruct (rd_in _ _ Hl) as [a [Ea Ia]]. rewrite Ea. cbn [bind].
        destruct (wr_in (m_wv s) (elev_at lab c) (a + k_val t c)%Qc Hl) as [wv' [Ew [Lw Iw]]]. rewrite Ew. cbn [bind].
        eexists. split; [reflexivity|]. cbn [m_k m_wv fold_left]. split; [|split].
        * split; [exact K1|]. split; [|reflexivity]. cbn [k_val]. intros m. unfold cset, kupd. destruct (ceqb_spec m c); [|apply K2].
          qlra.
        * lia.
        * intros l b Hb. rewrite Iw, Hsh. cbn [andb]. rewrite (Z.eqb_sym (elev_at lab c) l).
          destruct (Z.eqb_spec l (elev_at lab c)) as [->|].
          -- rewrite (W2 _ _ Hb) in Ia. injection Ia as <-. f_equal. replace (qmax 0 (k_val t c)) with (k_val t c) by qlra. ring.
          -- rewrite (W2 _ _ Hb). f_equal. ring.
      + eexists. split; [reflexivity|]. cbn [m_k m_wv fold_left]. split; [|split].
        * split; [exact K1|]. split; [|reflexivity]. cbn [k_val]. intros m. unfold kupd. destruct (ceqb_spec m c) as [->|]; [|apply K2].
          rewrite K2. qlra.
        * lia.
        * intros l b Hb. rewrite Hsh, (W2 _ _ Hb). f_equal. replace (qmax 0 (k_val t c)) with 0%Qc by qlra.
          destruct (_ && _); ring.
    - destruct (Hn eq_refl) as [-> Hne]. eexists. split; [reflexivity|]. cbn [m_k m_wv fold_left]. split; [|split].
      + unfold relax. cbn [fst snd k_dep k_val k_q]. split; [|split]; cbn [k_dep k_val k_q].
        * intros m. unfold cset, kupd. rewrite !K1. reflexivity.
        * intros m. rewrite K2. destruct (qltP 0 (k_val t c)) as [L|L].
          -- unfold cset, kupd. destruct (ceqb_spec m c) as [->|Hm].
             ++ destruct (ceqb_spec c (tgt c)); [congruence|]. qlra.
             ++ rewrite !K2. destruct (ceqb_spec m (tgt c)) as [->|]; [|reflexivity].
                destruct (ceqb_spec (tgt c) c); [congruence|]. f_equal. qlra.
          -- unfold kupd. rewrite K2. destruct (ceqb_spec m (tgt c)) as [->|].
             ++ destruct (ceqb_spec (tgt c) c); [congruence|]. qlra.
             ++ destruct (ceqb_spec m c) as [->|]; [|reflexivity]. qlra.
        * unfold cset, kupd. destruct (ceqb_spec (tgt c) (tgt c)); [|congruence]. rewrite K1. reflexivity.
      + exact W1.
      + intros l b Hb. rewrite Hsh, (W2 _ _ Hb). cbn [andb]. f_equal. ring.
  Qed.

  Lemma mwp_loop : forall fuel i P X s t, keq (m_k s) t -> inv P X t -> wvinv P X (m_wv s) ->
    (length V <= length P + fuel)%nat ->
    exists P' X' s' t', whileR mpop (mwp_step lab fd w h) fuel i s = Some (Ok s') /\
      keq (m_k s') t' /\ inv P' X' t' /\ wvinv P' X' (m_wv s') /\ k_q t' = [].
  Proof.
    induction fuel as [|f IH]; intros i P X s t KE K W HL; cbn [whileR]; unfold mpop at 1; unfold kpop at 1.
    - destruct (k_q (m_k s)) as [|c q] eqn:Eq.
      + exists P, X, s, t. pose proof KE as [_ [_ E]]. rewrite Eq in E. auto 7.
      + exfalso. assert (Eq' : k_q t = c :: q) by (destruct KE as [? [? E]]; congruence).
        pose proof (kstep ceqb Qcplus 0%Qc outp gp hp ceqb_spec Qcplus_comm Qcplus_assoc Qcplus_0_r V outp_V wtd0 P X t c q K Eq') as K'.
        pose proof (ki_ord _ _ _ _ _ _ _ _ _ _ _ K') as HO.
        pose proof (NoDup_incl_length (ordered_nodup _ _ _ HO) (ordered_incl _ _ _ HO)) as Hlen. pose proof (Nat.le_trans _ _ _ Hlen HL) as HH. cbn [length] in HH. lia.
    - destruct (k_q (m_k s)) as [|c q] eqn:Eq.
      + exists P, X, s, t. pose proof KE as [_ [_ E]]. rewrite Eq in E. auto 7.
      + assert (Eq' : k_q t = c :: q) by (destruct KE as [? [? E]]; congruence).
        destruct (mwp_step_ok P X s t c q KE K W Eq') as [s' [Es [KE' W']]]. rewrite Es.
        apply (IH (S i) (c :: P) (kupd ceqb X c (k_val t c)) s' (pb c (mkK (k_dep t) (k_val t) q))); auto.
        * exact (kstep ceqb Qcplus 0%Qc outp gp hp ceqb_spec Qcplus_comm Qcplus_assoc Qcplus_0_r V outp_V wtd0 P X t c q K Eq').
        * cbn [length]. lia.
  Qed.

  Lemma scan_inside_iff c : In c (scan w h) <-> inside w h c.
  Proof. destruct c as [x y]. apply scan_In. Qed.

  Lemma inflow_listing X L m : NoDup L -> (forall d, In d L -> inside w h d) -> inside w h m ->
    ~ (m = corner /\ corner_fed fd w h) ->
    exists D, listing (fun d => In d L /\ passes_to fd w h d m) D /\
      inflow ceqb Qcplus 0%Qc outp gp L X m = qsum (map (fun d => qmax 0 (X d)) D).
  Proof.
    intros HN HL Hm Hcf. exists (filter (fun d => negb (delb d) && ceqb (tgt d) m) L). split.
    - split; [apply NoDup_filter; auto|]. intros d. rewrite filter_In, andb_true_iff, negb_true_iff.
      split.
      + intros [Hd [D T]]. split; [auto|]. unfold delb in D. apply orb_false_iff in D. destruct D as [D1 D2]. apply Z.eqb_neq in D1.
        destruct (ceqb_spec (tgt d) m) as [<-|]; [|discriminate]. split; [apply flows_iff; auto|].
        destruct (ceqb_spec (tgt d) corner); congruence.
      + intros [Hd [F Hn]]. split; [auto|]. apply flows_iff in F. destruct F as [_ [F1 ->]]. unfold delb.
        destruct (Z.eqb_spec (elev_at fd d) 0); [congruence|]. destruct (ceqb_spec (tgt d) corner); [congruence|].
        destruct (ceqb_spec (tgt d) (tgt d)); [auto|congruence].
    - unfold inflow. induction L as [|d L IH]; cbn [map asum filter]; [reflexivity|]. inversion HN; subst.
      rewrite IH by (auto; intros; apply HL; right; auto).
      assert (E : insum ceqb Qcplus 0%Qc outp gp X d m = if negb (delb d) && ceqb (tgt d) m then qmax 0 (X d) else 0%Qc).
      { unfold insum, outp. rewrite filter_app.
        replace (filter (fun e : cellt * unit => ceqb (fst e) m) (if ceqb d corner then repeat (corner, tt) k0 else [])) with (@nil (cellt * unit)).
        - rewrite app_nil_r. destruct (delb d); cbn [negb andb filter fst]; [reflexivity|].
          destruct (ceqb (tgt d) m); cbn [map asum]; [ring|reflexivity].
        - destruct (ceqb d corner); [|reflexivity]. destruct (ceqb_spec m corner) as [->|Hne].
          + destruct k0 eqn:E0; [reflexivity|]. exfalso. apply Hcf. split; [auto|]. apply k0_fed. lia.
          + induction k0; cbn [repeat filter fst]; [reflexivity|]. destruct (ceqb_spec corner m); congruence. }
      rewrite E. destruct (negb (delb d) && ceqb (tgt d) m); cbn [map]; [reflexivity|]. apply Qcplus_0_l.
  Qed.

  (** every cell that flows into the corner is unlisted, so [passes_to _ corner] is empty *)
  Lemma mwp_correct order : Permutation order V ->
    exists wtd' wv' X, MoveWaterIntoPits lab fd w h order wv0 wtd0 = Some (Ok (wtd', wv')) /\
      (forall p, inside w h p -> blocked fd w h p \/ ~ blocked fd w h p) /\
      arrivals fd w h wtd0 X /\ settled fd w h wtd0 X wtd' /\ collected fd w h lab X wv0 wv'.
  Proof.
    intros Ho. unfold MoveWaterIntoPits. destruct (mwp_deps_ok order Ho) as [d [Ed Hd]]. rewrite Ed.
    set (src := filter (fun c => d c =? 0) (scan w h)). set (t0 := mkK d wtd0 src).
    assert (GS : good_start ceqb outp V wtd0 t0).
    { split; [|split; [|split]]; cbn [t0 k_dep k_val k_q].
      - intros m Hm. apply cells_inside in Hm. rewrite Hd, indeg_outp by auto. reflexivity.
      - reflexivity.
      - apply NoDup_filter, scan_NoDup.
      - intros m. unfold src. rewrite filter_In, scan_inside_iff, cells_inside, Z.eqb_eq. reflexivity. }
    destruct (mwp_loop (Z.to_nat w * Z.to_nat h) 0 [] wtd0 (mkM t0 wv0) t0) as [P [X [s' [t' [E [KE [K [W Eq]]]]]]]].
    { apply keq_refl. }
    { apply kinv_start; auto using Qcplus_0_r. }
    { split; [reflexivity|]. intros l a Ha. cbn [m_wv]. rewrite Ha. f_equal. unfold share. cbn. ring. }
    { cbn [length]. rewrite cells_length. lia. }
    rewrite E. pose proof (ki_ord _ _ _ _ _ _ _ _ _ _ _ K) as HO.
    pose proof (final_popped ceqb Qcplus 0%Qc outp gp hp ceqb_spec V (cells_NoDup w h) outp_V wtd0 P X t' K Eq) as HP.
    pose proof (final_dec ceqb Qcplus 0%Qc outp gp hp ceqb_spec V (cells_NoDup w h) wtd0 P X t' K Eq) as HD.
    destruct KE as [_ [KV _]].
    assert (HPb : forall p, inside w h p -> (In p P <-> ~ blocked fd w h p)).
    { intros p Hp. rewrite HP, cells_inside, (blocked_iff p Hp). tauto. }
    assert (HPn : NoDup P) by apply (ordered_nodup _ _ _ HO).
    assert (HPi : forall p, In p P -> inside w h p) by (intros p Hp; apply cells_inside, (ordered_incl _ _ _ HO p Hp)).
    assert (CF : forall p, inside w h p -> p = corner /\ corner_fed fd w h -> blocked fd w h p).
    { intros p Hp [-> F]. exists corner. split; [constructor|auto]. }
    exists (k_val (m_k s')), (m_wv s'), X. split; [reflexivity|]. split; [|split; [|split]].
    - intros p Hp. destruct (HD p) as [H|H]; [apply cells_inside; auto|right; apply HPb; auto|left; apply blocked_iff; auto].
    - intros p Hp Hb. pose proof (proj2 (HPb p Hp) Hb) as HpP.
      destruct (inflow_listing X V p (cells_NoDup w h)) as [D [HD1 HD2]]; [intros; apply cells_inside; auto|auto|intros C; apply Hb, CF; auto|].
      exists D. split.
      + destruct HD1 as [N1 N2]. split; [exact N1|]. intros c. rewrite N2, cells_inside. split; [tauto|]. intros F. split; [apply F|auto].
      + etransitivity; [apply (ki_X _ _ _ _ _ _ _ _ _ _ _ K p HpP)|]. f_equal. etransitivity; [|exact HD2]. symmetry.
        exact (inflow_all ceqb Qcplus 0%Qc outp gp ceqb_spec Qcplus_comm Qcplus_assoc Qcplus_0_r V (cells_NoDup w h) P X p HO HpP).
    - split.
      + intros p Hp Hb. rewrite KV. apply (ki_done _ _ _ _ _ _ _ _ _ _ _ K). apply HPb; auto.
      + intros p Hp Hb. rewrite KV.
        assert (HpP : ~ In p P) by (rewrite HPb by auto; tauto).
        rewrite (ki_open _ _ _ _ _ _ _ _ _ _ _ K p HpP).
        destruct (ceqb_spec p corner) as [->|Hpc].
        * (* nothing is ever passed to the corner *)
          exists []. split.
          -- split; [constructor|]. intros c. split; [intros []|]. intros [[_ H] _]. congruence.
          -- unfold qsum at 1. cbn [map fold_right]. f_equal. unfold inflow.
             apply (asum_zero Qcplus 0%Qc Qcplus_0_r). intros c Hc. apply insum_no_edge; [apply ceqb_spec|].
             intros He. apply edge_outp in He; [|auto]. destruct He as [[_ H]|[-> _]]; [congruence|tauto].
        * destruct (inflow_listing X P p HPn HPi Hp) as [D [HD1 HD2]]; [tauto|].
          exists D. split.
          -- destruct HD1 as [N1 N2]. split; [exact N1|]. intros c. rewrite N2. split.
             ++ intros [Hc F]. split; [auto|]. apply HPb; auto.
             ++ intros [F Hn]. split; [|auto]. apply HPb; [apply F|auto].
          -- f_equal. exact HD2.
    - destruct W as [W1 W2]. split; [exact W1|]. intros l a Ha.
      exists (filter (fun c => delb c && (elev_at lab c =? l)) P). split; [|apply W2; auto].
      split; [apply NoDup_filter; auto|]. intros c. rewrite filter_In, andb_true_iff, Z.eqb_eq. split.
      + intros [Hc [D L]]. apply delb_iff in D; auto. split; [auto|]. split; [|auto]. apply HPb; auto.
      + intros [D [Hn L]]. assert (Hc : inside w h c) by apply D. split; [apply HPb; auto|]. split; [|auto]. apply delb_iff; auto.
  Qed.
End Pits.
