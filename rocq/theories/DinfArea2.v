(** D-infinity upslope area: the worklist, and what the areas mean. *)
From Coq Require Import ZArith Reals List Bool Permutation Lra Lia Psatz.
From Verif Require Import Base Res Kahn PAKahn RasterSpec RasterFacts FlowModel FlowSpec FlowProofs TAModel TAProofs DinfModel DinfSpec DinfProofs DinfProofs2 DinfProofs3 DinfArea.
Import ListNotations.
Open Scope R_scope.

Section area2.
  Variables (w h : Z) (fd : grid R) (fnd : R).
  Hypothesis Hfd : forall x y, in_raster w h x y -> fd x y = fnd \/ 0 <= fd x y <= 2 * PI.
  Notation fv c := (fd (fst c) (snd c)).
  Notation out := (out w h fd fnd).
  Notation validb := (validb w h fd fnd).
  Notation isdata := (isdata w h fd fnd).
  Notation sends := (sends w h fd fnd).
  Definition ag (c : cellt) (x s : R) : R := (x + 1) * s.
  Definition ah (c : cellt) (x : R) : R := x + 1.
  Notation KB := (kbody ceqb Rplus out ag ah).

  Lemma cset_same {B} (f : cellt -> B) c v : cset f c v c = v.
  Proof. unfold cset, kupd. destruct (ceqb_spec c c); [reflexivity|congruence]. Qed.
  Lemma cset_other {B} (f : cellt -> B) c v m : m <> c -> cset f c v m = f m.
  Proof. intros H. unfold cset, kupd. destruct (ceqb_spec m c); [congruence|reflexivity]. Qed.

  Lemma step_ok c s : validb c = true -> exists s', di_step w h fd fnd c s = Ok s' /\ kperm s' (KB c s).
  Proof.
    intros V. assert (RG := data_range w h fd fnd Hfd c V). assert (V0 := V). apply validb_iff in V. destruct V as [V1 V2].
    destruct c as [x y]. cbn [fst snd] in *. unfold di_step. rewrite (gat_ok w h fd x y V1). cbn [bind].
    destruct (isND fnd (fd x y)) eqn:ND; [apply isND_iff in ND; contradiction|].
    unfold kbody, DinfArea.out. rewrite V0. cbn [fst snd].
    set (s1 := add_area (x, y) 1 s).
    destruct (Req_EM_T (fd x y) 0) as [Z|NZ]; cbn [andb negb].
    { exists s1. split; [reflexivity|]. cbn [fold_left]. split; [|split]; try reflexivity. }
    rewrite (where_ok _ RG). destruct (kof_range _ RG) as [K1 K2]. unfold nbrs. cbn [fst snd].
    assert (C1 : k_val s1 (x, y) = k_val s (x, y) + 1) by (unfold s1, add_area; cbn [k_val]; apply cset_same).
    set (k := kof (fd x y)) in *. set (q := qof (fd x y)).
    assert (NE1 := step_ne (x, y) k). assert (NE2 := step_ne (x, y) (k + 1)). assert (NE3 := step_next_ne (x, y) k).
    destruct (closeb (fd x y)); cbn [bind].
    - destruct (dinf_off _ K1) as [-> ->]. cbn [bind]. cbn [Z.eqb Pos.eqb].
      assert (AP : area_proportion (fd x y) k (-1) = (1, 0)) by reflexivity. rewrite AP. rewrite !read_valid. cbn [bind]. rewrite read_valid.
      change (x + fst (compass k), y + snd (compass k))%Z with (step (x, y) k).
      set (m := step (x, y) k) in *. cbn [filter fst].
      destruct (validb m).
      + eexists. split; [reflexivity|]. cbn [fold_left]. unfold relax, dec_push, add_area, s1, add_area. cbn [k_dep k_val k_q fst snd].
        split; [|split].
        * intros p. reflexivity.
        * intros p; unfold ag, ah, cset, kupd; cbn [k_val];
          repeat match goal with |- context [ceqb ?a ?b] => destruct (ceqb_spec a b) end; subst; try congruence; try lra; reflexivity.
        * apply Permutation_refl.
      + exists s1. split; [reflexivity|]. cbn [fold_left]. split; [|split]; try reflexivity.
    - specialize (K2 eq_refl). destruct (dinf_off (k + 1) ltac:(lia)) as [-> ->]. cbn [bind].
      destruct (area_prop_ok (fd x y)) as [[_ A]|A]; fold k in A; [lia|]. fold q in A. rewrite A. clear A.
      destruct (Z.eqb_spec k (-1)); [lia|].
      destruct (dinf_off _ K1) as [-> ->]. cbn [bind].
      rewrite read_valid. cbn [bind]. rewrite read_valid. cbn [bind]. rewrite read_valid.
      change (x + fst (compass k), y + snd (compass k))%Z with (step (x, y) k).
      change (x + fst (compass (k + 1)), y + snd (compass (k + 1)))%Z with (step (x, y) (k + 1)).
      set (m := step (x, y) k) in *. set (m' := step (x, y) (k + 1)) in *. cbn [filter fst].
      destruct (validb m), (validb m'); eexists; (split; [reflexivity|]); cbn [fold_left];
        unfold relax, dec_push, add_area, s1, add_area; cbn [k_dep k_val k_q fst snd].
      all: split; [|split; [|try apply Permutation_refl]].
      all: try (intros p; reflexivity).
      all: try (intros p; unfold ag, ah, cset, kupd; cbn [k_val];
        repeat match goal with |- context [ceqb ?a ?b] => destruct (ceqb_spec a b) end; subst; try congruence; try lra; reflexivity).
  Qed.

  Definition dcells : list cellt := filter validb (scan w h).
  Lemma dcells_In m : In m dcells <-> isdata m.
  Proof.
    unfold dcells. rewrite filter_In, validb_iff. destruct m as [x y]. rewrite scan_In. unfold DinfSpec.isdata. cbn [fst snd]. tauto.
  Qed.
  Definition quiet (c : cellt) : bool := (if Req_EM_T (fv c) 0 then true else false) && Nat.eqb (indeg ceqb out dcells c) 0.
  Definition V : list cellt := filter (fun c => negb (quiet c)) dcells.

  Lemma indeg_filter p L m : (forall c, In c L -> p c = false -> out c = []) -> indeg ceqb out (filter p L) m = indeg ceqb out L m.
  Proof.
    induction L as [|c L IH]; intros H; [reflexivity|]. cbn [filter]. 
    assert (IH' := IH (fun d Hd => H d (or_intror Hd))).
    destruct (p c) eqn:E; cbn [indeg]; [rewrite IH'; reflexivity|].
    rewrite (H c (or_introl eq_refl) E). cbn. exact IH'.
  Qed.
  Lemma out_quiet c : quiet c = true -> out c = [].
  Proof.
    unfold quiet, DinfArea.out. destruct (Req_EM_T (fv c) 0); [|discriminate]. rewrite andb_false_r. reflexivity.
  Qed.
  Lemma indeg_V m : indeg ceqb out V m = indeg ceqb out dcells m.
  Proof. apply indeg_filter. intros c _ H. apply out_quiet. apply negb_false_iff. exact H. Qed.
  Lemma indeg_scan m : indeg ceqb out dcells m = indeg ceqb out (scan w h) m.
  Proof. apply indeg_filter. intros c _ H. unfold DinfArea.out. rewrite H. reflexivity. Qed.
  Lemma V_NoDup : NoDup V.
  Proof. unfold V, dcells. apply NoDup_filter, NoDup_filter, scan_NoDup. Qed.
  Lemma has_donor m : (exists d, edge out d m) <-> indeg ceqb out dcells m <> 0%nat.
  Proof.
    rewrite (indeg_zero ceqb out ceqb_spec dcells m). split.
    - intros [d H] K. apply (K d); [|exact H]. apply edge_iff in H. destruct H as [s [H _]]. apply dcells_In. exact H.
    - intros K. destruct (existsb (fun d => existsb (fun e => ceqb (fst e) m) (out d)) dcells) eqn:E.
      + apply existsb_exists in E. destruct E as [d [_ E]]. apply existsb_exists in E. destruct E as [[m' s] [E1 E2]].
        cbn [fst] in E2. destruct (ceqb_spec m' m) as [->|]; [|discriminate]. exists d, s. exact E1.
      + exfalso. apply K. intros d Hd [s Hs]. 
        assert (X : existsb (fun d => existsb (fun e => ceqb (fst e) m) (out d)) dcells = true).
        { apply existsb_exists. exists d. split; [exact Hd|]. apply existsb_exists. exists (m, s). split; [exact Hs|]. cbn [fst].
          destruct (ceqb_spec m m); congruence. }
        congruence.
  Qed.
  Lemma V_In m : In m V <-> isdata m /\ (fv m <> 0 \/ exists d, edge out d m).
  Proof.
    unfold V. rewrite filter_In, dcells_In, has_donor. unfold quiet.
    destruct (Req_EM_T (fv m) 0) as [Z|NZ]; cbn [andb negb].
    - destruct (Nat.eqb_spec (indeg ceqb out dcells m) 0); cbn [negb]; split; intros [H1 H2]; (split; [exact H1|]); try congruence; tauto.
    - split; intros [H1 H2]; (split; [exact H1|]); tauto.
  Qed.
  Lemma out_V d m : In d V -> edge out d m -> In m V.
  Proof. intros _ H. apply V_In. split; [|right; exists d; exact H]. apply edge_iff in H. destruct H as [s [_ [H _]]]. exact H. Qed.

  (** * Loops *)
  Lemma reach_below v m : reach out v m <-> v = m \/ below w h fd fnd v m.
  Proof.
    split.
    - induction 1 as [v|v d m H IH E]; [left; reflexivity|right]. apply edge_iff in E. destruct E as [s E].
      destruct IH as [->|IH]; [econstructor; exact E|eapply below_more; eassumption].
    - intros [->|H]; [constructor|]. induction H as [d c s H|d p c s H IH Hs].
      + eapply reach_step; [constructor|]. apply edge_iff. eauto.
      + eapply reach_step; [exact IH|]. apply edge_iff. eauto.
  Qed.
  Lemma cycle_below v : on_cycle out v <-> below w h fd fnd v v.
  Proof.
    unfold on_cycle. split.
    - intros [d [R E]]. apply edge_iff in E. destruct E as [s E]. apply reach_below in R. destruct R as [->|R]; [econstructor; exact E|eapply below_more; eassumption].
    - intros H. inversion H; subst.
      + exists v. split; [constructor|]. apply edge_iff. eauto.
      + exists m. split; [apply reach_below; right; assumption|]. apply edge_iff. eauto.
  Qed.
  Lemma loop_iff m : loop_upstream out V m <-> after_loop w h fd fnd m.
  Proof.
    unfold loop_upstream, after_loop. split.
    - intros [v [_ [C R]]]. exists v. rewrite <- cycle_below, <- reach_below. auto.
    - intros [v [C R]]. exists v. rewrite cycle_below, reach_below. split; [|auto].
      apply cycle_below in C. destruct C as [d [_ E]]. apply V_In. split; [|right; eauto].
      apply edge_iff in E. destruct E as [s [_ [E _]]]. exact E.
  Qed.

  (** * What arrives *)
  Lemma insum_one X d m : (exists s, sends d m s /\ insum ceqb Rplus 0 out ag X d m = (X d + 1) * s) \/
    ((forall s, ~ sends d m s) /\ insum ceqb Rplus 0 out ag X d m = 0).
  Proof.
    unfold insum. destruct (out_single w h fd fnd d m) as [[s [H ->]]|[H ->]].
    - left. exists s. split; [exact H|]. cbn [map asum snd]. unfold ag. ring.
    - right. split; [exact H|]. reflexivity.
  Qed.
  Lemma inflow_received X (a : cellt -> R) m L :
    (forall d s, In d L -> sends d m s -> a d = X d + 1) ->
    received w h fd fnd a m L (inflow ceqb Rplus 0 out ag L X m).
  Proof.
    unfold inflow. induction L as [|d L IH]; intros H; [constructor|]. cbn [map asum].
    assert (IH' := IH (fun e s He => H e s (or_intror He))).
    destruct (insum_one X d m) as [[s [Hs ->]]|[Hs ->]].
    - rewrite <- (H d s (or_introl eq_refl) Hs). apply rec_send; assumption.
    - rewrite Rplus_0_l. apply rec_not; assumption.
  Qed.
  Lemma received_filter (a : cellt -> R) m p L x : (forall d s, In d L -> p d = false -> ~ sends d m s) ->
    received w h fd fnd a m (filter p L) x -> received w h fd fnd a m L x.
  Proof.
    revert x. induction L as [|d L IH]; intros x H R; [exact R|]. cbn [filter] in R.
    assert (IH' := fun x => IH x (fun e s He => H e s (or_intror He))).
    destruct (p d) eqn:E.
    - inversion R; subst; [apply rec_send|apply rec_not]; auto.
    - apply rec_not; [|apply IH'; exact R]. intros s. apply H; [left; reflexivity|exact E].
  Qed.

  Theorem area_ok order : Permutation order (scan w h) ->
    exists area, dinf_upslope_area w h fd fnd order = Some (Ok area) /\
      forall c, in_raster w h (fst c) (snd c) ->
        (fv c = fnd -> area c = -1) /\
        (isdata c -> fv c <> 0 \/ (exists d s, sends d c s) -> ~ after_loop w h fd fnd c ->
           exists a, received w h fd fnd area c (scan w h) a /\ area c = 1 + a) /\
        (isdata c -> fv c = 0 -> (forall d s, ~ sends d c s) -> area c = 0) /\
        (after_loop w h fd fnd c -> exists L, NoDup L /\
           (forall d s, sends d c s -> (In d L <-> ~ after_loop w h fd fnd d)) /\ received w h fd fnd area c L (area c)) /\
        (after_loop w h fd fnd c \/ ~ after_loop w h fd fnd c).
  Proof.
    intros HP. unfold dinf_upslope_area.
    assert (HI : forall c, In c order -> in_raster w h (fst c) (snd c)).
    { intros [x y] Hc. apply (Permutation_in _ HP) in Hc. apply scan_In in Hc. exact Hc. }
    destruct (dep_loop w h fd fnd Hfd order HI (mkK (fun _ => 0%Z) (fun _ => 0) [])) as [s [-> [D1 [D2 [D3 D4]]]]].
    cbn [k_dep k_val] in D1, D2.
    assert (D1' : forall m, isdata m -> k_dep s m = Z.of_nat (indeg ceqb out V m)).
    { intros m Hm. rewrite (D1 m Hm), Z.add_0_l, indeg_V, indeg_scan. f_equal. apply indeg_perm. exact HP. }
    cbv beta iota zeta. match goal with |- context [filter ?f (scan w h)] => set (src := filter f (scan w h)) end. set (s0 := mkK (k_dep s) (k_val s) src).
    assert (Hsrc : forall m, In m src <-> In m V /\ k_dep s m = 0%Z).
    { intros [x y]. unfold src. rewrite filter_In, !andb_true_iff, Z.eqb_eq, scan_In, V_In. cbn [fst snd].
      rewrite negb_true_iff, <- not_true_iff_false, isND_iff. unfold DinfSpec.isdata. cbn [fst snd].
      destruct (Req_EM_T (fd x y) 0) as [Z|NZ]; cbn [negb]; [|tauto].
      split; [intros [_ [[_ Q] _]]; discriminate|]. intros [[[I N] [K|K]] Q]; [contradiction|].
      rewrite D1' in Q by (split; assumption). rewrite indeg_V in Q. apply has_donor in K. lia. }
    assert (GS : good_start ceqb out V (k_val s) s0).
    { split; [|split; [reflexivity|split; [apply NoDup_filter, scan_NoDup|exact Hsrc]]].
      intros m Hm. apply D1'. apply V_In in Hm. tauto. }
    assert (BO : forall P X t c q, kinv ceqb Rplus 0 out ag ah V (k_val s) P X t -> k_q t = c :: q -> In c V ->
      exists t', di_step w h fd fnd c (mkK (k_dep t) (k_val t) q) = Ok t' /\ kperm t' (KB c (mkK (k_dep t) (k_val t) q))).
    { intros P X t c q _ _ Hc. apply step_ok. apply V_In in Hc. apply validb_iff. tauto. }
    assert (HL : (length V <= Z.to_nat w * Z.to_nat h)%nat).
    { assert (LS : length (scan w h) = (Z.to_nat w * Z.to_nat h)%nat).
      { rewrite <- (cells_length w h). apply Permutation_length. apply NoDup_Permutation; [apply scan_NoDup|apply cells_NoDup|].
        intros [x y]. rewrite scan_In, cells_In. reflexivity. }
      rewrite <- LS. apply NoDup_incl_length; [apply V_NoDup|]. intros [x y] H. apply V_In in H. destruct H as [[H _] _]. apply scan_In. exact H. }
    destruct (any_spec ceqb Rplus 0 out ag ah ceqb_spec Rplus_comm (fun a b c => eq_sym (Rplus_assoc a b c)) Rplus_0_r V V_NoDup out_V
      (di_step w h fd fnd) (k_val s) BO s0 _ GS HL) as [P [X [s' [E [HO [HPn [Hdec [HX Hno]]]]]]]].
    rewrite E. exists (k_val s'). split; [reflexivity|].
    assert (I0 : forall m, isdata m -> k_val s m = 0) by (intros m Hm; rewrite D2 by (left; exact Hm); reflexivity).
    assert (Pin : forall d m s, sends d m s -> (In d P <-> ~ after_loop w h fd fnd d)).
    { intros d m t Hs. rewrite HPn, loop_iff. split; [tauto|]. intros H. split; [|exact H]. apply V_In.
      destruct Hs as [H1 [_ [H2 _]]]. auto. }
    assert (NoIn : forall c L, (forall d s, ~ sends d c s) -> inflow ceqb Rplus 0 out ag L X c = 0).
    { intros c L H. unfold inflow. induction L as [|d L IH]; [reflexivity|]. cbn [map asum]. rewrite IH.
      destruct (insum_one X d c) as [[t [Ht _]]|[_ ->]]; [destruct (H d t Ht)|ring]. }
    intros c Ic. split; [|split; [|split; [|split]]].
    - intros Ec. assert (NP : ~ In c P).
      { intros H. apply HPn in H. destruct H as [H _]. apply V_In in H. destruct H as [[_ H] _]. contradiction. }
      rewrite (Hno c NP). rewrite D3; [|apply (Permutation_in _ (Permutation_sym HP)); destruct c; apply scan_In; exact Ic|exact Ec].
      rewrite NoIn; [ring|]. intros d t [_ [[_ K] _]]. contradiction.
    - intros Hd Hor Hnl.
      assert (Pc : In c P).
      { apply HPn. rewrite loop_iff. split; [|exact Hnl]. apply V_In. split; [exact Hd|].
        destruct Hor as [H|[d [t H]]]; [left; exact H|right]. exists d. apply edge_iff. eauto. }
      destruct (HX c Pc) as [X1 X2]. rewrite I0, Rplus_0_l in X1 by exact Hd.
      exists (inflow ceqb Rplus 0 out ag V X c). split; [|rewrite X2; unfold ah; rewrite X1; ring].
      apply (received_filter _ _ validb); [|apply (received_filter _ _ (fun c => negb (quiet c)))].
      + intros d t _ Hv [Hs _]. apply validb_iff in Hs. congruence.
      + intros d t _ Hq Hs. apply (out_iff w h fd fnd) in Hs. rewrite out_quiet in Hs by (apply negb_false_iff; exact Hq). destruct Hs.
      + apply inflow_received. intros d t _ Hs.
        assert (Pd : In d P).
        { apply (Pin d c t Hs). intros [v [C R]]. apply Hnl. exists v. split; [exact C|]. right.
          destruct R as [->|R]; [econstructor; exact Hs|eapply below_more; eassumption]. }
        destruct (HX d Pd) as [_ ->]. reflexivity.
    - intros Hd Hz Hn. assert (NP : ~ In c P).
      { intros H. apply HPn in H. destruct H as [H _]. apply V_In in H. destruct H as [_ [H|[d H]]]; [contradiction|].
        apply edge_iff in H. destruct H as [t H]. exact (Hn d t H). }
      rewrite (Hno c NP), I0 by exact Hd. rewrite NoIn by exact Hn. ring.
    - intros Hl.
      assert (Hd : isdata c).
      { assert (G : forall a b, below w h fd fnd a b -> isdata b).
        { intros a b H. inversion H; subst; match goal with K : DinfSpec.sends _ _ _ _ _ _ _ |- _ => destruct K as [_ [K _]]; exact K end. }
        destruct Hl as [v [C [<-|R]]]; eapply G; eassumption. }
      assert (NP : ~ In c P) by (intros H; apply HPn in H; rewrite loop_iff in H; tauto).
      exists P. split; [apply (ordered_nodup out V P HO)|]. split; [intros d t Hs; exact (Pin d c t Hs)|].
      rewrite (Hno c NP), I0, Rplus_0_l by exact Hd. apply inflow_received. intros d t Hin _.
      destruct (HX d Hin) as [_ ->]. reflexivity.
    - destruct (validb c) eqn:Vc.
      + destruct (Req_EM_T (fv c) 0) as [Z|NZ].
        * destruct (Nat.eq_dec (indeg ceqb out dcells c) 0) as [N|N].
          -- right. intros [v [C R]].
             assert (K : exists d, edge out d c).
             { destruct R as [->|R].
               - apply cycle_below in C. destruct C as [d [_ K]]. exists d. exact K.
               - inversion R; subst; eexists; apply edge_iff; eauto. }
             apply has_donor in K. contradiction.
          -- destruct (Hdec c) as [H|H]; [apply V_In; split; [apply validb_iff; exact Vc|right; apply has_donor; exact N]| |];
               [right; apply HPn in H; rewrite <- loop_iff; tauto|left; apply loop_iff; exact H].
        * destruct (Hdec c) as [H|H]; [apply V_In; split; [apply validb_iff; exact Vc|left; exact NZ]| |];
               [right; apply HPn in H; rewrite <- loop_iff; tauto|left; apply loop_iff; exact H].
      + right. intros [v [C R]].
        assert (G : forall a b, below w h fd fnd a b -> isdata b).
        { intros a b H. inversion H; subst; match goal with K : DinfSpec.sends _ _ _ _ _ _ _ |- _ => destruct K as [_ [K _]]; exact K end. }
        assert (Hc : isdata c) by (destruct R as [->|R]; eapply G; eassumption). apply validb_iff in Hc. congruence.
  Qed.
End area2.
