(** From the order of additions to exactness and error bounds. *)
From Coq Require Import ZArith List Lia Bool Reals Lra Relations Permutation QArith Qcanon.
From Flocq Require Import Core BinarySingleNaN.
From Verif Require Import Base Res RasterSpec RasterFacts FlowSpec Kahn FlowModel FlowProofs FAModel FASpec FAProofs FAFModel FAFSpec FAFProofs FAFNum.
Open Scope Z_scope.

Section M.
  Variables (w h : Z) (p : Z -> nat -> float32).
  Hypothesis Hw : 0 <= w.
  Hypothesis Hh : 0 <= h.
  Hypothesis HF : finite_props w h p.
  Hypothesis HQf : fquiet_border w h p.
  Notation isnd := (fun v : float32 => Beqb v (f32_of_Z (-2))).
  Notation sk := (skel posf isnd p).

  Lemma ix_at c : ix_of w c = at_ w c. Proof. reflexivity. Qed.
  Lemma fin_at c n : in_raster w h (fst c) (snd c) -> (n <= 8)%nat -> is_finite (p (ix_of w c) n) = true.
  Proof. intros H Hn. apply HF; [|auto]. rewrite ix_at. apply at_range; auto. Qed.

  Lemma fdata_iff c : fdata w h p c <-> has_data w h sk snd_ c.
  Proof.
    unfold fdata, has_data, share. split; intros [H1 H2]; split; auto; intros E; apply H2.
    - apply nd_iff; [apply fin_at; auto; lia|]. rewrite ix_at. pose proof (skel_nd posf isnd p (at_ w c)) as Q. apply (eqq_iff) in E. congruence.
    - apply nd_iff in E; [|apply fin_at; auto; lia]. rewrite ix_at in E. pose proof (skel_nd posf isnd p (at_ w c)) as Q. apply eqq_iff. congruence.
  Qed.
  Lemma share_pos c n : in_raster w h (fst c) (snd c) -> (1 <= n <= 8)%nat -> ((0 < share w p c n)%R <-> posf (p (at_ w c) n) = true).
  Proof. intros Hc Hn. unfold share. rewrite posf_iff by (apply fin_at; auto; lia). reflexivity. Qed.
  Lemma skpos c n : (1 <= n)%nat -> ((0 < sk (at_ w c) n)%Qc <-> posf (p (at_ w c) n) = true).
  Proof. intros Hn. rewrite <- posq_iff, skel_pos by auto. reflexivity. Qed.
  Lemma HQ : quiet_border w h sk snd_.
  Proof.
    intros c n He Hd Hn. apply posq_false. rewrite skel_pos by lia. destruct (posf (p (at_ w c) n)) eqn:E; [|reflexivity]. exfalso.
    assert (Hr : in_raster w h (fst c) (snd c)) by apply He.
    assert (D : fdata w h p c) by (apply fdata_iff; split; auto).
    apply share_pos in E; auto. pose proof (HQf c n He (proj2 D) Hn). lra.
  Qed.
  Lemma fsends_iff c n d : fsends w h p c n d <-> sends w h sk snd_ c n d.
  Proof.
    unfold fsends, sends. rewrite !fdata_iff. split; intros [A [B [C [D E]]]]; (split; [auto|]; split; [auto|]; split; [auto|]; split; [auto|]);
      (apply skpos; [lia|]; apply share_pos; auto; apply A) || (apply share_pos; [apply A|auto|apply skpos; [lia|auto]]).
  Qed.
  Lemma ffeeds_iff c d : ffeeds w h p c d <-> feeds w h sk snd_ c d.
  Proof. unfold ffeeds, feeds. split; intros [n H]; exists n; apply fsends_iff; auto. Qed.
  Lemma crt_map {X} (R S : X -> X -> Prop) : (forall a b, R a b -> S a b) -> forall a b, clos_refl_trans _ R a b -> clos_refl_trans _ S a b.
  Proof. intros H a b. induction 1; [apply rt_step; auto|apply rt_refl|eapply rt_trans; eauto]. Qed.
  Lemma ct_map {X} (R S : X -> X -> Prop) : (forall a b, R a b -> S a b) -> forall a b, clos_trans _ R a b -> clos_trans _ S a b.
  Proof. intros H a b. induction 1; [apply t_step; auto|eapply t_trans; eauto]. Qed.
  Lemma settled_iff c : settled w h p c <-> has_data w h sk snd_ c /\ ~ downstream_of_loop w h sk snd_ c.
  Proof.
    unfold settled, downstream_of_loop, f_on_loop, on_loop. rewrite fdata_iff.
    assert (E : (exists l, clos_trans _ (ffeeds w h p) l l /\ clos_refl_trans _ (ffeeds w h p) l c) <->
                (exists l, clos_trans _ (feeds w h sk snd_) l l /\ clos_refl_trans _ (feeds w h sk snd_) l c)).
    { split; intros [l [H1 H2]]; exists l; (split; [eapply ct_map; [|exact H1]|eapply crt_map; [|exact H2]]); intros a b; apply ffeeds_iff. }
    rewrite E. reflexivity.
  Qed.
  Lemma settled_up c d : ffeeds w h p c d -> settled w h p d -> settled w h p c.
  Proof.
    intros F [D N]. split; [destruct F as [n F]; apply F|]. intros [l [L R]]. apply N. exists l. split; [auto|]. eapply rt_trans; [exact R|]. apply rt_step; auto.
  Qed.

  Lemma gives_sends c n d : has_data w h sk snd_ c -> has_data w h sk snd_ d ->
    (gives posf isnd w h p (at_ w c) n (at_ w d) <-> fsends w h p c n d).
  Proof.
    intros Hc Hd. rewrite fsends_iff, sends_iff by auto using HQ. unfold gives. rewrite dirs_In. cbn [nmax].
    assert (D1 : dat w h sk snd_ (at_ w c) = true) by (apply has_data_dat; [auto..|apply Hc|auto]).
    assert (D2 : dat w h sk snd_ (at_ w d) = true) by (apply has_data_dat; [auto..|apply Hd|auto]).
    split.
    - intros [_ [_ [H1 [H2 H3]]]]. split; [auto|]. split; [|auto]. rewrite skel_pos by lia. auto.
    - intros [H1 [H2 H3]]. split; [auto|]. split; [auto|]. split; [auto|]. split; [|auto]. rewrite skel_pos in H2 by lia. auto.
  Qed.

  (** the generic result, in cells *)
  Lemma run_cells {V} (acc : V -> float32 -> V -> V) accnd gen :
    exists A (rank : Z * Z -> nat), FlowAccumulationG posf nonposf isnd acc accnd w h p w h gen = Some (Ok A) /\
      (forall c, settled w h p c -> (rank c < Z.to_nat (w * h))%nat /\ exists l, donors w h p c l /\
         A (ix_of w c) = fold_left (fun a e => acc a (p (ix_of w (fst e)) (snd e)) (A (ix_of w (fst e)))) l (gen (ix_of w c))) /\
      (forall c d, ffeeds w h p c d -> settled w h p d -> (rank c < rank d)%nat) /\
      (forall c, in_raster w h (fst c) (snd c) -> share w p c 0 = (-2)%R -> A (ix_of w c) = accnd).
  Proof.
    assert (Hnp : forall i n, 0 <= i < w * h -> (1 <= n <= 8)%nat -> nonposf (p i n) = negb (posf (p i n))).
    { intros i n Hi Hn. apply nonposf_ok. apply HF; [auto|lia]. }
    destruct (FAG_run posf nonposf isnd acc accnd w h p Hw Hh Hnp HQ gen) as [A [rank [E [H1 [H2 H3]]]]].
    exists A, (fun c => rank (at_ w c)). split; [exact E|].
    assert (HV : forall c, settled w h p c -> In (at_ w c) (VV w h sk snd_) /\ ~ loop_upstream (outs w h sk snd_) (VV w h sk snd_) (at_ w c)).
    { intros c Hc. apply settled_iff in Hc. destruct Hc as [Hd Hl]. split; [apply has_data_VV; auto|]. rewrite loop_iff; auto using HQ. }
    split; [|split].
    - intros c Hc. destruct (HV c Hc) as [V1 V2]. destruct (H1 _ V1 V2) as [R [l [N [I EA]]]].
      assert (HlV : (length (VV w h sk snd_) <= Z.to_nat (w * h))%nat).
      { unfold VV. rewrite <- (zrange_length 0 (Z.to_nat (w * h))) at 2. generalize (zrange 0 (Z.to_nat (w * h))) as l1.
        induction l1 as [|a l1 IH]; cbn [filter length]; [lia|]. destruct (dat w h sk snd_ a); cbn [length]; lia. }
      split; [lia|]. apply settled_iff in Hc. destruct Hc as [Hd _].
      assert (G : forall i n, In (i, n) l -> has_data w h sk snd_ (cellof w i) /\ at_ w (cellof w i) = i).
      { intros i n Hi. apply I in Hi. apply VV_has_data; auto. apply VV_In; [auto..|apply Hi]. }
      exists (map (fun e => (cellof w (fst e), snd e)) l). split; [split|].
      + assert (Inj : forall a b, In a l -> In b l -> (cellof w (fst a), snd a) = (cellof w (fst b), snd b) -> a = b).
        { intros [a n] [b k] Ha Hb Q. cbn [fst snd] in Q. inversion Q as [[Q1 Q2]]. subst k. f_equal.
          rewrite <- (proj2 (G a n Ha)), <- (proj2 (G b n Hb)). unfold at_, cellof. cbn [fst snd]. congruence. }
        clear - N Inj. induction N as [|a l Ha Hl IH]; cbn [map]; constructor.
        * rewrite in_map_iff. intros [b [Q Hb]]. apply Ha. rewrite <- (Inj b a); auto; [right; auto|left; auto].
        * apply IH. intros. apply Inj; auto; right; auto.
      + intros d n. rewrite in_map_iff. split.
        * intros [[i k] [Q Hi]]. cbn [fst snd] in Q. inversion Q; subst d k. destruct (G i n Hi) as [G1 G2]. apply gives_sends; auto. rewrite G2. apply I; auto.
        * intros Hs. assert (Hdd : has_data w h sk snd_ d) by (apply fdata_iff; apply Hs). exists (at_ w d, n). cbn [fst snd]. split.
          -- rewrite (cellof_at w h) by (auto; apply Hdd). reflexivity.
          -- apply I. apply gives_sends; auto.
      + rewrite !ix_at, EA.
        assert (G2 : forall l1, incl l1 l -> forall a, fold_left (adds acc p A) l1 a =
          fold_left (fun a e => acc a (p (ix_of w (fst e)) (snd e)) (A (ix_of w (fst e)))) (map (fun e => (cellof w (fst e), snd e)) l1) a).
        { induction l1 as [|[i n] l1 IH]; intros Hi a; [reflexivity|]. cbn [map fold_left fst snd]. rewrite IH by (intros x Hx; apply Hi; right; auto).
          unfold adds. cbn [fst snd]. rewrite !ix_at. rewrite (proj2 (G i n (Hi _ (or_introl eq_refl)))). reflexivity. }
        apply G2. apply incl_refl.
    - intros c d F Hs. pose proof (settled_up c d F Hs) as Hc. apply settled_iff in Hc. apply HV in Hs as Hs'. apply settled_iff in Hs.
      destruct F as [n F]. apply (H2 _ n _); [|apply Hs']. apply gives_sends; tauto.
    - intros c Hc Hn. rewrite ix_at. apply H3; [apply at_range; auto|]. apply nd_iff; [rewrite <- ix_at; apply fin_at; auto; lia|]. exact Hn.
  Qed.

  (** a cell has at most eight donors *)
  Lemma donors_le8 d l : donors w h p d l -> (length l <= 8)%nat.
  Proof.
    intros [N I]. assert (H : NoDup (map snd l)).
    { assert (Inj : forall a b, In a l -> In b l -> snd a = snd b -> a = b).
      { intros [a n] [b k] Ha Hb Q. cbn [snd] in Q. subst k. f_equal. apply I in Ha. apply I in Hb.
        destruct Ha as [Ha [_ [Hn [Ta _]]]], Hb as [Hb [_ [_ [Tb _]]]]. destruct a as [ax ay], b as [bx by_]. cbn [fst snd] in *.
        apply toward_iff in Ta. apply toward_iff in Tb. destruct Ta as [_ [T1 T2]], Tb as [_ [T3 T4]]. f_equal; lia. }
      clear - N Inj. induction N as [|a l Ha Hl IH]; cbn [map]; constructor.
      * rewrite in_map_iff. intros [b [Q Hb]]. apply Ha. rewrite <- (Inj b a); auto; [right; auto|left; auto].
      * apply IH. intros. apply Inj; auto; right; auto. }
    rewrite <- (map_length snd). apply (NoDup_incl_length (l' := seq 1 8)) in H; [rewrite seq_length in H; exact H|].
    intros n Hn. apply in_map_iff in Hn. destruct Hn as [[c k] [<- Hi]]. apply I in Hi. apply in_seq. cbn [snd]. destruct Hi as [_ [_ [Hk _]]]. lia.
  Qed.
End M.
