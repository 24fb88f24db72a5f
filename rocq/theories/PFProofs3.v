(** Priority-Flood flow directions and epsilon filling. *)
From Coq Require Import ZArith List Lia Bool Permutation.
From Verif Require Import Base RasterSpec RasterFacts PFModel PFSpec PFInv PFProofs.
Open Scope Z_scope.

(** ** Direction codes *)
Lemma code_table n : In n (dirs D8) ->
  code_dx (Z.of_nat n) = dx D8 n /\ code_dy (Z.of_nat n) = dy D8 n /\
  code_dx (Z.of_nat (nth n d8_inverse 0%nat)) = - dx D8 n /\ code_dy (Z.of_nat (nth n d8_inverse 0%nat)) = - dy D8 n /\
  1 <= Z.of_nat (nth n d8_inverse 0%nat) <= 8.
Proof.
  intros H. apply dirs_In in H. cbn [nmax] in H.
  assert (C : (n = 1 \/ n = 2 \/ n = 3 \/ n = 4 \/ n = 5 \/ n = 6 \/ n = 7 \/ n = 8)%nat) by lia.
  destruct C as [->|[->|[->|[->|[->|[->|[->| ->]]]]]]]; cbn; repeat split; lia.
Qed.

Definition off_dir (w h x y d : Z) : Prop := 1 <= d <= 8 /\ ~ in_raster w h (x + code_dx d) (y + code_dy d).

Section InitDirs.
  Variables (w h : Z).
  Definition good (g : grid Z) (x y : Z) : Prop := off_dir w h x y (g x y).

  Lemma good_gset g a b d x y : off_dir w h a b d -> good g x y \/ (x, y) = (a, b) -> good (gset g a b d) x y.
  Proof.
    intros Hd H. unfold good. destruct (gset_cases g a b d x y) as [[E ->]|[Hne ->]].
    - inversion E; subst; auto.
    - destruct H as [H|H]; [auto|contradiction].
  Qed.

  Lemma off_top x : off_dir w h x 0 3. Proof. split; [lia|]. unfold in_raster; cbn; lia. Qed.
  Lemma off_bottom x : off_dir w h x (h-1) 7. Proof. split; [lia|]. unfold in_raster; cbn; lia. Qed.
  Lemma off_left y : off_dir w h 0 y 1. Proof. split; [lia|]. unfold in_raster; cbn; lia. Qed.
  Lemma off_right y : off_dir w h (w-1) y 5. Proof. split; [lia|]. unfold in_raster; cbn; lia. Qed.

  Lemma good_fold1 l : forall g x y,
    good g x y \/ (In x l /\ (y = 0 \/ y = h - 1)) ->
    good (fold_left (fun g x => gset (gset g x 0 3) x (h - 1) 7) l g) x y.
  Proof.
    induction l as [|a l IH]; intros g x y H; cbn [fold_left].
    - destruct H as [H|[[] _]]; auto.
    - apply IH. destruct H as [H|[[<-|Hin] Hy]].
      + left. apply good_gset; [apply off_bottom|left]. apply good_gset; [apply off_top|left; auto].
      + left. destruct Hy as [->| ->].
        * apply good_gset; [apply off_bottom|left]. apply good_gset; [apply off_top|right; auto].
        * apply good_gset; [apply off_bottom|right; auto].
      + right; auto.
  Qed.

  Lemma good_fold2 l : forall g x y,
    good g x y \/ (In y l /\ (x = 0 \/ x = w - 1)) ->
    good (fold_left (fun g y => gset (gset g 0 y 1) (w - 1) y 5) l g) x y.
  Proof.
    induction l as [|a l IH]; intros g x y H; cbn [fold_left].
    - destruct H as [H|[[] _]]; auto.
    - apply IH. destruct H as [H|[[<-|Hin] Hy]].
      + left. apply good_gset; [apply off_right|left]. apply good_gset; [apply off_left|left; auto].
      + left. destruct Hy as [->| ->].
        * apply good_gset; [apply off_right|left]. apply good_gset; [apply off_left|right; auto].
        * apply good_gset; [apply off_right|right; auto].
      + right; auto.
  Qed.

  Lemma init_flowdirs_good x y : on_edge w h x y -> good (init_flowdirs w h) x y.
  Proof.
    intros [[Hx Hy] He]. unfold init_flowdirs.
    apply good_gset; [split; [lia|unfold in_raster; cbn; lia]|left].
    apply good_gset; [split; [lia|unfold in_raster; cbn; lia]|left].
    apply good_gset; [split; [lia|unfold in_raster; cbn; lia]|left].
    apply good_gset; [split; [lia|unfold in_raster; cbn; lia]|left].
    apply good_fold2.
    destruct (Z.eq_dec y 0) as [->|Hy0]; [left; apply good_fold1; right; rewrite zrange_In; split; [lia|auto]|].
    destruct (Z.eq_dec y (h - 1)) as [->|Hy1]; [left; apply good_fold1; right; rewrite zrange_In; split; [lia|auto]|].
    right. rewrite zrange_In. lia.
  Qed.
End InitDirs.

(** ** PriorityFloodFlowdirs_Barnes2014 *)
Lemma kitem_gt_false a b : kitem_gt a b = false -> kz a <= kz b.
Proof. unfold kitem_gt. rewrite orb_false_iff, Z.gtb_ltb, Z.ltb_ge. tauto. Qed.

Lemma pq_pop_kitem k q c q' : pq_pop kitem_gt k q = Some (c, q') ->
  Permutation q (c :: q') /\ (forall it, In it q -> kz c <= kz it).
Proof.
  intros H. apply pq_pop_some in H. destruct H as [P M]. split; auto.
  intros it Hin. apply kitem_gt_false, M, Hin.
Qed.

Lemma pq_pop_kitem_none k q : pq_pop kitem_gt k q = None -> q = [].
Proof.
  apply pq_pop_none. intros Hq. apply min_total; auto; unfold kitem_gt.
  - intros a b. rewrite !orb_false_iff, !andb_false_iff, !Z.gtb_ltb, !Z.ltb_ge, !Z.eqb_neq. lia.
  - intros a b c. rewrite !orb_false_iff, !andb_false_iff, !Z.gtb_ltb, !Z.ltb_ge, !Z.eqb_neq. lia.
Qed.

Section Flowdirs.
  Variables (tb : nat -> nat) (w h : Z) (e0 : grid Z) (nd : Z).

  (** flow_exits through closed cells only *)
  Inductive FE (cl : grid bool) (fd : grid Z) (L : Z) : Z -> Z -> Prop :=
  | FE_off x y : cl x y = true -> in_raster w h x y -> e0 x y <= L -> off_dir w h x y (fd x y) -> FE cl fd L x y
  | FE_nd x y : cl x y = true -> in_raster w h x y -> e0 x y <= L -> e0 x y = nd -> fd x y = 0 -> FE cl fd L x y
  | FE_step x y : cl x y = true -> in_raster w h x y -> e0 x y <= L -> 1 <= fd x y <= 8 ->
      FE cl fd L (x + code_dx (fd x y)) (y + code_dy (fd x y)) -> FE cl fd L x y.

  Lemma FE_mono cl fd cl' fd' L L' x y :
    (forall x y, cl x y = true -> cl' x y = true /\ fd' x y = fd x y) -> L <= L' ->
    FE cl fd L x y -> FE cl' fd' L' x y.
  Proof.
    intros E HL H. induction H as [x y Hc Hr Hle Ho|x y Hc Hr Hle Hn Hf|x y Hc Hr Hle Hf HF IH];
      destruct (E _ _ Hc) as [Hc' Hfd].
    - apply FE_off; auto; [lia|]. rewrite Hfd. auto.
    - apply FE_nd; auto; [lia|]. rewrite Hfd. auto.
    - apply FE_step; auto; [lia|rewrite Hfd; auto|rewrite Hfd; auto].
  Qed.

  Lemma FE_exits cl fd L x y : FE cl fd L x y -> flow_exits w h e0 fd nd L x y.
  Proof.
    intros H. induction H as [x y Hc Hr Hle [Ho1 Ho2]|x y Hc Hr Hle Hn Hf|x y Hc Hr Hle Hf HF IH].
    - apply fe_off; auto.
    - apply fe_nodata; auto.
    - apply fe_step; auto.
  Qed.

  Definition gi (lv : grid Z) (k : kitem) : item := mkItem (kx k) (ky k) (lv (kx k) (ky k)).
  Definition fmu (s : fstate) : nat := msr w h (f_closed s) (length (f_open s)).

  Definition FJ (s : fstate) : Prop := exists lv l,
    FInv D8 w h e0 (f_closed s) lv (map (gi lv) (f_open s)) /\
    (forall k, In k (f_open s) -> lv (kx k) (ky k) = Z.max (kz k) l) /\
    (forall x y, f_closed s x y = true -> FE (f_closed s) (f_dirs s) (lv x y) x y).

  Definition FI (c : kitem) (m : nat) (s : fstate) : Prop := exists lv l,
    FInv D8 w h e0 (f_closed s) lv (gi lv c :: map (gi lv) (f_open s)) /\
    (forall k, In k (f_open s) -> lv (kx k) (ky k) = Z.max (kz k) l) /\
    lv (kx c) (ky c) = l /\
    (forall x y, f_closed s x y = true -> FE (f_closed s) (f_dirs s) (lv x y) x y) /\ fmu s = m.

  Lemma map_gi_ext lv lv' q : (forall k, In k q -> lv (kx k) (ky k) = lv' (kx k) (ky k)) -> map (gi lv) q = map (gi lv') q.
  Proof. intros H. apply map_ext_in. intros k Hk. unfold gi. rewrite H; auto. Qed.

  Lemma fd_step i s c s1 : FJ s -> fd_pop tb i s = Some (c, s1) ->
    FJ (fd_body w h e0 nd c s1) /\ (fmu (fd_body w h e0 nd c s1) < fmu s)%nat.
  Proof.
    intros [lv [l [HF [Hl HX]]]] Hp. unfold fd_pop in Hp.
    destruct (pq_pop kitem_gt (tb i) (f_open s)) as [[c' q]|] eqn:Hq; [|discriminate].
    inversion Hp; subst c' s1; clear Hp.
    apply pq_pop_kitem in Hq. destruct Hq as [HP Hmin].
    set (s1 := mkF (f_closed s) (f_dirs s) q (f_count s)). set (m := fmu s1).
    assert (Hcin : In c (f_open s)) by (eapply Permutation_in; [apply Permutation_sym, HP|simpl; auto]).
    assert (HI : FI c m s1).
    { exists lv, (Z.max (kz c) l). cbn. split; [|split; [|split; [|split]]]; auto.
      - eapply FInv_perm; [|exact HF]. apply (Permutation_map (gi lv)) in HP. exact HP.
      - intros k Hk. assert (Hkin : In k (f_open s)) by (eapply Permutation_in; [apply Permutation_sym, HP|simpl; auto]).
        rewrite (Hl k) by auto. specialize (Hmin k Hkin). lia. }
    destruct (visit_all_nostop D8 w h f_closed (fd_visit e0 nd) (kx c) (ky c) (FI c m) d8_order s1) as [HI' [_ Hall]]; auto.
    - clear HI. clearbody s1 m. clear s lv l HF Hl HX HP Hmin Hcin.
      intros s n nx ny [lv [l [HF [Hl [Hlc [HX Hm]]]]]] Hn Hx Hy Hr Hc. split; [|reflexivity].
      assert (Ha : adjacent D8 (kx c) (ky c) nx ny) by (apply adjacent_iff; eauto).
      assert (Hun : unclosed (f_closed s) w h = S (unclosed (gset (f_closed s) nx ny true) w h))
        by (apply unclosed_gset; auto; apply Hr).
      assert (Hcc : f_closed s (kx c) (ky c) = true).
      { apply (fi_item _ _ _ _ _ _ _ HF (gi lv c)). simpl; auto. }
      set (z := Z.max (e0 nx ny) l). set (lv' := gset lv nx ny z).
      assert (Hcl : forall k, In k (c :: f_open s) -> lv (kx k) (ky k) = lv' (kx k) (ky k)).
      { intros k Hk. unfold lv'. rewrite gset_other; auto. intros E; inversion E; subst.
        destruct Hk as [<-|Hk]; [congruence|].
        destruct (fi_item _ _ _ _ _ _ _ HF (gi lv k)) as [Hck _]; [right; apply in_map; auto|].
        cbn in Hck. congruence. }
      exists lv', l. unfold fd_visit. cbn [f_closed f_open f_dirs f_count]. split; [|split; [|split; [|split]]].
      + cbn [map]. assert (Eg : gi lv' c :: gi lv' (mkK nx ny (e0 nx ny) (f_count s + 1)) :: map (gi lv') (f_open s) =
                       gi lv c :: mkItem nx ny z :: map (gi lv) (f_open s)).
        { f_equal; [unfold gi; rewrite Hcl; simpl; auto|]. f_equal.
          - unfold gi; cbn. unfold lv'. rewrite gset_same. auto.
          - apply map_gi_ext. intros k Hk. symmetry. apply Hcl. simpl; auto. }
        rewrite Eg. eapply FInv_perm; [apply perm_swap|].
        eapply FInv_visit with (c := gi lv c); eauto; simpl; auto.
        * intros it [<-|Hin]; [cbn; lia|]. apply in_map_iff in Hin. destruct Hin as [k [<- Hk]]. cbn.
          rewrite (Hl k Hk), Hlc. lia.
        * unfold z. rewrite Hlc. auto.
      + intros k [<-|Hk]; cbn.
        * unfold lv'. rewrite gset_same. reflexivity.
        * rewrite <- Hcl by (simpl; auto). auto.
      + rewrite <- Hcl by (simpl; auto). auto.
      + assert (HE : forall x y, f_closed s x y = true -> gset (f_closed s) nx ny true x y = true /\
           gset (f_dirs s) nx ny (if e0 nx ny =? nd then 0 else Z.of_nat (nth n d8_inverse 0%nat)) x y = f_dirs s x y).
        { intros x y Hxy. assert (Hne : (x, y) <> (nx, ny)) by (intros E; inversion E; subst; congruence).
          rewrite !gset_other by auto. auto. }
        intros x y Hxy. destruct (gset_cases (f_closed s) nx ny true x y) as [[E _]|[Hne E]].
        * inversion E; subst x y. unfold lv'. rewrite gset_same.
          destruct (Z.eqb_spec (e0 nx ny) nd) as [Hd|Hd].
          -- apply FE_nd; auto; [unfold z; lia|apply gset_same].
          -- destruct (code_table n Hn) as [_ [_ [C3 [C4 C5]]]].
             apply FE_step; auto; [unfold z; lia|rewrite gset_same; auto|].
             rewrite gset_same, C3, C4.
             replace (nx + - dx D8 n) with (kx c) by lia. replace (ny + - dy D8 n) with (ky c) by lia.
             eapply FE_mono; [exact HE| |exact (HX _ _ Hcc)]. unfold z; lia.
        * rewrite E in Hxy. unfold lv'. rewrite gset_other by auto.
          eapply FE_mono; [exact HE| |exact (HX _ _ Hxy)]. lia.
      + rewrite <- Hm. unfold fmu, msr. cbn. lia.
    - intros n. rewrite dirs_In. unfold d8_order. cbn. lia.
    - fold (fd_body w h e0 nd c s1) in *. cbv zeta in *.
      destruct HI' as [lv' [l' [HF' [Hl' [Hlc [HX' Hm]]]]]]. split.
      + exists lv', l'. split; [|auto]. eapply FInv_finish; eauto.
      + rewrite Hm. unfold m, fmu, msr. cbn. rewrite (Permutation_length HP). simpl. lia.
  Qed.

  Lemma k_emplace_fold l : forall st,
    let r := fold_left (fun st p => k_emplace e0 p st) l st in
    (forall k, In k (fst r) <-> In k (fst st) \/
        (exists j, nth_error l j = Some (kx k, ky k) /\ kz k = e0 (kx k) (ky k) /\ kk k = snd st + Z.of_nat j + 1)) /\
    length (fst r) = (length l + length (fst st))%nat.
  Proof.
    induction l as [|[a b] l IH]; intros st r; subst r; cbn [fold_left].
    - split; [|auto]. intros k. split; auto. intros [H|[j [H _]]]; auto. destruct j; discriminate.
    - destruct (IH (k_emplace e0 (a, b) st)) as [H1 H2]. split.
      + intros k. rewrite H1. unfold k_emplace at 1 2. cbn [fst snd]. split.
        * intros [[<-|H]|[j [H [Hz Hk]]]]; auto.
          -- right. exists 0%nat. cbn. split; [auto|]. split; [auto|lia].
          -- right. exists (S j). cbn [nth_error]. split; [auto|]. split; [auto|lia].
        * intros [H|[j [H [Hz Hk]]]]; [left; simpl; auto|].
          destruct j as [|j]; cbn [nth_error] in H.
          -- left. left. inversion H; subst a b. rewrite <- Hz. destruct k as [x y z kk]; cbn in *. f_equal. lia.
          -- right. exists j. split; [auto|]. split; [auto|lia].
      + rewrite H2. unfold k_emplace. cbn. lia.
  Qed.

  Lemma fd_correct : 0 < w -> 0 < h ->
    exists fd, PriorityFloodFlowdirs_Barnes2014 tb w h e0 nd = Some fd /\
      forall x y L, in_raster w h x y -> drainage_level D8 w h e0 x y L -> flow_exits w h e0 fd nd L x y.
  Proof.
    intros Hw Hh. unfold PriorityFloodFlowdirs_Barnes2014, fd_init.
    pose proof (k_emplace_fold (seed_xy w h) ([], 0)) as HK.
    destruct (fold_left (fun st p => k_emplace e0 p st) (seed_xy w h) ([], 0)) as [q0 k0].
    cbn [fst snd] in HK. destruct HK as [HK1 HK2].
    destruct (while_pop_inv (fd_pop tb) (fd_body w h e0 nd) FJ fmu) with (fuel := pf_fuel w h) (i := 0%nat)
      (s := mkF (init_closed w h) (init_flowdirs w h) q0 k0) as [s' [i' [E [[lv [l [HF [Hl HX]]]] Hn]]]].
    - intros; eapply fd_step; eauto.
    - assert (Hq : forall k, In k q0 -> on_edge w h (kx k) (ky k) /\ kz k = e0 (kx k) (ky k)).
      { intros k Hk. apply HK1 in Hk. destruct Hk as [[]|[j [Hj [Hz _]]]]. split; auto.
        apply seed_xy_In; auto. eapply nth_error_In; eauto. }
      (* the initial water level is any bound below every seed *)
      assert (Hlow : exists l0, forall k, In k q0 -> l0 <= kz k).
      { clear. induction q0 as [|k q IH]; [exists 0; intros ? []|]. destruct IH as [l0 H].
        exists (Z.min l0 (kz k)). intros k' [<-|Hk]; [lia|]. specialize (H _ Hk). lia. }
      destruct Hlow as [l0 Hl0].
      exists e0, l0. cbn. split; [|split].
      + eapply FInv_equiv; [|apply FInv_init; auto]. intros it. rewrite seeds_In by auto. rewrite in_map_iff. split.
        * intros [He Hz]. apply seed_xy_In in He; auto. apply In_nth_error in He. destruct He as [j Hj].
          exists (mkK (ix it) (iy it) (iz it) (0 + Z.of_nat j + 1)). split.
          -- unfold gi; cbn. rewrite <- Hz. destruct it; auto.
          -- apply HK1. right. exists j. cbn [kx ky kz kk]. split; [auto|]. split; [auto|]. lia.
        * intros [k [<- Hk]]. cbn. destruct (Hq _ Hk). split; auto.
      + intros k Hk. destruct (Hq _ Hk) as [_ Hz]. specialize (Hl0 _ Hk). lia.
      + intros x y Hc. pose proof Hc as Hc'. apply init_closed_iff in Hc'; auto. apply FE_off; auto; [apply Hc'|lia|].
        apply init_flowdirs_good; auto.
    - unfold fmu, msr, pf_fuel. cbn. rewrite HK2. cbn. pose proof (unclosed_bound (init_closed w h) w h). lia.
    - rewrite E. cbn. eexists. split; [reflexivity|]. intros x y L Hr HL.
      unfold fd_pop in Hn. destruct (pq_pop kitem_gt (tb i') (f_open s')) as [[? ?]|] eqn:Hq; [discriminate|].
      apply pq_pop_kitem_none in Hq. rewrite Hq in HF. cbn in HF.
      pose proof (FInv_done _ _ _ _ _ _ HF x y Hr) as Hc.
      pose proof (fi_level _ _ _ _ _ _ _ HF x y Hc) as HL'.
      rewrite (drainage_level_unique _ _ _ _ _ _ _ _ HL HL'). eapply FE_exits. apply HX. auto.
  Qed.

  (** the codes themselves *)
  Lemma flow_exits_code fd L x y : flow_exits w h e0 fd nd L x y ->
    (fd x y = 0 /\ e0 x y = nd) \/ 1 <= fd x y <= 8.
  Proof. destruct 1; auto. Qed.
End Flowdirs.

(** ** PriorityFloodEpsilon_Barnes2014 *)
Section Epsilon.
  Variables (tb : nat -> nat) (INF nd : Z) (t : topology) (w h : Z) (e0 : grid Z) (B : Z).
  Hypothesis HB : forall x y, in_raster w h x y -> e0 x y < B.
  Hypothesis HINF : B + w * h <= INF.


  Inductive SD (cl : grid bool) (el : grid Z) : Z -> Z -> Prop :=
  | SD_edge x y : cl x y = true -> on_edge w h x y -> SD cl el x y
  | SD_nd x y : cl x y = true -> in_raster w h x y -> el x y = nd -> SD cl el x y
  | SD_step x y x' y' : cl x y = true -> in_raster w h x y -> adjacent t x y x' y' -> el x' y' < el x y ->
      SD cl el x' y' -> SD cl el x y.

  Lemma SD_closed cl el x y : SD cl el x y -> cl x y = true.
  Proof. destruct 1; auto. Qed.

  Lemma SD_mono cl el cl' el' x y :
    (forall x y, cl x y = true -> cl' x y = true /\ el' x y = el x y) -> SD cl el x y -> SD cl' el' x y.
  Proof.
    intros E H. induction H as [x y Hc He|x y Hc Hr Hn|x y x' y' Hc Hr Ha Hlt HS IH];
      destruct (E _ _ Hc) as [Hc' Hel].
    - apply SD_edge; auto.
    - apply SD_nd; auto. congruence.
    - apply SD_step with (x' := x') (y' := y'); auto.
      destruct (E _ _ (SD_closed _ _ _ _ HS)) as [_ Hel']. lia.
  Qed.

  Lemma SD_drains cl el x y : SD cl el x y -> strictly_drains t w h el nd x y.
  Proof.
    intros H. induction H as [x y Hc He|x y Hc Hr Hn|x y x' y' Hc Hr Ha Hlt HS IH].
    - apply sd_edge; auto.
    - apply sd_nodata; auto.
    - eapply sd_step; eauto.
  Qed.

  Record EInv (cl : grid bool) (el : grid Z) (F : list item) : Prop := {
    ei_edge : forall x y, on_edge w h x y -> cl x y = true;
    ei_raster : forall x y, cl x y = true -> in_raster w h x y;
    ei_unclosed : forall x y, cl x y = false -> el x y = e0 x y;
    ei_keep : forall x y, e0 x y <= el x y /\ (e0 x y = nd -> el x y = nd) /\ (on_edge w h x y -> el x y = e0 x y);
    ei_sd : forall x y, cl x y = true -> SD cl el x y;
    ei_item : forall it, In it F -> cl (ix it) (iy it) = true /\ el (ix it) (iy it) = iz it;
    ei_bound : forall it, In it F -> iz it + Z.of_nat (unclosed cl w h) < B + w * h;
    ei_front : forall x y x' y', cl x y = true -> adjacent t x y x' y' -> in_raster w h x' y' ->
      cl x' y' = false -> exists it, In it F /\ ix it = x /\ iy it = y }.

  Lemma EInv_equiv cl el F F' : (forall it, In it F <-> In it F') -> EInv cl el F -> EInv cl el F'.
  Proof.
    intros E [H1 H2 H3 H4 H5 H6 H7 H8]. constructor; auto; try (intros it Hin; apply E in Hin; auto).
    intros x y x' y' A A' C D. destruct (H8 x y x' y' A A' C D) as [it [Hi Hr]]. exists it. rewrite <- E. auto.
  Qed.

  Lemma EInv_visit cl el F c nx ny z el' :
    EInv cl el F -> In c F -> adjacent t (ix c) (iy c) nx ny -> in_raster w h nx ny -> cl nx ny = false ->
    (forall x y, (x, y) <> (nx, ny) -> el' x y = el x y) -> el' nx ny = z ->
    (z = e0 nx ny /\ (e0 nx ny = nd \/ iz c < z) \/ (e0 nx ny <> nd /\ e0 nx ny <= z /\ z = iz c + 1)) ->
    EInv (gset cl nx ny true) el' (mkItem nx ny z :: F).
  Proof.
    intros HI Hc Ha Hr Hn Hel Hz HZ. pose proof HI as [H1 H2 H3 H4 H5 H6 H7 H8].
    assert (Hun : unclosed cl w h = S (unclosed (gset cl nx ny true) w h))
        by (apply unclosed_gset; auto; apply Hr).
    assert (Hne : ~ on_edge w h nx ny) by (intros He; rewrite (H1 _ _ He) in Hn; discriminate).
    destruct (H6 _ Hc) as [Hcc Hce].
    assert (Hcn : (ix c, iy c) <> (nx, ny)) by (eapply adjacent_neq; eauto).
    assert (Hext : forall x y, cl x y = true -> gset cl nx ny true x y = true /\ el' x y = el x y).
    { intros x y Hxy. assert ((x, y) <> (nx, ny)) by (intros E; inversion E; subst; congruence).
      rewrite gset_other by auto. auto. }
    constructor.
    - intros x y He. apply Hext; auto.
    - intros x y Hxy. destruct (gset_cases cl nx ny true x y) as [[E _]|[_ E]]; [inversion E; subst; auto|].
      rewrite E in Hxy. auto.
    - intros x y Hxy. destruct (gset_cases cl nx ny true x y) as [[_ E]|[Hne' E]]; rewrite E in Hxy; [discriminate|].
      rewrite Hel; auto.
    - intros x y. destruct (gset_cases cl nx ny true x y) as [[E _]|[Hne' _]].
      + inversion E; subst x y. rewrite Hz. split; [lia|]. split; [|contradiction]. intros; lia.
      + rewrite Hel by auto. apply H4.
    - intros x y Hxy. destruct (gset_cases cl nx ny true x y) as [[E _]|[Hne' E]].
      + inversion E; subst x y. destruct (Z.eq_dec (e0 nx ny) nd) as [Hd|Hd].
        * apply SD_nd; auto. lia.
        * apply SD_step with (x' := ix c) (y' := iy c); auto.
          -- apply adjacent_sym; auto.
          -- rewrite (Hel (ix c) (iy c)) by auto. lia.
          -- eapply SD_mono; [exact Hext|]. auto.
      + rewrite E in Hxy. eapply SD_mono; [exact Hext|]. auto.
    - intros it [<-|Hin]; cbn [ix iy iz].
      + rewrite gset_same. auto.
      + destruct (H6 _ Hin) as [A A']. destruct (Hext _ _ A) as [-> ->]. auto.
    - intros it [<-|Hin]; cbn [ix iy iz].
      + specialize (H7 _ Hc). specialize (HB _ _ Hr).
        pose proof (unclosed_bound cl w h) as Hb. destruct Hr as [Hrx Hry].
        assert (Z.of_nat (unclosed cl w h) <= w * h) by nia. lia.
      + specialize (H7 _ Hin). lia.
    - intros x y x' y' Hx Hadj Hr' Hx'.
      assert (Hold : cl x' y' = false).
      { destruct (gset_cases cl nx ny true x' y') as [[_ E]|[_ E]]; rewrite E in Hx'; [discriminate|auto]. }
      destruct (gset_cases cl nx ny true x y) as [[E _]|[_ E]].
      + inversion E; subst. eexists. simpl. split; [left; reflexivity|]. auto.
      + rewrite E in Hx. destruct (H8 _ _ _ _ Hx Hadj Hr' Hold) as [it [Hi Hp]]. exists it. simpl; auto.
  Qed.

  Lemma EInv_finish cl el F c : EInv cl el (c :: F) ->
    (forall x y, adjacent t (ix c) (iy c) x y -> in_raster w h x y -> cl x y = true) -> EInv cl el F.
  Proof.
    intros [H1 H2 H3 H4 H5 H6 H7 H8] Hall. constructor; auto; try (intros it Hin; apply H6 || apply H7; simpl; auto).
    intros x y x' y' A A' C D. destruct (H8 _ _ _ _ A A' C D) as [it [[<-|Hin] [Ex Ey]]]; [|eauto].
    subst x y. rewrite (Hall _ _ A' C) in D. discriminate.
  Qed.

  Lemma EInv_done cl el : EInv cl el [] -> forall x y, in_raster w h x y -> cl x y = true.
  Proof.
    intros HI x y Hr. destruct (cl x y) eqn:Hc; auto. exfalso.
    assert (H : forall n x, x = Z.of_nat n -> in_raster w h x y -> cl x y = false -> False).
    { induction n as [|n IH]; intros x0 Hx Hr0 Hc0.
      - rewrite (ei_edge _ _ _ HI) in Hc0; [discriminate|]. split; [auto|left; lia].
      - destruct (cl (x0 - 1) y) eqn:Hc'.
        + destruct (ei_front _ _ _ HI (x0-1) y x0 y Hc') as [it [[] _]]; auto.
          replace x0 with ((x0 - 1) + 1) at 2 by lia. apply adjacent_right.
        + apply (IH (x0 - 1)); auto; [lia|]. destruct Hr0; split; lia. }
    apply (H (Z.to_nat x) x); auto. destruct Hr; lia.
  Qed.

  Definition emu (s : bstate) : nat := msr w h (b_closed s) (length (b_pit s) + length (b_open s)).
  Definition EJ (s : bstate) : Prop := EInv (b_closed s) (b_elev s) (b_pit s ++ b_open s).
  Definition EI (c : item) (m : nat) (s : bstate) : Prop :=
    EInv (b_closed s) (b_elev s) (c :: b_pit s ++ b_open s) /\ emu s = m.

  Lemma eps_pop_inv i s c s1 : EJ s -> eps_pop tb i s = Some (c, s1) -> EI c (emu s1) s1 /\ (emu s1 < emu s)%nat.
  Proof.
    intros HJ Hp. unfold eps_pop in Hp. destruct s as [cl el op pt]; cbn in *.
    assert (Hopen : forall c' q, pq_pop item_gt (tb i) op = Some (c', q) ->
      EI c' (emu (mkB cl el q pt)) (mkB cl el q pt) /\ (emu (mkB cl el q pt) < emu (mkB cl el op pt))%nat).
    { intros c' q Hq. apply pq_pop_item in Hq. destruct Hq as [HP _]. split.
      - split; [|auto]. cbn. eapply EInv_equiv; [|exact HJ]. cbn. intros it. rewrite !in_app_iff.
        assert (E : In it op <-> c' = it \/ In it q).
        { split; [apply (Permutation_in it HP)|apply (Permutation_in it (Permutation_sym HP))]. }
        tauto.
      - unfold emu, msr. cbn. rewrite (Permutation_length HP). cbn. lia. }
    assert (Hpit : forall p pt', pt = p :: pt' ->
      EI p (emu (mkB cl el op pt')) (mkB cl el op pt') /\ (emu (mkB cl el op pt') < emu (mkB cl el op pt))%nat).
    { intros p pt' ->. split; [split; [exact HJ|auto]|]. unfold emu, msr. cbn. lia. }
    destruct pt as [|p pt'].
    - destruct (pq_pop item_gt (tb i) op) as [[c' q]|]; [|discriminate].
      inversion Hp; subst c' s1. auto.
    - destruct (pq_pop item_gt (tb i) op) as [[c' q]|].
      + destruct (iz c' =? iz p); inversion Hp; subst; auto.
      + inversion Hp; subst; auto.
  Qed.

  Lemma eps_step i s c s1 : EJ s -> eps_pop tb i s = Some (c, s1) ->
    EJ (eps_body INF nd t w h c s1) /\ (emu (eps_body INF nd t w h c s1) < emu s)%nat.
  Proof.
    intros HJ Hp. destruct (eps_pop_inv _ _ _ _ HJ Hp) as [HI Hlt]. clear HJ Hp.
    destruct (visit_all_nostop t w h b_closed (eps_visit INF nd c) (ix c) (iy c) (EI c (emu s1)) (dirs t) s1)
      as [HI' [_ Hall]]; auto.
    - clear s HI Hlt. generalize (emu s1) as m. clear s1.
      intros m s n nx ny [HE Hm] Hn Hx Hy Hr Hc.
      assert (Ha : adjacent t (ix c) (iy c) nx ny) by (eapply visit_adjacent; eauto).
      assert (Hun : unclosed (b_closed s) w h = S (unclosed (gset (b_closed s) nx ny true) w h))
        by (apply unclosed_gset; auto; apply Hr).
      assert (Hen : b_elev s nx ny = e0 nx ny) by (apply (ei_unclosed _ _ _ HE); auto).
      assert (Hin : In c (c :: b_pit s ++ b_open s)) by (simpl; auto).
      assert (Hnext : nextafter INF (iz c) = iz c + 1).
      { unfold nextafter. pose proof (ei_bound _ _ _ HE c Hin). destruct (Z.leb_spec INF (iz c)); [lia|auto]. }
      unfold eps_visit. rewrite Hen, Hnext.
      destruct (Z.eqb_spec (e0 nx ny) nd) as [Hd|Hd]; [|destruct (Z.leb_spec (e0 nx ny) (iz c + 1)) as [Hle|Hgt]];
        (split; [|reflexivity]); (split; [|rewrite <- Hm; unfold emu, msr; cbn; rewrite ?app_length; cbn; lia]); cbn.
      + eapply EInv_equiv; [|eapply (EInv_visit _ (b_elev s) _ c nx ny nd (b_elev s) HE); eauto; lia].
        intros it. simpl. rewrite !in_app_iff. simpl. tauto.
      + eapply EInv_equiv; [|eapply (EInv_visit _ (b_elev s) _ c nx ny (iz c + 1) _ HE); eauto].
        * intros it. simpl. rewrite !in_app_iff. simpl. tauto.
        * intros x y Hne. rewrite gset_other; auto.
        * apply gset_same.
      + eapply EInv_equiv; [|eapply (EInv_visit _ (b_elev s) _ c nx ny (e0 nx ny) (b_elev s) HE); eauto].
        * intros it. simpl. rewrite !in_app_iff. simpl. tauto.
        * left. split; [auto|lia].
    - reflexivity.
    - fold (eps_body INF nd t w h c s1) in *. cbv zeta in *. destruct HI' as [HE Hm]. split.
      + eapply EInv_finish; eauto.
      + lia.
  Qed.

  Lemma eps_correct : 0 < w -> 0 < h ->
    exists r, PriorityFloodEpsilon_Barnes2014 tb INF nd t w h e0 = Some r /\
      forall x y, in_raster w h x y ->
        strictly_drains t w h r nd x y /\ e0 x y <= r x y /\ (e0 x y = nd -> r x y = nd) /\
        (on_edge w h x y -> r x y = e0 x y).
  Proof.
    intros Hw Hh. unfold PriorityFloodEpsilon_Barnes2014.
    destruct (while_pop_inv (eps_pop tb) (eps_body INF nd t w h) EJ emu) with (fuel := pf_fuel w h) (i := 0%nat)
      (s := mkB (init_closed w h) e0 (seeds w h e0) []) as [s' [i' [E [HE Hn]]]].
    - intros; eapply eps_step; eauto.
    - unfold EJ. cbn. constructor; auto.
      + intros x y He. apply init_closed_iff; auto.
      + intros x y Hc. apply init_closed_iff in Hc; auto. apply Hc.
      + intros x y. split; [lia|auto].
      + intros x y Hc. apply SD_edge; auto. apply init_closed_iff; auto.
      + intros it Hin. apply seeds_In in Hin; auto. destruct Hin as [He Hz]. split; [apply init_closed_iff; auto|auto].
      + intros it Hin. apply seeds_In in Hin; auto. destruct Hin as [[Hr He] Hz].
        specialize (HB _ _ Hr). pose proof (unclosed_bound (init_closed w h) w h) as Hb.
        assert (Z.of_nat (unclosed (init_closed w h) w h) <= w * h) by nia. lia.
      + intros x y x' y' Hc _ _ _. apply init_closed_iff in Hc; auto.
        exists (mkItem x y (e0 x y)). cbn. split; auto. apply seeds_In; auto.
    - cbn. apply init_fuel.
    - rewrite E. cbn. eexists. split; [reflexivity|]. intros x y Hr.
      unfold eps_pop in Hn. unfold EJ in HE. destruct (b_pit s') as [|p pt] eqn:Hpit.
      + destruct (pq_pop item_gt (tb i') (b_open s')) as [[? ?]|] eqn:Hq; [discriminate|].
        apply pq_pop_item_none in Hq. rewrite Hq in HE. cbn in HE. split; [|apply (ei_keep _ _ _ HE)].
        eapply SD_drains. apply (ei_sd _ _ _ HE). eapply EInv_done; eauto.
      + destruct (pq_pop item_gt (tb i') (b_open s')) as [[? ?]|]; [destruct (_ =? _)|]; discriminate.
  Qed.
End Epsilon.
