From Coq Require Import ZArith List Lia Bool Permutation.
From Verif Require Import Base Res ArrModel ArrSpec ArrProofs CmpModel.
Open Scope Z_scope.

(** ** Loops that fold over the stored cells *)
Lemma ix_app_mid {A} (pre : list A) d suf : ix (pre ++ d :: suf) (Z.of_nat (length pre)) = Some d.
Proof.
  unfold ix. destruct (Z.ltb_spec (Z.of_nat (length pre)) 0); [lia|]. rewrite Nat2Z.id.
  rewrite nth_error_app2 by lia. rewrite Nat.sub_diag. reflexivity.
Qed.

Lemma forM_fold {A S} (g : A -> S -> S) (suf : list A) : forall pre s,
  forM (zrange (Z.of_nat (length pre)) (length suf)) (fun i s => do d <- rd (pre ++ suf) i; Ok (g d s)) s
  = Ok (fold_left (fun s d => g d s) suf s).
Proof.
  induction suf as [|d suf IH]; intros pre s; cbn [length zrange forM fold_left]; auto.
  assert (R : rd (pre ++ d :: suf) (Z.of_nat (length pre)) = Ok d) by (apply rd_Ok; apply ix_app_mid).
  rewrite R. cbn [bind]. specialize (IH (pre ++ [d]) (g d s)). rewrite app_length in IH. cbn [length] in IH.
  rewrite <- app_assoc in IH. cbn [app] in IH.
  replace (Z.of_nat (length pre) + 1) with (Z.of_nat (length pre + 1)) by lia. exact IH.
Qed.

Lemma forM_fold_all {A S} (a : arr A) (g : A -> S -> S) s : well_formed a ->
  (do n <- size a; forM (zrange 0 (Z.to_nat n)) (fun i s => do d <- rd (a_data a) i; Ok (g d s)) s)
  = Ok (fold_left (fun s d => g d s) (a_data a) s).
Proof.
  intros H. rewrite size_ok by auto. cbn [bind]. rewrite <- (wf_len a H), Nat2Z.id.
  exact (forM_fold g (a_data a) [] s).
Qed.

Lemma data_cells {A} (a : arr A) d : well_formed a ->
  (In d (a_data a) <-> exists x y, 0 <= x < a_w a /\ 0 <= y < a_h a /\ cell a x y = Some d).
Proof.
  intros H. split.
  - intros Hin. apply In_nth_error in Hin. destruct Hin as [k Hk].
    assert (Hlt : (k < length (a_data a))%nat) by (apply nth_error_Some; congruence).
    pose proof (wf_len a H). pose proof (wf_w a H).
    destruct (idx_split (a_w a) (a_h a) (Z.of_nat k)) as [x [y [Hx [Hy E]]]]; [lia|lia|].
    exists x, y. split; [auto|]. split; [auto|]. rewrite cell_ix by auto. rewrite <- E. unfold ix.
    destruct (Z.ltb_spec (Z.of_nat k) 0); [lia|]. rewrite Nat2Z.id. exact Hk.
  - intros [x [y [Hx [Hy E]]]]. rewrite cell_ix in E by auto. unfold ix in E.
    destruct (_ <? 0); [discriminate|]. eapply nth_error_In; eauto.
Qed.

(** ** min / max over values that may be NaN *)
Definition zle (a b : elev) : Prop := match a, b with Some x, Some y => x <= y | _, _ => False end.

Lemma min_fold (nd : elev) (l : list elev) : forall m0, m0 <> None ->
  let m := fold_left (fun m d => if feq d nd then m else if flt d m then d else m) l m0 in
  m <> None /\ (m = m0 \/ (In m l /\ feq m nd = false)) /\ zle m m0 /\
  (forall d, In d l -> feq d nd = false -> d <> None -> zle m d).
Proof.
  induction l as [|d l IH]; intros m0 Hm; cbn [fold_left].
  - cbv zeta. split; [auto|]. split; [auto|]. split; [|intros d []]. destruct m0; [simpl; lia|congruence].
  - destruct (feq d nd) eqn:End.
    + destruct (IH m0 Hm) as [I1 [I2 [I3 I4]]]. split; [exact I1|]. split.
      { destruct I2 as [I2|[I2 I2']]; [left; auto|right; split; [right; auto|auto]]. }
      split; [exact I3|]. intros d' [<-|Hd'] Hf Hn; [congruence|apply I4; auto].
    + destruct (flt d m0) eqn:Elt.
      * assert (Hd : d <> None) by (destruct d; [discriminate|destruct m0; discriminate]).
        destruct (IH d Hd) as [I1 [I2 [I3 I4]]]. cbv zeta in *. split; [exact I1|]. split.
        { destruct I2 as [I2|[I2 I2']]; [right; rewrite I2; split; [left; auto|auto]|right; split; [right; auto|auto]]. }
        split.
        { destruct d as [x|]; [|congruence]. destruct m0 as [y|]; [|congruence].
          cbn in Elt. apply Z.ltb_lt in Elt. destruct (fold_left _ _ _) as [z|]; cbn in *; [lia|contradiction]. }
        intros d' [<-|Hd'] Hf Hn; [exact I3|apply I4; auto].
      * destruct (IH m0 Hm) as [I1 [I2 [I3 I4]]]. cbv zeta in *. split; [exact I1|]. split.
        { destruct I2 as [I2|[I2 I2']]; [left; auto|right; split; [right; auto|auto]]. }
        split; [exact I3|]. intros d' [<-|Hd'] Hf Hn; [|apply I4; auto].
        destruct d as [x|]; [|congruence]. destruct m0 as [y|]; [|congruence].
        cbn in Elt. apply Z.ltb_ge in Elt. destruct (fold_left _ _ _) as [z|]; cbn in *; [lia|contradiction].
Qed.

Lemma max_fold (nd : elev) (l : list elev) : forall m0, m0 <> None ->
  let m := fold_left (fun m d => if feq d nd then m else if flt m d then d else m) l m0 in
  m <> None /\ (m = m0 \/ (In m l /\ feq m nd = false)) /\ zle m0 m /\
  (forall d, In d l -> feq d nd = false -> d <> None -> zle d m).
Proof.
  induction l as [|d l IH]; intros m0 Hm; cbn [fold_left].
  - cbv zeta. split; [auto|]. split; [auto|]. split; [|intros d []]. destruct m0; [simpl; lia|congruence].
  - destruct (feq d nd) eqn:End.
    + destruct (IH m0 Hm) as [I1 [I2 [I3 I4]]]. split; [exact I1|]. split.
      { destruct I2 as [I2|[I2 I2']]; [left; auto|right; split; [right; auto|auto]]. }
      split; [exact I3|]. intros d' [<-|Hd'] Hf Hn; [congruence|apply I4; auto].
    + destruct (flt m0 d) eqn:Elt.
      * assert (Hd : d <> None) by (destruct d; [discriminate|destruct m0; discriminate]).
        destruct (IH d Hd) as [I1 [I2 [I3 I4]]]. cbv zeta in *. split; [exact I1|]. split.
        { destruct I2 as [I2|[I2 I2']]; [right; rewrite I2; split; [left; auto|auto]|right; split; [right; auto|auto]]. }
        split.
        { destruct d as [x|]; [|congruence]. destruct m0 as [y|]; [|congruence].
          cbn in Elt. apply Z.ltb_lt in Elt. destruct (fold_left _ _ _) as [z|]; cbn in *; [lia|contradiction]. }
        intros d' [<-|Hd'] Hf Hn; [exact I3|apply I4; auto].
      * destruct (IH m0 Hm) as [I1 [I2 [I3 I4]]]. cbv zeta in *. split; [exact I1|]. split.
        { destruct I2 as [I2|[I2 I2']]; [left; auto|right; split; [right; auto|auto]]. }
        split; [exact I3|]. intros d' [<-|Hd'] Hf Hn; [|apply I4; auto].
        destruct d as [x|]; [|congruence]. destruct m0 as [y|]; [|congruence].
        cbn in Elt. apply Z.ltb_ge in Elt. destruct (fold_left _ _ _) as [z|]; cbn in *; [lia|contradiction].
Qed.

Lemma min_spec (a : arr elev) M : well_formed a ->
  exists m, min_val feq flt (Some M) a = Ok (Some m) /\ m <= M /\
    (m = M \/ (In (Some m) (a_data a) /\ feq (Some m) (a_nodata a) = false)) /\
    (forall z, In (Some z) (a_data a) -> feq (Some z) (a_nodata a) = false -> m <= z).
Proof.
  intros H. unfold min_val.
  rewrite (forM_fold_all a (fun d m => if feq d (a_nodata a) then m else if flt d m then d else m)) by auto.
  destruct (min_fold (a_nodata a) (a_data a) (Some M) ltac:(discriminate)) as [I1 [I2 [I3 I4]]]. cbv zeta in *.
  destruct (fold_left _ _ _) as [m|]; [|congruence]. exists m. split; [reflexivity|]. cbn in I3. split; [lia|].
  split; [destruct I2 as [I2|I2]; [left; congruence|right; exact I2]|].
  intros z Hz Hf. specialize (I4 _ Hz Hf ltac:(discriminate)). cbn in I4. lia.
Qed.

Lemma max_spec (a : arr elev) M : well_formed a ->
  exists m, max_val feq flt (Some M) a = Ok (Some m) /\ M <= m /\
    (m = M \/ (In (Some m) (a_data a) /\ feq (Some m) (a_nodata a) = false)) /\
    (forall z, In (Some z) (a_data a) -> feq (Some z) (a_nodata a) = false -> z <= m).
Proof.
  intros H. unfold max_val.
  rewrite (forM_fold_all a (fun d m => if feq d (a_nodata a) then m else if flt m d then d else m)) by auto.
  destruct (max_fold (a_nodata a) (a_data a) (Some M) ltac:(discriminate)) as [I1 [I2 [I3 I4]]]. cbv zeta in *.
  destruct (fold_left _ _ _) as [m|]; [|congruence]. exists m. split; [reflexivity|]. cbn in I3. split; [lia|].
  split; [destruct I2 as [I2|I2]; [left; congruence|right; exact I2]|].
  intros z Hz Hf. specialize (I4 _ Hz Hf ltac:(discriminate)). cbn in I4. lia.
Qed.

(** ** Counting *)
Lemma count_fold {A} (p : A -> bool) (l : list A) : forall c, 0 <= c -> c + Z.of_nat (length l) < 2 ^ 32 ->
  fold_left (fun c d => if p d then w32 (c + 1) else c) l c = c + Z.of_nat (length (filter p l)).
Proof.
  induction l as [|d l IH]; intros c Hc Hl; cbn [fold_left filter length] in *; [lia|].
  destruct (p d); cbn [length].
  - rewrite w32_id by lia. rewrite IH by lia. lia.
  - rewrite IH by lia. lia.
Qed.

Lemma countval_spec {A} (eqb : A -> A -> bool) (a : arr A) v : well_formed a ->
  countval eqb a v = Ok (Z.of_nat (length (filter (fun d => eqb d v) (a_data a)))).
Proof.
  intros H. unfold countval. rewrite (forM_fold_all a (fun d c => if eqb d v then w32 (c + 1) else c)) by auto.
  f_equal. rewrite count_fold; [lia|lia|]. rewrite (wf_len a H). pose proof (wf_small a H). pw. lia.
Qed.

Lemma countDataCells_spec {A} (eqb : A -> A -> bool) (a : arr A) : well_formed a ->
  countDataCells eqb a = Ok (Z.of_nat (length (filter (fun d => negb (eqb d (a_nodata a))) (a_data a)))).
Proof.
  intros H. unfold countDataCells.
  rewrite (forM_fold_all a (fun d c => if negb (eqb d (a_nodata a)) then w32 (c + 1) else c)) by auto.
  f_equal. rewrite (count_fold (fun d => negb (eqb d (a_nodata a)))); [lia|lia|]. rewrite (wf_len a H). pose proof (wf_small a H). pw. lia.
Qed.

Lemma filter_length_le {A} (p : A -> bool) l : (length (filter p l) <= length l)%nat.
Proof. induction l as [|a l IH]; simpl; [lia|]. destruct (p a); simpl; lia. Qed.

Lemma numDataCells_spec {A} (eqb : A -> A -> bool) (a : arr A) : well_formed a ->
  (a_ndc a = NO_I ->
    let c := Z.of_nat (length (filter (fun d => negb (eqb d (a_nodata a))) (a_data a))) in
    exists b, numDataCells eqb a = Ok (c, b) /\ a_ndc b = c /\ c <> NO_I /\
      a_w b = a_w a /\ a_h b = a_h a /\ a_data b = a_data a /\ a_nodata b = a_nodata a) /\
  (a_ndc a <> NO_I -> numDataCells eqb a = Ok (a_ndc a, a)).
Proof.
  intros H. unfold numDataCells. split; intros Hn.
  - rewrite Hn, Z.eqb_refl. rewrite countDataCells_spec by auto. cbn [bind]. eexists. split; [reflexivity|].
    cbn [a_ndc a_w a_h a_data a_nodata]. split; [reflexivity|]. split; [|auto].
    pose proof (filter_length_le (fun d => negb (eqb d (a_nodata a))) (a_data a)).
    pose proof (wf_len a H). pose proof (wf_small a H). unfold NO_I. pw. lia.
  - destruct (Z.eqb_spec (a_ndc a) NO_I); [contradiction|reflexivity].
Qed.

(** ** replace *)
Lemma replace_spec {A} (eqb : A -> A -> bool) (a : arr A) oldv newv : well_formed a ->
  exists b, replace eqb a oldv newv = Ok b /\ well_formed b /\ same_shape a b /\
    forall x y, cell b x y = option_map (fun d => if eqb d oldv then newv else d) (cell a x y).
Proof.
  intros H. unfold replace. rewrite size_ok by auto. cbn [bind]. set (f := fun d => if eqb d oldv then newv else d).
  destruct (forM_inv (fun done l => length l = length (a_data a) /\
      forall j, ix l j = if memZ j done then option_map f (ix (a_data a) j) else ix (a_data a) j)
     (fun i l => do d <- rd l i; if eqb d oldv then wr l i newv else Ok l) (zrange 0 (Z.to_nat (a_w a * a_h a)))) with (s := a_data a) as [l [E [L X]]].
  { intros done i rest l Es [L X].
    assert (Hi : 0 <= i < a_w a * a_h a) by (apply zr_In; rewrite Es; apply in_app_iff; right; left; auto).
    assert (Hnd : ~ In i done).
    { pose proof (zrange_NoDup 0 (Z.to_nat (a_w a * a_h a))) as ND. rewrite Es in ND. apply NoDup_remove_2 in ND.
      rewrite in_app_iff in ND. tauto. }
    assert (Hr : 0 <= i < Z.of_nat (length l)) by (rewrite L, (wf_len a H); auto).
    destruct (rd_in l i Hr) as [d [R I]]. rewrite R. cbn [bind]. pose proof (X i) as Xi.
    assert (Mi : memZ i done = false) by (apply memZ_false; auto). rewrite Mi, I in Xi.
    assert (M1 : forall j, memZ j (done ++ [i]) = memZ j done || (j =? i)).
    { intros j. unfold memZ. rewrite existsb_app. cbn. rewrite orb_false_r. reflexivity. }
    destruct (eqb d oldv) eqn:Ed.
    - destruct (wr_in l i newv Hr) as [l' [W [L' X']]]. exists l'. split; [exact W|]. split; [congruence|].
      intros j. rewrite X', M1. destruct (Z.eqb_spec j i) as [->|Hj].
      + rewrite orb_true_r. rewrite <- Xi. cbn. unfold f. rewrite Ed. reflexivity.
      + rewrite orb_false_r. apply X.
    - exists l. split; [reflexivity|]. split; [exact L|]. intros j. rewrite M1. destruct (Z.eqb_spec j i) as [->|Hj].
      + rewrite orb_true_r, <- Xi, I. cbn. unfold f. rewrite Ed. reflexivity.
      + rewrite orb_false_r. apply X. }
  { split; auto. }
  rewrite E. cbn [bind]. eexists. split; [reflexivity|]. split; [apply wf_with_data; auto|]. split; [apply same_with_data|].
  intros x y. destruct (inGrid (a_w a) (a_h a) x y) eqn:G.
  - apply inGrid_iff in G. rewrite !cell_ix by (cbn; lia). cbn [a_data with_data a_w]. rewrite X.
    assert (M : memZ (y * a_w a + x) (zrange 0 (Z.to_nat (a_w a * a_h a))) = true)
      by (apply memZ_iff; apply zr_In; apply idx_range; lia).
    rewrite M. reflexivity.
  - assert (G' : ~ (0 <= x < a_w a /\ 0 <= y < a_h a)) by (rewrite <- inGrid_iff; congruence).
    rewrite !cell_out by (cbn; auto). reflexivity.
Qed.

(** ** operator== *)
Lemma eq_loop {A} (eqb : A -> A -> bool) (s1 : list A) : forall p1 p2 s2 r, length p1 = length p2 -> length s1 = length s2 ->
  forM (zrange (Z.of_nat (length p1)) (length s1)) (fun i r => if negb r then Ok false else
      do x <- rd (p1 ++ s1) i; do y <- rd (p2 ++ s2) i; Ok (eqb x y)) r = Ok (r && forallb (fun q => eqb (fst q) (snd q)) (combine s1 s2)).
Proof.
  induction s1 as [|x s1 IH]; intros p1 p2 [|y s2] r HP HS; try discriminate; cbn [length zrange forM combine forallb].
  - rewrite andb_true_r. reflexivity.
  - assert (R1 : rd (p1 ++ x :: s1) (Z.of_nat (length p1)) = Ok x) by (apply rd_Ok; apply ix_app_mid).
    assert (R2 : rd (p2 ++ y :: s2) (Z.of_nat (length p1)) = Ok y) by (rewrite HP; apply rd_Ok; apply ix_app_mid).
    specialize (IH (p1 ++ [x]) (p2 ++ [y]) s2). rewrite !app_length in IH. cbn [length] in IH.
    rewrite <- !app_assoc in IH. cbn [app] in IH. replace (Z.of_nat (length p1) + 1) with (Z.of_nat (length p1 + 1)) by lia.
    rewrite R1. cbn [bind]. rewrite R2. cbn [bind fst snd]. destruct r; cbn [negb bind andb].
    + rewrite IH by (simpl in *; lia). reflexivity.
    + rewrite IH by (simpl in *; lia). reflexivity.
Qed.

Lemma combine_forall {A} (eqb : A -> A -> bool) (l1 l2 : list A) : length l1 = length l2 ->
  (forallb (fun q => eqb (fst q) (snd q)) (combine l1 l2) = true <->
   forall k x y, nth_error l1 k = Some x -> nth_error l2 k = Some y -> eqb x y = true).
Proof.
  revert l2; induction l1 as [|a l1 IH]; intros [|b l2] HL; try discriminate; cbn [combine forallb fst snd].
  - split; auto. intros _ [|k] x y; discriminate.
  - rewrite andb_true_iff, IH by (simpl in HL; lia). split.
    + intros [E H] [|k] x y; cbn [nth_error]; [intros [= <-] [= <-]; auto|eauto].
    + intros H. split; [apply (H 0%nat); reflexivity|]. intros k x y Hx Hy. apply (H (S k)); auto.
Qed.

Lemma arr_eq_spec {A} (eqb : A -> A -> bool) (a b : arr A) : well_formed a -> well_formed b ->
  exists r, arr_eq eqb a b = Ok r /\
    (r = true <-> a_w a = a_w b /\ a_h a = a_h b /\ eqb (a_nodata a) (a_nodata b) = true /\
       forall x y u v, cell a x y = Some u -> cell b x y = Some v -> eqb u v = true).
Proof.
  intros Ha Hb. unfold arr_eq. destruct (Z.eqb_spec (a_w a) (a_w b)) as [Ew|Ew]; cbn [negb orb].
  2:{ exists false. split; auto. split; [discriminate|tauto]. }
  destruct (Z.eqb_spec (a_h a) (a_h b)) as [Eh|Eh]; cbn [negb].
  2:{ exists false. split; auto. split; [discriminate|tauto]. }
  destruct (eqb (a_nodata a) (a_nodata b)) eqn:En; cbn [negb].
  2:{ exists false. split; auto. split; [discriminate|intros (_ & _ & C & _); discriminate]. }
  rewrite size_ok by auto. cbn [bind].
  assert (HL : length (a_data a) = length (a_data b)) by (pose proof (wf_len a Ha); pose proof (wf_len b Hb); rewrite Ew, Eh in *; lia).
  rewrite <- (wf_len b Hb), Nat2Z.id, <- HL. pose proof (eq_loop eqb (a_data a) [] [] (a_data b) true eq_refl HL) as Q.
  cbn [app length Z.of_nat] in Q. rewrite Q. eexists. split; [reflexivity|]. cbn [andb].
  rewrite combine_forall by auto. split.
  - intros H. split; [auto|]. split; [auto|]. split; [auto|]. intros x y u v Hu Hv.
    unfold cell in Hu, Hv. rewrite Ew, Eh in Hu. destruct (inGrid _ _ _ _); [|discriminate].
    eapply H; eauto.
  - intros (_ & _ & _ & H) k x y Hx Hy.
    assert (Hlt : (k < length (a_data a))%nat) by (apply nth_error_Some; congruence).
    pose proof (wf_len a Ha). pose proof (wf_w a Ha).
    destruct (idx_split (a_w a) (a_h a) (Z.of_nat k)) as [X [Y [HX [HY E]]]]; [lia|lia|].
    apply (H X Y).
    + rewrite cell_ix by auto. rewrite <- E. unfold ix. destruct (Z.ltb_spec (Z.of_nat k) 0); [lia|]. rewrite Nat2Z.id; auto.
    + rewrite cell_ix by lia. rewrite <- Ew, <- E. unfold ix. destruct (Z.ltb_spec (Z.of_nat k) 0); [lia|]. rewrite Nat2Z.id; auto.
Qed.
