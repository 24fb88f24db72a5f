From Coq Require Import ZArith List Lia Bool Permutation.
From Verif Require Import Base LRUModel LRUSpec.
Open Scope Z_scope.

Lemma filter_id (e : Z) l : ~ In e l -> filter (fun a => negb (a =? e)) l = l.
Proof.
  induction l as [|a l IH]; cbn; intros H; auto. destruct (Z.eqb_spec a e) as [->|]; [tauto|]. cbn. f_equal. auto.
Qed.
Lemma remove_first_filter e l : NoDup l -> remove_first e l = filter (fun a => negb (a =? e)) l.
Proof.
  induction 1 as [|a l Ha Hl IH]; cbn; auto. destruct (Z.eqb_spec a e) as [->|]; cbn.
  - symmetry. apply filter_id; auto.
  - f_equal; auto.
Qed.

(** [bound]: what the last item was. *)
Record LInv (s : lru) : Prop := {
  L_nodup : NoDup (l_cache s);
  L_perm : Permutation (l_visited s) (l_cache s);
  L_len : l_len s = Z.of_nat (length (l_cache s));
  L_cap : -1 <= l_maxlen s;
  L_last : forall x, In x (l_cache s) -> In (l_last s) (l_cache s) -> hd_error (l_cache s) = Some (l_last s) }.

Lemma existsb_In e l : existsb (Z.eqb e) l = true <-> In e l.
Proof. rewrite existsb_exists. split; [intros (x & H & E); apply Z.eqb_eq in E; subst; auto|intros H; exists e; split; auto; apply Z.eqb_refl]. Qed.

Lemma remove_first_perm e l : In e l -> Permutation l (e :: remove_first e l).
Proof.
  induction l as [|a l IH]; cbn; [tauto|]. destruct (Z.eqb_spec a e) as [->|Hn]; auto.
  intros [H|H]; [contradiction|]. eapply perm_trans; [apply perm_skip, IH; auto|]. apply perm_swap.
Qed.

Lemma LInv_insert s e : LInv s -> LInv (lru_insert e s).
Proof.
  intros [H1 H2 H3 H4 H5]. unfold lru_insert. destruct (Z.eqb_spec e (l_last s)) as [E|Hn]; [constructor; auto|].
  destruct (existsb (Z.eqb e) (l_visited s)) eqn:Ex.
  - apply existsb_In in Ex. assert (Hc : In e (l_cache s)) by (eapply Permutation_in; eauto).
    pose proof (remove_first_perm e _ Hc) as P. constructor; cbn [l_len l_maxlen l_last l_visited l_cache].
    + eapply Permutation_NoDup; eauto.
    + eapply perm_trans; eauto.
    + rewrite H3. f_equal. apply Permutation_length; auto.
    + auto.
    + auto.
  - assert (Hc : ~ In e (l_cache s)).
    { intros Hc. assert (In e (l_visited s)) by (eapply Permutation_in; [apply Permutation_sym|]; eauto).
      apply existsb_In in H. congruence. }
    constructor; cbn [l_len l_maxlen l_last l_visited l_cache length]; auto.
    + constructor; auto.
    + rewrite H3. lia.
Qed.

Lemma rev_cons_removelast {A} (l : list A) b r : rev l = b :: r -> l = rev r ++ [b] /\ removelast l = rev r.
Proof.
  intros H. assert (E : l = rev r ++ [b]) by (rewrite <- (rev_involutive l), H; reflexivity).
  split; auto. rewrite E. apply removelast_last.
Qed.

Lemma LInv_pop s : LInv s -> l_cache s <> [] -> exists s', lru_pop_back s = Some s' /\ LInv s' /\
  l_cache s' = removelast (l_cache s) /\ l_maxlen s' = l_maxlen s /\ l_last s' = l_last s /\ l_len s' = l_len s - 1.
Proof.
  intros [H1 H2 H3 H4 H5] Hne. unfold lru_pop_back. destruct (rev (l_cache s)) as [|b r] eqn:Er.
  { apply (f_equal (@rev Z)) in Er. rewrite rev_involutive in Er. contradiction. }
  destruct (rev_cons_removelast _ _ _ Er) as [E1 E2].
  eexists. split; [reflexivity|]. split; [|cbn; auto].
  assert (P : Permutation (l_cache s) (b :: rev r)).
  { rewrite E1. apply Permutation_sym. apply Permutation_cons_append. }
  constructor; cbn [l_len l_maxlen l_last l_visited l_cache].
  - apply (Permutation_NoDup P) in H1. inversion H1; auto.
  - assert (Hb : In b (l_visited s)).
    { eapply Permutation_in; [apply Permutation_sym, H2|]. rewrite E1. apply in_app_iff. cbn; auto. }
    eapply Permutation_cons_inv with (a := b). eapply perm_trans; [apply Permutation_sym, remove_first_perm; auto|].
    eapply perm_trans; eauto.
  - rewrite H3, E1, app_length. cbn. lia.
  - auto.
  - intros x Hx HL. assert (HL' : In (l_last s) (l_cache s)) by (rewrite E1; apply in_app_iff; auto).
    specialize (H5 _ HL' HL'). rewrite E1 in H5. destruct (rev r); [contradiction|]. cbn in *. auto.
Qed.

Lemma firstn_removelast2 {A} (l : list A) n : (n < length l)%nat -> firstn n (removelast l) = firstn n l.
Proof.
  intros H. destruct (exists_last (l:=l)) as (l' & a & E); [intros E; subst; cbn in H; lia|].
  subst. rewrite removelast_last. rewrite app_length in H. cbn in H.
  rewrite firstn_app. replace (n - length l')%nat with 0%nat by lia. cbn. rewrite app_nil_r. auto.
Qed.

Lemma prune_loop_ok f : forall s, LInv s -> 0 <= l_maxlen s -> (length (l_cache s) < f)%nat ->
  exists s', lru_prune_loop f s = Some s' /\ LInv s' /\ l_cache s' = firstn (Z.to_nat (l_maxlen s)) (l_cache s) /\
    l_maxlen s' = l_maxlen s /\ l_last s' = l_last s.
Proof.
  induction f as [|f IH]; intros s HI Hc Hf; [lia|].
  cbn [lru_prune_loop]. unfold lru_size. rewrite (L_len _ HI).
  destruct (Z.gtb_spec (Z.of_nat (length (l_cache s))) (l_maxlen s)).
  - destruct (LInv_pop s HI) as (s1 & -> & HI1 & Ec & Em & El & _).
    { intros E. rewrite E in *. cbn in *. lia. }
    assert (HL : (length (l_cache s1) = length (l_cache s) - 1)%nat).
    { rewrite Ec. destruct (exists_last (l:=l_cache s)) as (l' & a & E); [intros E; rewrite E in *; cbn in *; lia|].
      rewrite E, removelast_last, app_length. cbn. lia. }
    destruct (IH s1 HI1 ltac:(lia) ltac:(lia)) as (s' & -> & HI' & Ec' & Em' & El').
    exists s'. split; auto. split; auto. rewrite Ec', Em, Ec.
    split; [apply firstn_removelast2; lia|]. split; congruence.
  - exists s. split; [reflexivity|]. split; auto. rewrite firstn_all2 by lia. auto.
Qed.

Lemma LInv_prune s : LInv s -> exists s', lru_prune s = Some s' /\ LInv s' /\
  l_cache s' = (if l_maxlen s =? -1 then l_cache s else firstn (Z.to_nat (l_maxlen s)) (l_cache s)) /\
  l_maxlen s' = l_maxlen s /\ l_last s' = l_last s.
Proof.
  intros HI. unfold lru_prune. destruct (Z.eqb_spec (l_maxlen s) (-1)).
  - exists s; auto.
  - apply prune_loop_ok; auto. pose proof (L_cap _ HI). lia.
Qed.

(** Invariant along every history without undefined behaviour. *)
Definition cap_ok (o : lop) : Prop := match o with LSetCap n => -1 <= n | _ => True end.

Lemma lrun_inv l : forall s s', LInv s -> Forall cap_ok l -> lrun l s = Some s' -> LInv s'.
Proof.
  induction l as [|o l IH]; intros s s' HI HF E; cbn in E; [inversion E; subst; auto|].
  inversion HF; subst. destruct (lstep o s) as [s1|] eqn:E1; [|discriminate].
  apply (IH s1); auto. destruct o; cbn in E1.
  - inversion E1; subst. apply LInv_insert; auto.
  - destruct (LInv_pop s HI) as (s2 & E2 & HI2 & _).
    { intros En. unfold lru_pop_back in E1. rewrite En in E1. discriminate. }
    congruence.
  - destruct (LInv_prune s HI) as (s2 & E2 & HI2 & _). congruence.
  - inversion E1; subst. destruct HI. constructor; auto.
Qed.
Lemma LInv_new junk : LInv (lru_new junk).
Proof. constructor; cbn; auto; try lia; try constructor. Qed.

Theorem lru_invariants junk l s : Forall cap_ok l -> lrun l (lru_new junk) = Some s ->
  NoDup (l_cache s) /\ lru_size s = Z.of_nat (length (l_cache s)) /\
  (forall e, In e (l_visited s) <-> In e (l_cache s)) /\ 
  (exists s', lru_prune s = Some s' /\
    l_cache s' = (if lru_getCapacity s =? -1 then l_cache s else firstn (Z.to_nat (lru_getCapacity s)) (l_cache s)) /\
    (lru_getCapacity s <> -1 -> lru_size s' <= lru_getCapacity s)).
Proof.
  intros HF E. pose proof (lrun_inv _ _ _ (LInv_new junk) HF E) as HI.
  split; [apply HI|]. split; [apply HI|]. split.
  - intros e. pose proof (L_perm _ HI) as P. split; intros H; eapply Permutation_in; [exact P|auto|apply Permutation_sym; exact P|auto].
  - destruct (LInv_prune s HI) as (s' & E' & HI' & Ec & Em & _). exists s'. split; auto. split; auto.
    intros Hn. unfold lru_getCapacity in *. unfold lru_size. rewrite (L_len _ HI'), Ec.
    destruct (Z.eqb_spec (l_maxlen s) (-1)); [contradiction|]. rewrite firstn_length. pose proof (L_cap _ HI). lia.
Qed.

(** Agreement with the textbook LRU. *)
Lemma insert_ref s e : LInv s -> (e = l_last s -> hd_error (l_cache s) = Some e) ->
  l_cache (lru_insert e s) = e :: filter (fun a => negb (a =? e)) (l_cache s) /\
  l_maxlen (lru_insert e s) = l_maxlen s /\ l_last (lru_insert e s) = e.
Proof.
  intros HI HS. unfold lru_insert. destruct (Z.eqb_spec e (l_last s)) as [E|Hn].
  - split; [|auto]. specialize (HS E). destruct (l_cache s) as [|a l] eqn:Ec; [discriminate|].
    cbn in HS. inversion HS; subst a. cbn. rewrite Z.eqb_refl. cbn. f_equal. symmetry. apply filter_id.
    pose proof (L_nodup _ HI) as ND. rewrite Ec in ND. inversion ND; auto.
  - destruct (existsb (Z.eqb e) (l_visited s)) eqn:Ex; cbn; split; auto.
    + f_equal. apply remove_first_filter. apply HI.
    + f_equal. symmetry. apply filter_id. intros Hc.
      assert (H : In e (l_visited s)) by (eapply Permutation_in; [apply Permutation_sym, HI|auto]).
      apply existsb_In in H. congruence.
Qed.

Lemma lrun_ref l : forall s, LInv s -> sane l (l_last s) (mkR (l_cache s) (l_maxlen s)) ->
  exists s', lrun l s = Some s' /\ ref_run l (mkR (l_cache s) (l_maxlen s)) = mkR (l_cache s') (l_maxlen s') /\ LInv s'.
Proof.
  induction l as [|o l IH]; intros s HI HS; [exists s; auto|].
  destruct HS as [HS1 HS2]. cbn [lrun]. unfold ref_run. cbn [fold_left]. fold (ref_run l).
  destruct o as [e| | |n]; cbn [lstep ref_step r_list r_cap] in *.
  - destruct (insert_ref s e HI HS1) as (Ec & Em & El).
    pose proof (LInv_insert s e HI) as HI'. destruct (IH _ HI') as (s' & E' & Er & HI2).
    { rewrite Ec, Em, El. auto. }
    exists s'. split; auto. split; auto. rewrite <- Er, Ec, Em. auto.
  - destruct (LInv_pop s HI HS1) as (s1 & -> & HI1 & Ec & Em & El & _).
    destruct (IH _ HI1) as (s' & E' & Er & HI2); [rewrite Ec, Em, El; auto|].
    exists s'. split; auto. split; auto. rewrite <- Er, Ec, Em. auto.
  - destruct (LInv_prune s HI) as (s1 & -> & HI1 & Ec & Em & El).
    destruct (IH _ HI1) as (s' & E' & Er & HI2); [rewrite Ec, Em, El; auto|].
    exists s'. split; auto. split; auto. rewrite <- Er, Ec, Em. auto.
  - assert (HI1 : LInv (lru_setCapacity n s)) by (destruct HI; constructor; auto).
    destruct (IH _ HI1) as (s' & E' & Er & HI2); auto. exists s'. auto.
Qed.

Theorem lru_textbook junk l : sane l junk (mkR [] (-1)) ->
  exists s, lrun l (lru_new junk) = Some s /\ 
    l_cache s = r_list (ref_run l (mkR [] (-1))) /\ lru_size s = Z.of_nat (length (r_list (ref_run l (mkR [] (-1))))) /\
    (l_cache s <> [] -> lru_back s = Some (last (r_list (ref_run l (mkR [] (-1)))) 0)).
Proof.
  intros H. destruct (lrun_ref l (lru_new junk) (LInv_new junk) H) as (s & E & Er & HI).
  exists s. split; auto. cbn [lru_new l_cache l_maxlen] in Er. rewrite Er. cbn. split; auto. split; [apply HI|].
  intros Hne. unfold lru_back. destruct (rev (l_cache s)) as [|b r] eqn:Eb.
  - apply (f_equal (@rev Z)) in Eb. rewrite rev_involutive in Eb. contradiction.
  - destruct (rev_cons_removelast _ _ _ Eb) as [-> _]. rewrite last_last. auto.
Qed.

(** A history of insertions only, with or without repetitions. *)

Lemma firsts_filter e l : filter (fun a => negb (a =? e)) (firsts (filter (fun a => negb (a =? e)) l)) = filter (fun a => negb (a =? e)) (firsts l).
Proof.
  assert (C : forall (f g : Z -> bool) l, filter f (filter g l) = filter g (filter f l)).
  { intros f g. induction l0 as [|a l0 IH]; cbn; auto. destruct (f a) eqn:Ef, (g a) eqn:Eg; cbn; rewrite ?Ef, ?Eg, ?IH; auto. }
  assert (I : forall l0, filter (fun a => negb (a =? e)) (filter (fun b => negb (b =? e)) l0) = filter (fun a => negb (a =? e)) l0).
  { induction l0 as [|b l0 IH0]; cbn; auto. destruct (b =? e) eqn:Eb; cbn; auto. rewrite Eb. cbn. f_equal. auto. }
  induction l as [|a l IH]; [auto|]. cbn [filter firsts]. destruct (Z.eqb_spec a e) as [->|Hn]; cbn [negb].
  - rewrite IH, I. auto.
  - cbn [firsts filter]. destruct (Z.eqb_spec a e); [contradiction|]. cbn [negb]. f_equal. rewrite C, IH, C. auto.
Qed.

Lemma sane_inserts l : forall last r, (match l with [] => True | e :: _ => e = last -> hd_error (r_list r) = Some e end) ->
  sane (map LInsert l) last r.
Proof.
  induction l as [|e l IH]; intros last r H; cbn; auto. split; auto.
  apply IH. destruct l; auto. cbn. intros ->. auto.
Qed.
Lemma ref_inserts l : forall r, firsts (r_list r) = r_list r -> r_list (ref_run (map LInsert l) r) = firsts (rev l ++ r_list r).
Proof.
  induction l as [|e l IH]; intros r Hr; cbn; auto.
  unfold ref_run in *. cbn [fold_left map]. rewrite IH; cbn [ref_step r_list r_cap].
  - rewrite <- app_assoc. cbn [app].
    assert (G : forall p q q', firsts q = firsts q' -> firsts (p ++ q) = firsts (p ++ q')).
    { induction p as [|a p IHp]; cbn; intros q q' E; auto. f_equal. rewrite (IHp _ _ E). auto. }
    apply G. cbn [firsts]. f_equal. rewrite firsts_filter. auto.
  - cbn [firsts]. f_equal. rewrite firsts_filter, Hr. auto.
Qed.

Theorem lru_inserts junk l : hd_error l <> Some junk ->
  exists s, lrun (map LInsert l) (lru_new junk) = Some s /\ l_cache s = firsts (rev l).
Proof.
  intros H. destruct (lru_textbook junk (map LInsert l)) as (s & E & Ec & _).
  - apply sane_inserts. destruct l; auto. intros ->. cbn in H. congruence.
  - exists s. split; auto. rewrite Ec. rewrite ref_inserts; auto. cbn. rewrite app_nil_r. auto.
Qed.
