From Coq Require Import ZArith List Lia Bool Permutation.
From Verif Require Import Base Res ArrModel ArrSpec ArrProofs ArrProofs2 ArrProofs3 CacheModel CacheSpec CacheProofs
  LRUModel LRUSpec LRUProofs A2Model A2Spec A2Proofs.
Open Scope Z_scope.

Definition tid (G : geom) (tx ty : Z) : Z := ty * g_wt G + tx.
(** Tile [t] at (tx,ty) agrees with the big raster. *)
Section Meta.
Variable M : Z -> Z -> meta.
Definition tile_ok (E : env) (G : geom) (b : big) (s : a2) (tx ty : Z) (t : tile) : Prop :=
  t_null t = g_null G tx ty /\
  (if g_null G tx ty then a_nodata (t_arr t) = g_nullval G /\ a_w (t_arr t) = 0 /\ a_h (t_arr t) = 0
   else t_base t = m_base (M tx ty) /\ exists c0, stored E (M tx ty) (d_ro s) (d_flipH s) (d_flipV s) (d_fs s) (g_pw G) (g_ph G) (b_nd b tx ty) t c0 /\
          (d_ro s = true -> t_dsa t = false) /\ (t_dsa t = true -> is_val (e_k E) (t_sav t)) /\
          forall px py, in_cell G px py -> lazy_cells t c0 px py = b_val b (tx * g_pw G + px) (ty * g_ph G + py)).

Record Inv (E : env) (G : geom) (cap : Z) (b : big) (s : a2) : Prop := {
  I_wt : d_wt s = g_wt G; I_ht : d_ht s = g_ht G; I_qw : d_qw s = g_wt G;
  I_pw : d_ptw s = g_pw G; I_ph : d_pth s = g_ph G;
  I_quick : forall tx ty, in_tile G tx ty -> rd (d_quick s) (tid G tx ty) = Ok (g_null G tx ty);
  I_tiles : forall tx ty, in_tile G tx ty -> tile_ok E G b s tx ty (d_tiles s (tid G tx ty));
  I_lru : LInv (d_lru s);
  I_cap : l_maxlen (d_lru s) = cap;
  I_cache : forall i, In i (l_cache (d_lru s)) -> exists tx ty, in_tile G tx ty /\ i = tid G tx ty /\ g_null G tx ty = false /\
              t_loaded (d_tiles s i) = true;
  I_names : d_ro s = false -> forall tx ty tx' ty', in_tile G tx ty -> in_tile G tx' ty' ->
              g_null G tx ty = false -> g_null G tx' ty' = false ->
              t_file (d_tiles s (tid G tx ty)) = t_file (d_tiles s (tid G tx' ty')) -> tid G tx ty = tid G tx' ty' }.

Lemma tid_inj G tx ty tx' ty' : in_tile G tx ty -> in_tile G tx' ty' -> tid G tx ty = tid G tx' ty' -> tx = tx' /\ ty = ty'.
Proof. unfold in_tile, tid. intros [? ?] [? ?] Q. apply idx_inj in Q; auto. Qed.

(** What stays the same. *)
Definition same_frame (s s' : a2) : Prop :=
  d_wt s' = d_wt s /\ d_ht s' = d_ht s /\ d_quick s' = d_quick s /\ d_qw s' = d_qw s /\ d_tw s' = d_tw s /\ d_th s' = d_th s /\
  d_ptw s' = d_ptw s /\ d_pth s' = d_pth s /\ d_ro s' = d_ro s /\ d_flipH s' = d_flipH s /\ d_flipV s' = d_flipV s.

Lemma back_last (l : list Z) : l <> [] -> exists b r, rev l = b :: r /\ In b l /\ removelast l = rev r /\ l = rev r ++ [b].
Proof.
  intros H. destruct (rev l) as [|b r] eqn:Er.
  - apply (f_equal (@rev Z)) in Er. rewrite rev_involutive in Er. contradiction.
  - destruct (rev_cons_removelast _ _ _ Er) as [E1 E2]. exists b, r. split; [auto|]. split; [|auto].
    rewrite E1. apply in_app_iff. cbn; auto.
Qed.

Lemma evict_ok E G cap b s : env_ok E -> Inv E G cap b s -> cap <> 0 ->
  exists s1, evict E s = Ok s1 /\ Inv E G cap b s1 /\ same_frame s s1 /\
    (if lru_full (d_lru s)
     then exists v, lru_back (d_lru s) = Some v /\ l_cache (d_lru s1) = removelast (l_cache (d_lru s)) /\
            l_last (d_lru s1) = l_last (d_lru s) /\
            (forall j, t_loaded (d_tiles s1 j) = negb (j =? v) && t_loaded (d_tiles s j)) /\ d_evict s1 = d_evict s + 1
     else s1 = s).
Proof.
  intros HE I Hcap. unfold evict. destruct (lru_full (d_lru s)) eqn:Hf.
  2:{ exists s. split; [auto|]. split; [auto|]. split; [unfold same_frame; auto 20|auto]. }
  unfold lru_full in Hf. apply Z.eqb_eq in Hf. rewrite (I_cap _ _ _ _ _ I) in Hf.
  pose proof (I_lru _ _ _ _ _ I) as HL. pose proof (L_len _ HL) as HLen.
  assert (Hne : l_cache (d_lru s) <> []).
  { intros Z. rewrite Z in HLen. cbn in HLen. lia. }
  destruct (back_last _ Hne) as (v & r & Er & Hv & Rl & El).
  assert (Hback : lru_back (d_lru s) = Some v) by (unfold lru_back; rewrite Er; reflexivity).
  rewrite Hback. destruct (I_cache _ _ _ _ _ I v Hv) as (vx & vy & Hin & Hvi & Hnull & Hld).
  pose proof (I_tiles _ _ _ _ _ I vx vy Hin) as TV. unfold tile_ok in TV. rewrite Hnull, <- Hvi in TV.
  destruct TV as (TN & TB & c0 & St & T1 & T2 & T3).
  destruct (LInv_pop _ HL Hne) as (l1 & P1 & P2 & P3 & P4 & P5 & _).
  set (t := d_tiles s v) in *.
  (* the unloaded tile and the new file system *)
  assert (U : exists t' fs', (if d_ro s then Ok (clear t, d_fs s)
                  else do f <- saveToCache (e_k E) (t_ras t);
                       Ok (clear (with_flags t true (t_loaded t) (t_created t)),
                           fun n => if n =? t_file t then Some f else d_fs s n)) = Ok (t', fs') /\
      stored E (M vx vy) (d_ro s) (d_flipH s) (d_flipV s) fs' (g_pw G) (g_ph G) (b_nd b vx vy) (with_flags t' (t_fc t') false (t_created t')) c0 /\
      t_null t' = t_null t /\ (t_file t' = t_file t /\ t_base t' = t_base t) /\ t_dsa t' = t_dsa t /\ t_sav t' = t_sav t /\
      (forall n, n <> t_file t \/ d_ro s = true -> fs' n = d_fs s n)).
  { destruct (d_ro s) eqn:Hro.
    - exists (clear t), (d_fs s). split; [auto|]. split; [apply stored_unload_ro; auto|]. cbn. auto 10.
    - destruct (stored_unload_rw E _ _ _ _ _ _ _ _ _ HE St Hld) as (f & F1 & F2). rewrite F1. cbn [bind].
      eexists _, _. split; [reflexivity|]. split; [apply F2; rewrite Z.eqb_refl; reflexivity|].
      cbn. split; [auto|]. split; [auto|]. split; [auto|]. split; [auto|].
      intros n [Hn|Hn]; [|discriminate]. destruct (Z.eqb_spec n (t_file t)); [contradiction|auto]. }
  destruct U as (t' & fs' & Eu & Su & U1 & (U2 & UB) & U3 & U4 & U5). rewrite Eu. cbn [bind fst snd].
  cbn [d_lru upd_evict upd_tile]. rewrite P1. eexists. split; [reflexivity|].
  set (tv := with_flags t' (t_fc t') false (t_created t')) in *.
  assert (TF : t_file tv = t_file (d_tiles s v)) by exact U2.
  split; [|split; [unfold same_frame; cbn; auto 20|]].
  - constructor; cbn; try apply I.
    + intros tx ty Hxy. pose proof (I_tiles _ _ _ _ _ I tx ty Hxy) as TT. unfold tile_ok in TT |- *. cbn.
      destruct (Z.eqb_spec (tid G tx ty) v) as [Ev|Ev].
      * rewrite Hvi in Ev. destruct (tid_inj G tx ty vx vy Hxy Hin Ev). subst tx ty. rewrite Hnull.
        split; [cbn; congruence|]. split; [cbn; congruence|]. exists c0. split; [exact Su|]. unfold lazy_cells in *. cbn. rewrite U3, U4. auto.
      * destruct TT as [TN' TT]. split; [exact TN'|]. destruct (g_null G tx ty) eqn:Hn'; auto.
        destruct TT as (TB' & c1 & S1 & R1). split; [exact TB'|]. exists c1. split; [|exact R1]. eapply stored_fs; [|exact S1].
        apply U5. destruct (d_ro s) eqn:Hro; [auto|left]. intros Hfile. apply Ev. rewrite Hvi.
        apply (I_names _ _ _ _ _ I Hro); auto. rewrite <- Hvi. exact Hfile.
    + exact P2.
    + rewrite P4. apply I.
    + intros i Hi. rewrite P3, Rl in Hi. assert (Hi' : In i (l_cache (d_lru s))) by (rewrite El; apply in_app_iff; auto).
      destruct (I_cache _ _ _ _ _ I i Hi') as (tx & ty & J1 & J2 & J3 & J4). exists tx, ty. split; [auto|]. split; [auto|]. split; [auto|].
      destruct (Z.eqb_spec i v) as [->|]; auto. exfalso. pose proof (L_nodup _ HL) as ND. rewrite El in ND.
      apply NoDup_remove_2 in ND. rewrite app_nil_r in ND. contradiction.
    + intros Hro tx ty tx' ty' H1 H2 H3 H4 H5. apply (I_names _ _ _ _ _ I Hro); auto.
      destruct (Z.eqb_spec (tid G tx ty) v) as [Q1|Q1]; destruct (Z.eqb_spec (tid G tx' ty') v) as [Q2|Q2];
        rewrite ?Q1, ?Q2; congruence.
  - exists v. split; [auto|]. cbn. split; [exact P3|]. split; [exact P5|]. split; [|auto].
    intros j. destruct (Z.eqb_spec j v) as [->|]; reflexivity.
Qed.

Lemma insert_cache i l : In i (l_cache (lru_insert i l)) \/ l_last l = i.
Proof.
  unfold lru_insert. destruct (Z.eqb_spec i (l_last l)); [auto|]. left. destruct (existsb _ _); cbn; auto.
Qed.
Lemma insert_sub i l j : In j (l_cache (lru_insert i l)) -> j = i \/ In j (l_cache l).
Proof.
  unfold lru_insert. destruct (i =? l_last l); [auto|]. destruct (existsb _ _); cbn; intros [H|H]; auto.
  right. clear -H. induction (l_cache l) as [|a m IH]; cbn in *; [tauto|]. destruct (a =? i); cbn in *; tauto.
Qed.
Lemma insert_maxlen i l : l_maxlen (lru_insert i l) = l_maxlen l.
Proof. unfold lru_insert. destruct (i =? l_last l); [auto|]. destruct (existsb _ _); reflexivity. Qed.

(** A loaded tile with its pending setAll done. *)
Definition ready (E : env) (G : geom) (b : big) (s : a2) (tx ty : Z) : Prop :=
  let t := d_tiles s (tid G tx ty) in
  t_loaded t = true /\ t_dsa t = false /\ attrs E (M tx ty) (b_nd b tx ty) (t_ras t) /\
  holds (g_pw G) (g_ph G) (t_ras t) (fun px py => b_val b (tx * g_pw G + px) (ty * g_ph G + py)).

Lemma stored_cells E mt ro fh fv fs w h nd t c c' : (forall x y, 0 <= x < w -> 0 <= y < h -> c x y = c' x y) ->
  stored E mt ro fh fv fs w h nd t c -> stored E mt ro fh fv fs w h nd t c'.
Proof.
  intros H (A & V & S). split; [auto|]. split; [intros x y Hx Hy; rewrite <- H by auto; auto|].
  assert (HH : forall r, holds w h r c -> holds w h r c').
  { intros r (W & Ew & Eh & C). split; [auto|]. split; [auto|]. split; [auto|]. intros x y Hx Hy. rewrite <- H by auto. auto. }
  assert (HF : in_file E fh fv w h t c -> in_file E fh fv w h t c').
  { intros (F1 & F2 & cells & F3 & F4 & F5). split; [auto|]. split; [auto|]. exists cells. split; [auto|]. split; [auto|].
    intros x y Hx Hy. rewrite <- H by auto. auto. }
  destruct (t_loaded t).
  - destruct S as (S1 & S2 & S3). auto.
  - destruct S as (S1 & S2). split; auto. destruct (t_created t).
    + destruct ro; [tauto|]. destruct S2 as (F1 & r & f & F2 & F3 & F4 & F5). split; auto. exists r, f. auto 10.
    + destruct S2 as (F1 & F2 & F3 & F4). split; [auto|]. split; [auto|]. split; [auto|]. intros x y Hx Hy. rewrite <- H by auto. auto.
Qed.

(** Replacing the tile (tx,ty) by one that agrees with the big raster, and touching the LRU. *)
Lemma Inv_put E G cap b s tx ty t : Inv E G cap b s -> in_tile G tx ty -> g_null G tx ty = false ->
  tile_ok E G b s tx ty t -> t_file t = t_file (d_tiles s (tid G tx ty)) -> t_loaded t = true ->
  Inv E G cap b (upd_tile (upd_lru s (lru_insert (tid G tx ty) (d_lru s))) (tid G tx ty) t).
Proof.
  intros I Hin Hnull HT HF HLd. constructor; cbn; try apply I.
  - intros x y Hxy. destruct (Z.eqb_spec (tid G x y) (tid G tx ty)) as [Ev|Ev].
    + destruct (tid_inj G x y tx ty Hxy Hin Ev). subst x y. exact HT.
    + exact (I_tiles _ _ _ _ _ I x y Hxy).
  - apply LInv_insert. apply I.
  - rewrite insert_maxlen. apply I.
  - intros i Hi. apply insert_sub in Hi. destruct (Z.eqb_spec i (tid G tx ty)) as [Ei|Ei].
    + exists tx, ty. auto.
    + destruct Hi as [Hi|Hi]; [contradiction|]. exact (I_cache _ _ _ _ _ I i Hi).
  - intros Hro x y x' y' H1 H2 H3 H4 H5. apply (I_names _ _ _ _ _ I Hro); auto.
    destruct (Z.eqb_spec (tid G x y) (tid G tx ty)) as [Q1|Q1]; destruct (Z.eqb_spec (tid G x' y') (tid G tx ty)) as [Q2|Q2];
      rewrite ?Q1, ?Q2; congruence.
Qed.

(** Effect of an access on the LRU list and the set of tiles in memory. *)
Definition touched (s s' : a2) (i : Z) : Prop :=
  if t_loaded (d_tiles s i)
  then d_lru s' = lru_insert i (d_lru s) /\ (forall j, t_loaded (d_tiles s' j) = t_loaded (d_tiles s j)) /\ d_evict s' = d_evict s
  else if lru_full (d_lru s)
  then exists v l1, lru_back (d_lru s) = Some v /\ lru_pop_back (d_lru s) = Some l1 /\ d_lru s' = lru_insert i l1 /\
         (forall j, t_loaded (d_tiles s' j) = (j =? i) || (negb (j =? v) && t_loaded (d_tiles s j))) /\ d_evict s' = d_evict s + 1
  else d_lru s' = lru_insert i (d_lru s) /\ (forall j, t_loaded (d_tiles s' j) = (j =? i) || t_loaded (d_tiles s j)) /\
       d_evict s' = d_evict s.

Lemma evict_pop E G cap b s s1 : Inv E G cap b s -> evict E s = Ok s1 -> lru_full (d_lru s) = true ->
  lru_pop_back (d_lru s) = Some (d_lru s1).
Proof.
  intros I. unfold evict. intros H Hf. rewrite Hf in H. destruct (lru_back (d_lru s)); [|discriminate].
  destruct (d_ro s).
  - cbn [bind] in H. cbn [d_lru upd_evict upd_tile] in H. destruct (lru_pop_back (d_lru s)); [|discriminate].
    inversion H. reflexivity.
  - destruct (saveToCache (e_k E) (t_ras (d_tiles s z))); cbn [bind] in H; try discriminate.
    cbn [d_lru upd_evict upd_tile] in H. destruct (lru_pop_back (d_lru s)); [|discriminate].
    inversion H. reflexivity.
Qed.

Lemma loadTile_ok E G cap b s tx ty : env_ok E -> dims (g_pw G) (g_ph G) -> Inv E G cap b s -> cap <> 0 -> in_tile G tx ty ->
  exists s', loadTile E s tx ty = Ok s' /\ Inv E G cap b s' /\ same_frame s s' /\
    (if g_null G tx ty then s' = s else ready E G b s' tx ty /\ touched s s' (tid G tx ty) /\ d_evict s <= d_evict s' /\
       (d_evict s' = d_evict s -> forall j, j <> tid G tx ty -> d_tiles s' j = d_tiles s j)).
Proof.
  intros HE D I Hcap Hin. unfold loadTile, isNullTile.
  rewrite (I_qw _ _ _ _ _ I). change (ty * g_wt G + tx) with (tid G tx ty). rewrite (I_quick _ _ _ _ _ I tx ty Hin). cbn [bind].
  destruct (g_null G tx ty) eqn:Hnull.
  { exists s. split; [auto|]. split; [auto|]. split; [unfold same_frame; auto 20|auto]. }
  assert (Ht : tile_ix s tx ty = Ok (tid G tx ty)).
  { unfold tile_ix. rewrite (I_wt _ _ _ _ _ I), (I_ht _ _ _ _ _ I).
    replace (inGrid (g_wt G) (g_ht G) tx ty) with true by (symmetry; apply inGrid_iff; unfold in_tile in Hin; lia). reflexivity. }
  rewrite Ht. cbn [bind]. set (i := tid G tx ty) in *.
  assert (FIN : forall s1 t, Inv E G cap b s1 -> t_loaded t = true -> t_null t = g_null G tx ty ->
            t_file t = t_file (d_tiles s1 i) -> t_base t = m_base (M tx ty) ->
            (exists c0, stored E (M tx ty) (d_ro s1) (d_flipH s1) (d_flipV s1) (d_fs s1) (g_pw G) (g_ph G) (b_nd b tx ty) t c0 /\
              (d_ro s1 = true -> t_dsa t = false) /\ (t_dsa t = true -> is_val (e_k E) (t_sav t)) /\
              forall px py, in_cell G px py -> lazy_cells t c0 px py = b_val b (tx * g_pw G + px) (ty * g_ph G + py)) ->
            exists t3, lazySetAll t = Ok t3 /\
              let s' := upd_tile (upd_lru s1 (lru_insert i (d_lru s1))) i t3 in
              Inv E G cap b s' /\ ready E G b s' tx ty /\ t_loaded t3 = true).
  { intros s1 t I1 HL HN HF HB (c0 & S & S1 & S2 & S3).
    assert (LZ : exists t3, lazySetAll t = Ok t3 /\ t_loaded t3 = true /\ same_id t t3 /\ t_dsa t3 = false /\
       stored E (M tx ty) (d_ro s1) (d_flipH s1) (d_flipV s1) (d_fs s1) (g_pw G) (g_ph G) (b_nd b tx ty) t3 (lazy_cells t c0)).
    { destruct (d_ro s1) eqn:Hro.
      - exists t. specialize (S1 eq_refl). unfold lazySetAll, lazy_cells. rewrite S1. split; [auto|]. split; [auto|].
        split; [unfold same_id; auto|]. auto.
      - apply (stored_lazy E _ _ _ _ _ _ _ _ _ D S HL S2). }
    destruct LZ as (t3 & L1 & L2 & (L3 & L4 & L5) & L6 & L7). exists t3. split; [auto|]. cbn zeta.
    assert (L8 : stored E (M tx ty) (d_ro s1) (d_flipH s1) (d_flipV s1) (d_fs s1) (g_pw G) (g_ph G) (b_nd b tx ty) t3
                   (fun px py => b_val b (tx * g_pw G + px) (ty * g_ph G + py))).
    { eapply stored_cells; [|exact L7]. intros x y Hx Hy. apply S3. split; auto. }
    split; [|split; [|auto]].
    - apply Inv_put; auto; [|fold i; congruence]. unfold tile_ok. rewrite Hnull. split; [congruence|]. split; [congruence|]. eexists. split; [exact L8|].
      split; [auto|]. split; [congruence|]. unfold lazy_cells. rewrite L6. auto.
    - unfold ready. cbn. fold i. rewrite Z.eqb_refl. split; [auto|]. split; [auto|]. destruct L8 as (A & V & L8). split; [auto|].
      rewrite L2 in L8. apply L8. }
  pose proof (I_tiles _ _ _ _ _ I tx ty Hin) as TT. unfold tile_ok in TT. fold i in TT. rewrite Hnull in TT. destruct TT as [TN [TB TT]].
  destruct (t_loaded (d_tiles s i)) eqn:HL.
  - destruct (FIN s (d_tiles s i) I HL) as (t3 & L1 & L2 & L3 & L4); [congruence|auto|auto|exact TT|].
    rewrite L1. cbn [bind]. eexists. split; [reflexivity|]. split; [exact L2|]. split; [unfold same_frame; cbn; auto 20|].
    split; [exact L3|]. split; [unfold touched; rewrite HL; cbn; split; [auto|]; split; [|auto];
      intros j; destruct (Z.eqb_spec j i) as [->|]; auto; congruence|].
    cbn. split; [lia|]. intros _ j Hj. destruct (Z.eqb_spec j i); [contradiction|auto].
  - destruct (evict_ok E G cap b s HE I Hcap) as (s1 & E1 & I1 & F1 & EV). rewrite E1. cbn [bind].
    pose proof (I_tiles _ _ _ _ _ I1 tx ty Hin) as TT1. unfold tile_ok in TT1. fold i in TT1. rewrite Hnull in TT1.
    destruct TT1 as [TN1 [TB1 (c0 & S & S1 & S2 & S3)]].
    assert (HL1 : t_loaded (d_tiles s1 i) = false).
    { destruct (lru_full (d_lru s)).
      - destruct EV as (v & _ & _ & _ & Hl & _). rewrite Hl, HL, andb_false_r. reflexivity.
      - subst s1. exact HL. }
    destruct (stored_load E _ s1 _ _ _ _ _ HE D S HL1) as (t2 & Q1 & Q2 & (Q3 & Q4 & Q5) & Q6 & Q7 & Q8).
    unfold load_tile in Q1.
    set (m := (if t_created (d_tiles s1 i) then _ else _)) in Q1 |- *.
    destruct m as [t1| |] eqn:Em; cbn [bind] in Q1; try discriminate. inversion Q1. cbn [bind]. rewrite H0.
    destruct (FIN s1 t2 I1 Q2) as (t3 & L1 & L2 & L3 & L4); [congruence|congruence|congruence| |].
    { exists c0. split; [exact Q8|]. rewrite Q6, Q7. split; [auto|]. split; [auto|]. intros px py Hp. unfold lazy_cells in *. rewrite Q6, Q7. auto. }
    rewrite L1. cbn [bind]. eexists. split; [reflexivity|]. split; [exact L2|].
    split; [unfold same_frame in *; cbn; tauto|]. split; [exact L3|].
    split; [|cbn; destruct (lru_full (d_lru s)); [destruct EV as (v & V1 & V2 & V3 & V4 & V5); lia|subst s1; split; [lia|];
      intros _ j Hj; destruct (Z.eqb_spec j i); [contradiction|auto]]]. unfold touched. rewrite HL.
    destruct (lru_full (d_lru s)) eqn:Hfull.
    + pose proof (evict_pop _ _ _ _ _ _ I E1 Hfull) as HP. destruct EV as (v & V1 & V2 & V3 & V4 & V5).
      exists v, (d_lru s1). split; [auto|]. split; [auto|]. cbn. split; [auto|]. split; [|auto].
      intros j. destruct (Z.eqb_spec j i) as [->|]; [cbn; rewrite L4; reflexivity|apply V4].
    + subst s1. cbn. split; [auto|]. split; [|auto]. intros j. destruct (Z.eqb_spec j i) as [->|]; auto.
Qed.
End Meta.
