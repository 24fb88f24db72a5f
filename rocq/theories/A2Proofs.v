From Coq Require Import ZArith List Lia Bool Permutation.
From Verif Require Import Base Res ArrModel ArrSpec ArrProofs ArrProofs2 ArrProofs3 CacheModel CacheSpec CacheProofs
  LRUModel LRUSpec LRUProofs A2Model A2Spec.
Open Scope Z_scope.

(** Attributes of a tile's raster that are kept whether or not its cells are in memory. *)
Record meta := mkM { m_geo : list Z; m_proj : list Z; m_base : Z }.
Record attrs (E : env) (mt : meta) (nd : Z) (r : raster) : Prop := {
  at_m : r_geo r = m_geo mt /\ r_proj r = m_proj mt;
  at_x : is_int32 (r_xoff r); at_y : is_int32 (r_yoff r); at_n : 0 <= a_ndc (r_arr r) < 2 ^ 32;
  at_nd : a_nodata (r_arr r) = nd; at_ndr : is_val (e_k E) nd;
  at_geo : length (r_geo r) = 6%nat; at_geo_d : Forall (fun g => 0 <= g < 256 ^ 8) (r_geo r);
  at_proj : Forall is_byte (r_proj r); at_proj_len : Z.of_nat (length (r_proj r)) < 2 ^ 63;
  at_proj_max : Z.of_nat (length (r_proj r)) <= e_maxstr E;
  at_owned : a_owned (r_arr r) = true }.

Definition dims (w h : Z) : Prop := 1 <= w <= 2 ^ 31 - 3 /\ 1 <= h < 2 ^ 31 /\ w * h < 2 ^ 31.
(** The raster is in memory with cells [c]. *)
Definition holds (w h : Z) (r : raster) (c : Z -> Z -> Z) : Prop :=
  well_formed (r_arr r) /\ a_w (r_arr r) = w /\ a_h (r_arr r) = h /\
  forall x y, 0 <= x < w -> 0 <= y < h -> cell (r_arr r) x y = Some (c x y).
Definition vals (E : env) (w h : Z) (c : Z -> Z -> Z) : Prop := forall x y, 0 <= x < w -> 0 <= y < h -> is_val (e_k E) (c x y).

Lemma holds_rep E mt w h nd r c : env_ok E -> attrs E mt nd r -> holds w h r c -> vals E w h c -> representable (e_k E) r.
Proof.
  intros HE [A0 A1 A2 A3 A4 A5 A6 A7 A8 A9 A10 A11] (W & Ew & Eh & C) V. constructor; auto.
  - apply HE.
  - rewrite A4. exact A5.
  - rewrite Forall_forall. intros d Hd. apply (data_cells _ d W) in Hd. destruct Hd as (x & y & Hx & Hy & Hc).
    rewrite Ew in Hx. rewrite Eh in Hy. rewrite C in Hc by auto. inversion Hc. subst d. apply V; auto.
Qed.

(** The input file of a read-only tile contains [c] (after turning). *)
Definition in_file (E : env) (fh fv : bool) (w h : Z) (t : tile) (c : Z -> Z -> Z) : Prop :=
  t_fc t = false /\ xorb (d_neg (nth 1 (r_geo (t_ras t)) 0)) fh = false /\
  exists cells, e_gdal E (t_file t) = Some cells /\ Z.of_nat (length cells) = w * h /\
    forall x y, 0 <= x < w -> 0 <= y < h ->
      c x y = file_cell w h (xorb (d_pos (nth 5 (r_geo (t_ras t)) 0)) fv) cells x y.
(** The cache file contains a raster with cells [c]. *)
Definition in_cache (E : env) (mt : meta) (fs : Z -> option (list Z)) (w h nd : Z) (t : tile) (c : Z -> Z -> Z) : Prop :=
  t_fc t = true /\ exists r f, fs (t_file t) = Some f /\ saveToCache (e_k E) r = Ok f /\ attrs E mt nd r /\ holds w h r c.

(** Tile [t] stands for the cells [c], before a pending setAll. *)
Definition stored (E : env) (mt : meta) (ro fh fv : bool) (fs : Z -> option (list Z)) (w h nd : Z) (t : tile) (c : Z -> Z -> Z) : Prop :=
  attrs E mt nd (t_ras t) /\ vals E w h c /\
  if t_loaded t then t_created t = true /\ holds w h (t_ras t) c /\ (ro = true -> in_file E fh fv w h t c)
  else a_data (t_arr t) = [] /\
    if t_created t
    then if ro then a_w (t_arr t) = w /\ a_h (t_arr t) = h /\ in_file E fh fv w h t c
         else in_cache E mt fs w h nd t c
    else ro = false /\ t_cw t = w /\ t_ch t = h /\ forall x y, 0 <= x < w -> 0 <= y < h -> c x y = 0.

Definition same_id (t t' : tile) : Prop :=
  t_file t' = t_file t /\ t_base t' = t_base t /\ t_null t' = t_null t.

(** Loading (A2Array2D.hpp:133-150). *)
Definition load_tile (E : env) (s1 : a2) (t : tile) : res tile :=
  do t1 <- (if t_created t
              then do u <- tile_loadData E (d_fs s1) t; if d_ro s1 then reorient s1 u else Ok u
              else do b <- (if negb (t_cw t =? -1) && negb (t_ch t =? -1)
                            then resize (e_junk E) (t_arr t) (t_cw t) (t_ch t) 0
                            else resize (e_junk E) (t_arr t) (d_ptw s1) (d_pth s1) 0);
                   Ok (with_flags (with_ras t (with_arr (t_ras t) b)) (t_fc t) (t_loaded t) true));
  Ok (with_flags t1 (t_fc t1) true (t_created t1)).

Lemma attrs_with_arr E mt nd r a : attrs E mt nd r -> a_ndc a = a_ndc (r_arr r) -> a_nodata a = a_nodata (r_arr r) ->
  a_owned a = true -> attrs E mt nd (with_arr r a).
Proof. intros [] H1 H2 H3. constructor; cbn; auto; [rewrite H1; auto|congruence]. Qed.

Lemma file_nth (l : list Z) i : 0 <= i -> i < Z.of_nat (length l) -> ix l i = Some (nth (Z.to_nat i) l 0).
Proof.
  intros H1 H2. unfold ix. destruct (Z.ltb_spec i 0); [lia|]. apply nth_error_nth'. lia.
Qed.

Lemma rd_nth (l : list Z) i : 0 <= i < Z.of_nat (length l) -> rd l i = Ok (nth (Z.to_nat i) l 0).
Proof. intros H. apply rd_Ok. apply file_nth; auto; lia. Qed.

Lemma stored_load E mt s w h nd t c : env_ok E -> dims w h ->
  stored E mt (d_ro s) (d_flipH s) (d_flipV s) (d_fs s) w h nd t c -> t_loaded t = false ->
  exists t', load_tile E s t = Ok t' /\ t_loaded t' = true /\ same_id t t' /\ t_dsa t' = t_dsa t /\ t_sav t' = t_sav t /\
    stored E mt (d_ro s) (d_flipH s) (d_flipV s) (d_fs s) w h nd t' c.
Proof.
  intros HE (Dw & Dh & Ds) (A & V & S) HL. rewrite HL in S. destruct S as [Hd S]. unfold load_tile.
  destruct (t_created t) eqn:Hc.
  - unfold tile_loadData. rewrite Hd. destruct (d_ro s) eqn:Hro.
    + destruct S as (Ew & Eh & F). pose proof F as (F1 & F2 & cells & F3 & F4 & F5). rewrite F1, F3.
      destruct (resize_spec (e_junk E) (t_arr t) (a_w (t_arr t)) (a_h (t_arr t)) 0) as (b & Eb & Wb & Bw & Bh & Bn & Bc & Bo & _);
        try (rewrite ?Ew, ?Eh; lia). { apply HE. } { left. apply A. }
      rewrite Eb. cbn [bind]. pose proof (wf_len b Wb) as Lb. rewrite Bw, Bh, Ew, Eh in Lb.
      assert (Ln : length cells = length (a_data b)) by lia. rewrite Ln, Nat.eqb_refl. cbn [bind].
      set (a1 := with_data b cells). set (t1 := with_ras t (with_arr (t_ras t) a1)).
      assert (W1 : well_formed a1) by (apply wf_with_data; auto).
      assert (C1 : forall x y, 0 <= x < w -> 0 <= y < h -> cell a1 x y = Some (nth (Z.to_nat (y * w + x)) cells 0)).
      { intros x y Hx Hy. rewrite cell_ix by (cbn; lia). cbn [a_data a1 with_data a_w]. rewrite Bw, Ew.
        apply file_nth; nia. }
      assert (At1 : attrs E mt nd (t_ras t1)).
      { cbn. apply attrs_with_arr; cbn; auto. rewrite Bo. apply A. }
      pose proof (at_geo _ _ _ _ A) as G6.
      unfold reorient. cbn [t_ras t1 with_ras with_arr r_geo]. rewrite (rd_nth _ 1) by lia. cbn [bind].
      change (Z.to_nat 1) with 1%nat. rewrite F2. cbn [bind]. cbn [t_ras t1 with_ras with_arr r_geo].
      rewrite (rd_nth _ 5) by lia. cbn [bind]. change (Z.to_nat 5) with 5%nat.
      destruct (xorb (d_pos (nth 5 (r_geo (t_ras t)) 0)) (d_flipV s)) eqn:Fv.
      * destruct (flipVert_spec a1 W1) as (a2' & E2 & W2 & Sh2 & C2).
        cbn [t_arr t_ras t1 with_ras with_arr r_arr]. rewrite E2. cbn [bind].
        destruct Sh2 as (S1 & S2 & S3 & S4 & S5 & S6). cbn in S1, S2, S3, S4, S6.
        eexists. split; [reflexivity|]. cbn. split; [auto|]. split; [unfold same_id; cbn; auto|]. split; [auto|]. split; [auto|].
        unfold stored. cbn. split; [apply attrs_with_arr; cbn; try congruence; [apply attrs_with_arr; cbn; auto; rewrite Bo; apply A|rewrite S6, Bo; apply A]|].
        split; [auto|]. split; [auto|]. split.
        -- split; [auto|]. cbn. split; [congruence|]. split; [congruence|]. intros x y Hx Hy.
           rewrite C2 by (cbn; lia). cbn [a_h a1 with_data]. rewrite Bh, Eh, C1 by lia. f_equal.
           rewrite F5 by auto. unfold file_cell. reflexivity.
        -- intros _. unfold in_file. cbn. split; [auto|]. split; [auto|]. exists cells. split; [auto|]. split; [auto|].
           rewrite Fv. auto.
      * eexists. split; [reflexivity|]. cbn. split; [auto|]. split; [unfold same_id; cbn; auto|]. split; [auto|]. split; [auto|].
        unfold stored. cbn. split; [exact At1|].
        split; [auto|]. split; [auto|]. split.
        -- split; [auto|]. cbn. split; [congruence|]. split; [congruence|]. intros x y Hx Hy.
           rewrite C1 by lia. f_equal. rewrite F5 by auto. unfold file_cell. reflexivity.
        -- intros _. unfold in_file. cbn. split; [auto|]. split; [auto|]. exists cells. split; [auto|]. split; [auto|].
           rewrite Fv. auto.
    + destruct S as (F1 & r & f & F2 & F3 & F4 & F5). rewrite F1, F2.
      destruct (roundtrip (e_k E) (e_junk E) (e_junk8 E) (e_maxstr E) (t_ras t) r) as (f' & E1 & E2).
      { eapply holds_rep; eauto. } { apply F4. } { apply HE. } { apply HE. } { apply F4. } { apply A. } { exact Hd. }
      assert (f' = f) by congruence. subst f'. rewrite E2. cbn [bind].
      eexists. split; [reflexivity|]. cbn. split; [auto|]. split; [unfold same_id; cbn; auto|]. split; [auto|]. split; [auto|].
      unfold stored. cbn. split; [auto|]. split; [auto|]. split; [auto|]. split; [auto|discriminate].
  - destruct S as (Hro & Ew & Eh & C0). rewrite Ew, Eh.
    destruct (Z.eqb_spec w (-1)); [lia|]. destruct (Z.eqb_spec h (-1)); [lia|]. cbn [negb andb].
    destruct (resize_spec (e_junk E) (t_arr t) w h 0) as (b & Eb & Wb & Bw & Bh & Bn & Bc & Bo & Cb); try lia.
    { apply HE. } { left. apply A. }
    rewrite Eb. cbn [bind]. eexists. split; [reflexivity|]. cbn. split; [auto|]. split; [unfold same_id; cbn; auto|].
    split; [auto|]. split; [auto|]. unfold stored. cbn. split; [apply attrs_with_arr; auto; rewrite Bo; apply A|].
    split; [auto|]. split; [auto|]. split; [|congruence]. split; [auto|]. cbn. split; [auto|]. split; [auto|].
    intros x y Hx Hy. rewrite C0 by auto. auto.
Qed.

(** The pending setAll. *)
Definition lazy_cells (t : tile) (c0 : Z -> Z -> Z) : Z -> Z -> Z := if t_dsa t then fun _ _ => t_sav t else c0.
Lemma stored_lazy E mt fh fv fs w h nd t c0 : dims w h -> stored E mt false fh fv fs w h nd t c0 -> t_loaded t = true ->
  (t_dsa t = true -> is_val (e_k E) (t_sav t)) ->
  exists t', lazySetAll t = Ok t' /\ t_loaded t' = true /\ same_id t t' /\ t_dsa t' = false /\
    stored E mt false fh fv fs w h nd t' (lazy_cells t c0).
Proof.
  intros D (A & V & S) HL Hs. rewrite HL in S. destruct S as (Hc & (W & Ew & Eh & C) & _).
  unfold lazySetAll, lazy_cells. destruct (t_dsa t) eqn:Hd.
  - destruct (setAll_spec (t_arr t) (t_sav t) W) as (b & Eb & Wb & (S1 & S2 & S3 & S4 & S5 & S6) & Cb).
    rewrite Eb. cbn [bind]. eexists. split; [reflexivity|]. cbn. split; [auto|]. split; [unfold same_id; cbn; auto|]. split; [auto|].
    unfold stored. cbn. rewrite HL. split; [apply attrs_with_arr; auto; rewrite S6; apply A|]. split; [intros x y _ _; auto|].
    split; [auto|]. split; [|discriminate]. split; [auto|]. cbn. unfold t_arr in *. split; [congruence|]. split; [congruence|].
    intros x y Hx Hy. apply Cb; lia.
  - exists t. split; [auto|]. split; [auto|]. split; [unfold same_id; auto|]. split; [auto|].
    unfold stored. rewrite HL. split; [auto|]. split; [auto|]. split; [auto|]. split; [|discriminate]. split; auto.
Qed.

(** Unloading (A2Array2D.hpp:119-128). *)
Lemma attrs_clear E mt nd t : attrs E mt nd (t_ras t) -> attrs E mt nd (t_ras (clear t)).
Proof. intros H. cbn. apply attrs_with_arr; auto. Qed.

Lemma stored_unload_ro E mt fh fv fs w h nd t c : stored E mt true fh fv fs w h nd t c -> t_loaded t = true ->
  stored E mt true fh fv fs w h nd (with_flags (clear t) (t_fc (clear t)) false (t_created (clear t))) c.
Proof.
  intros (A & V & S) HL. rewrite HL in S. destruct S as (Hc & (W & Ew & Eh & C) & F). specialize (F eq_refl).
  unfold stored. cbn. rewrite Hc. split; [apply (attrs_clear E mt nd t A)|]. split; [auto|]. split; [auto|]. split; [auto|]. split; [auto|]. exact F.
Qed.

Lemma stored_unload_rw E mt fh fv fs w h nd t c : env_ok E -> stored E mt false fh fv fs w h nd t c -> t_loaded t = true ->
  exists f, saveToCache (e_k E) (t_ras t) = Ok f /\
    forall fs', fs' (t_file t) = Some f ->
    let t' := clear (with_flags t true (t_loaded t) (t_created t)) in
    stored E mt false fh fv fs' w h nd (with_flags t' (t_fc t') false (t_created t')) c.
Proof.
  intros HE (A & V & S) HL. rewrite HL in S. destruct S as (Hc & Hh & _).
  pose proof (holds_rep E mt w h nd _ c HE A Hh V) as R.
  destruct (roundtrip (e_k E) (e_junk E) (e_junk8 E) (e_maxstr E) (t_ras (clear t)) (t_ras t)) as (f & E1 & _); auto;
    try apply HE; try apply A.
  exists f. split; [exact E1|]. intros fs' Hf. unfold stored. cbn. rewrite Hc.
  split; [apply (attrs_clear E mt nd t A)|]. split; [auto|]. split; [auto|].
  unfold in_cache. cbn. split; [auto|]. exists (t_ras t), f. auto.
Qed.

(** Other cache files do not matter. *)
Lemma stored_fs E mt ro fh fv fs fs' w h nd t c : fs' (t_file t) = fs (t_file t) ->
  stored E mt ro fh fv fs w h nd t c -> stored E mt ro fh fv fs' w h nd t c.
Proof.
  intros Hf (A & V & S). split; [auto|]. split; [auto|]. destruct (t_loaded t); auto. destruct S as [S1 S2]. split; auto.
  destruct (t_created t); auto. destruct ro; auto. destruct S2 as (F1 & r & f & F2 & F3). split; auto. exists r, f. rewrite Hf. auto.
Qed.
