From Coq Require Import ZArith List Lia Bool Permutation.
From Verif Require Import Base Res ArrModel ArrSpec ArrProofs ArrProofs2 ArrProofs3 CacheModel CacheSpec CacheProofs
  LRUModel LRUSpec LRUProofs A2Model A2Spec A2Proofs A2Proofs2 A2Proofs3 A2Proofs4.
Open Scope Z_scope.

Lemma prod_NoDup {A B} (l : list A) (m : list B) : NoDup l -> NoDup m -> NoDup (list_prod l m).
Proof.
  intros Hl Hm. induction Hl as [|a l Ha Hl IH]; cbn; [constructor|]. apply NoDup_app_disj; auto.
  - apply FinFun.Injective_map_NoDup; auto. intros x y [= Q]. exact Q.
  - intros [x y] H1 H2. apply in_map_iff in H1. destruct H1 as (q & [= <- _] & _). apply in_prod_iff in H2. tauto.
Qed.

Section Save.
Variable M : Z -> Z -> meta.

Lemma tilelist_In E G cap b s p : Inv M E G cap b s -> In p (tilelist s) <-> in_tile G (snd p) (fst p).
Proof.
  intros I. unfold tilelist, in_tile. rewrite (I_wt _ _ _ _ _ _ I), (I_ht _ _ _ _ _ _ I). destruct p as [y x].
  rewrite in_prod_iff, !zrange_In. cbn. lia.
Qed.

(** The NoData value of a tile, existing or not. *)
Definition tile_nd (G : geom) (b : big) (tx ty : Z) : Z := if g_null G tx ty then g_nullval G else b_nd b tx ty.
Lemma tile_nd_ok E G cap b s tx ty : Inv M E G cap b s -> in_tile G tx ty ->
  a_nodata (t_arr (d_tiles s (tid G tx ty))) = tile_nd G b tx ty.
Proof.
  intros I Hin. pose proof (I_tiles _ _ _ _ _ _ I tx ty Hin) as [_ T]. unfold tile_nd. destruct (g_null G tx ty).
  - apply T.
  - destruct T as (_ & c0 & (A & _) & _). apply A.
Qed.
Lemma tile_null_ok E G cap b s tx ty : Inv M E G cap b s -> in_tile G tx ty -> t_null (d_tiles s (tid G tx ty)) = g_null G tx ty.
Proof. intros I Hin. apply (I_tiles _ _ _ _ _ _ I tx ty Hin). Qed.

Definition check (E : env) (s : a2) (nd : Z) : res unit :=
  forM (tilelist s) (fun p (_ : unit) =>
            do i <- tile_ix s (snd p) (fst p);
            if e_eqb E (a_nodata (t_arr (d_tiles s i))) nd then Ok tt else Thrown) tt.

Lemma check_ok E G cap b s nd : Inv M E G cap b s ->
  (forall tx ty, in_tile G tx ty -> e_eqb E (tile_nd G b tx ty) nd = true) -> check E s nd = Ok tt.
Proof.
  intros I H. destruct (forM_inv (fun _ (_ : unit) => True) (fun p (_ : unit) =>
            do i <- tile_ix s (snd p) (fst p);
            if e_eqb E (a_nodata (t_arr (d_tiles s i))) nd then Ok tt else Thrown) (tilelist s)) with (s := tt) as (u & Hu & _); auto.
  - intros done p rest u Hs _. assert (Hin : In p (tilelist s)) by (rewrite Hs; apply in_app_iff; right; left; auto).
    apply (tilelist_In E G cap b s p I) in Hin. rewrite (tile_ix_ok _ _ _ _ _ _ _ _ I Hin). cbn [bind].
    rewrite (tile_nd_ok _ _ _ _ _ _ _ I Hin), H by auto. eauto.
  - unfold check. rewrite Hu. destruct u. reflexivity.
Qed.
Lemma check_bad E G cap b s nd : Inv M E G cap b s ->
  (exists tx ty, in_tile G tx ty /\ e_eqb E (tile_nd G b tx ty) nd = false) -> check E s nd = Thrown.
Proof.
  intros I (tx & ty & Hin & Hb). unfold check.
  assert (HI : In (ty, tx) (tilelist s)) by (apply (tilelist_In E G cap b s _ I); auto).
  assert (HA : forall p, In p (tilelist s) -> in_tile G (snd p) (fst p)) by (intros p Hp; apply (tilelist_In E G cap b s _ I); auto).
  revert HI HA. generalize (tilelist s) as l. induction l as [|p l IH]; intros HI HA; [destruct HI|].
  cbn [forM]. rewrite (tile_ix_ok _ _ _ _ _ _ _ _ I (HA p (or_introl eq_refl))). cbn [bind].
  rewrite (tile_nd_ok _ _ _ _ _ _ _ I (HA p (or_introl eq_refl))). destruct HI as [->|HI].
  - cbn [fst snd]. rewrite Hb. reflexivity.
  - destruct (e_eqb E (tile_nd G b (snd p) (fst p)) nd); [|reflexivity]. cbn [bind]. apply IH; auto. intros q Hq. apply HA. right; auto.
Qed.

(** The big raster as a file: missing tiles filled with [nd]. *)
Definition picture (G : geom) (b : big) (nd x y : Z) : Z := if missing G x y then nd else b_val b x y.

Lemma saveUnified_ok E G cap b s : env_ok E -> dims (g_pw G) (g_ph G) -> Inv M E G cap b s -> cap <> 0 -> in_tile G 0 0 ->
  g_null G 0 0 = false -> (forall tx ty, in_tile G tx ty -> e_eqb E (tile_nd G b tx ty) (b_nd b 0 0) = true) ->
  exists out s', saveUnifiedGDAL E s = Ok (out, b_nd b 0 0, m_geo (M 0 0), s') /\ Inv M E G cap b s' /\ same_frame s s' /\
    forall x y, in_big G x y -> out x y = picture G b (b_nd b 0 0) x y.
Proof.
  intros HE D I Hc H00 Hn H. unfold saveUnifiedGDAL. rewrite (tile_ix_ok _ _ _ _ _ _ _ _ I H00). cbn [bind].
  pose proof (tile_nd_ok _ _ _ _ _ _ _ I H00) as N0. unfold tile_nd in N0. rewrite Hn in N0. rewrite N0.
  change (forM (tilelist s) (fun p (_ : unit) => _) tt) with (check E s (b_nd b 0 0)). rewrite (check_ok E G cap b s _ I H). cbn [bind].
  assert (GE : r_geo (t_ras (d_tiles s (tid G 0 0))) = m_geo (M 0 0) /\ length (r_geo (t_ras (d_tiles s (tid G 0 0)))) = 6%nat).
  { pose proof (I_tiles _ _ _ _ _ _ I 0 0 H00) as [_ T]. rewrite Hn in T. destruct T as (_ & c0 & (A & _) & _). destruct A. split; [apply at_m|auto]. }
  destruct GE as [GE GL]. rewrite GL. cbn [Nat.eqb negb]. rewrite GE.
  destruct (forM_inv (fun done (os : (Z -> Z -> Z) * a2) => Inv M E G cap b (snd os) /\ same_frame s (snd os) /\
      forall x y, in_big G x y -> fst os x y = if existsb (fun p => (fst p =? y / g_ph G) && (snd p =? x / g_pw G)) done
                                               then picture G b (b_nd b 0 0) x y else b_nd b 0 0)
     (fun p (os : (Z -> Z -> Z) * a2) =>
            let '(out, s) := os in
            do i <- tile_ix s (snd p) (fst p);
            if t_null (d_tiles s i) then Ok (out, s) else
            do s1 <- loadTile E s (snd p) (fst p);
            do out' <- blit out (snd p * d_ptw s1) (fst p * d_pth s1) (t_arr (d_tiles s1 i));
            Ok (out', s1)) (tilelist s)) with (s := ((fun _ _ : Z => b_nd b 0 0), s)) as ((out & s') & Eo & I' & F' & P').
  - intros done p rest [out s1] Hs (I1 & F1 & P1). cbn [fst snd] in *.
    assert (Hin : In p (tilelist s)) by (rewrite Hs; apply in_app_iff; right; left; auto).
    apply (tilelist_In E G cap b s p I) in Hin. rewrite (tile_ix_ok _ _ _ _ _ _ _ _ I1 Hin). cbn [bind].
    rewrite (tile_null_ok _ _ _ _ _ _ _ I1 Hin). destruct p as [ty tx]. cbn [fst snd] in *.
    destruct (g_null G tx ty) eqn:Hnt.
    + eexists. split; [reflexivity|]. cbn [fst snd]. split; [auto|]. split; [auto|]. intros x y Hxy. rewrite P1 by auto.
      rewrite existsb_app. cbn [existsb fst snd]. rewrite orb_false_r. destruct (existsb _ done); [reflexivity|]. cbn [orb].
      destruct (Z.eqb_spec ty (y / g_ph G)) as [Q1|]; destruct (Z.eqb_spec tx (x / g_pw G)) as [Q2|]; cbn [andb]; auto.
      unfold picture, missing. rewrite <- Q1, <- Q2, Hnt. reflexivity.
    + destruct (load_step M E G cap b s1 tx ty HE D I1 Hc Hin) as (s2 & E2 & I2 & (F2 & _) & R). rewrite E2. cbn [bind].
      destruct (R Hnt) as (R1 & R2 & R3 & (W & Ew & Eh & C)). unfold blit. cbn [bind].
      rewrite (I_pw _ _ _ _ _ _ I2), (I_ph _ _ _ _ _ _ I2).
      eexists. split; [reflexivity|]. cbn [fst snd]. split; [auto|]. split; [unfold same_frame in *; intuition congruence|].
      intros x y Hxy. unfold t_arr. rewrite Ew, Eh, existsb_app. cbn [existsb fst snd]. rewrite orb_false_r.
      destruct D as (D1 & D2 & D3). destruct Hxy as [Hx Hy].
      pose proof (Z.div_mod x (g_pw G)). pose proof (Z.mod_pos_bound x (g_pw G)).
      pose proof (Z.div_mod y (g_ph G)). pose proof (Z.mod_pos_bound y (g_ph G)).
      assert (XE : (tx * g_pw G <=? x) && (x <? tx * g_pw G + g_pw G) = (tx =? x / g_pw G)).
      { destruct (Z.eqb_spec tx (x / g_pw G)) as [->|N].
        - destruct (Z.leb_spec (x / g_pw G * g_pw G) x); [|lia]. destruct (Z.ltb_spec x (x / g_pw G * g_pw G + g_pw G)); [auto|lia].
        - destruct (Z.leb_spec (tx * g_pw G) x); [|auto]. destruct (Z.ltb_spec x (tx * g_pw G + g_pw G)); [|auto].
          exfalso. apply N. apply Z.div_unique with (r := x - tx * g_pw G); lia. }
      assert (YE : (ty * g_ph G <=? y) && (y <? ty * g_ph G + g_ph G) = (ty =? y / g_ph G)).
      { destruct (Z.eqb_spec ty (y / g_ph G)) as [->|N].
        - destruct (Z.leb_spec (y / g_ph G * g_ph G) y); [|lia]. destruct (Z.ltb_spec y (y / g_ph G * g_ph G + g_ph G)); [auto|lia].
        - destruct (Z.leb_spec (ty * g_ph G) y); [|auto]. destruct (Z.ltb_spec y (ty * g_ph G + g_ph G)); [|auto].
          exfalso. apply N. apply Z.div_unique with (r := y - ty * g_ph G); lia. }
      rewrite XE, <- andb_assoc, YE. 
      destruct (Z.eqb_spec tx (x / g_pw G)) as [Q2|]; destruct (Z.eqb_spec ty (y / g_ph G)) as [Q1|]; cbn [andb];
        rewrite ?orb_false_r; try (apply P1; split; auto).
      rewrite orb_true_r. unfold picture, missing. rewrite <- Q1, <- Q2, Hnt.
      specialize (C (x - tx * g_pw G) (y - ty * g_ph G)). cbv beta in C.
      replace (tx * g_pw G + (x - tx * g_pw G)) with x in C by lia. replace (ty * g_ph G + (y - ty * g_ph G)) with y in C by lia.
      rewrite <- Q2 in *. rewrite <- Q1 in *.
      rewrite cell_ix in C by lia. rewrite Ew in C.
      assert (Cx : ix (a_data (r_arr (t_ras (d_tiles s2 (tid G tx ty))))) ((y - ty * g_ph G) * g_pw G + (x - tx * g_pw G)) = Some (b_val b x y)) by (apply C; lia).
      unfold ix in Cx. destruct (_ <? 0); [discriminate|]. apply nth_error_nth with (d := 0) in Cx. exact Cx.
  - cbn [fst snd existsb]. split; [auto|]. split; [apply frame_refl|auto].
  - rewrite Eo. cbn [bind fst snd] in *. exists out, s'. split; [reflexivity|]. split; [auto|]. split; [auto|].
    intros x y Hxy. rewrite P' by auto.
    destruct (quad_ok M _ _ _ _ _ _ _ D I Hxy) as (_ & Q2 & _).
    replace (existsb _ (tilelist s)) with true; [reflexivity|]. symmetry. apply existsb_exists. exists (y / g_ph G, x / g_pw G).
    split; [apply (tilelist_In E G cap b s _ I); auto|]. cbn. rewrite !Z.eqb_refl. reflexivity.
Qed.

Lemma saveUnified_bad E G cap b s : Inv M E G cap b s -> in_tile G 0 0 ->
  (exists tx ty, in_tile G tx ty /\ e_eqb E (tile_nd G b tx ty) (tile_nd G b 0 0) = false) -> saveUnifiedGDAL E s = Thrown.
Proof.
  intros I H00 H. unfold saveUnifiedGDAL. rewrite (tile_ix_ok _ _ _ _ _ _ _ _ I H00). cbn [bind].
  rewrite (tile_nd_ok _ _ _ _ _ _ _ I H00).
  change (forM (tilelist s) (fun p (_ : unit) => _) tt) with (check E s (tile_nd G b 0 0)). rewrite (check_bad E G cap b s _ I H). reflexivity.
Qed.
Lemma saveUnified_geo E G cap b s : Inv M E G cap b s -> in_tile G 0 0 -> length (r_geo (t_ras (d_tiles s (tid G 0 0)))) <> 6%nat ->
  saveUnifiedGDAL E s = Thrown.
Proof.
  intros I H00 H. unfold saveUnifiedGDAL. rewrite (tile_ix_ok _ _ _ _ _ _ _ _ I H00). cbn [bind].
  change (forM (tilelist s) (fun p (_ : unit) => _) tt) with (check E s (a_nodata (t_arr (d_tiles s (tid G 0 0))))).
  assert (K : check E s (a_nodata (t_arr (d_tiles s (tid G 0 0)))) = Ok tt \/ check E s (a_nodata (t_arr (d_tiles s (tid G 0 0)))) = Thrown).
  { rewrite (tile_nd_ok _ _ _ _ _ _ _ I H00).
    destruct (forallb (fun p => e_eqb E (tile_nd G b (snd p) (fst p)) (tile_nd G b 0 0)) (tilelist s)) eqn:Hf.
    - left. apply (check_ok E G cap b s _ I). intros tx ty Hin. rewrite forallb_forall in Hf.
      apply (Hf (ty, tx)). apply (tilelist_In E G cap b s _ I). auto.
    - right. apply (check_bad E G cap b s _ I). 
      assert (EX : exists p, In p (tilelist s) /\ e_eqb E (tile_nd G b (snd p) (fst p)) (tile_nd G b 0 0) = false).
      { clear -Hf. revert Hf. generalize (tilelist s). induction l as [|p l IH]; cbn; [discriminate|]. intros Hf. apply andb_false_iff in Hf.
        destruct Hf as [Hf|Hf]; [exists p; auto|]. destruct (IH Hf) as (q & Q1 & Q2). exists q; auto. }
      destruct EX as (p & P1 & P2). exists (snd p), (fst p). split; auto. apply (tilelist_In E G cap b s _ I). auto. }
  destruct K as [K|K]; rewrite K; cbn [bind]; auto. apply Nat.eqb_neq in H. rewrite H. reflexivity.
Qed.

(** ** Saving tile by tile. *)
Definition flip_of (s : a2) (mt : meta) : bool := xorb (d_pos (nth 5 (m_geo mt) 0)) (d_flipV s).
(** the cells of tile (tx,ty) of the big raster turned upside down *)
Definition turn (G : geom) (b : big) (tx ty : Z) : big :=
  mkB (fun x y => if (x / g_pw G =? tx) && (y / g_ph G =? ty)
                  then b_val b x (ty * g_ph G + (g_ph G - 1 - y mod g_ph G)) else b_val b x y) (b_nd b).

Lemma reorient_ok E G cap b s tx ty : env_ok E -> dims (g_pw G) (g_ph G) -> Inv M E G cap b s -> d_ro s = false -> in_tile G tx ty ->
  ready M E G b s tx ty -> g_null G tx ty = false ->
  xorb (d_neg (nth 1 (m_geo (M tx ty)) 0)) (d_flipH s) = false ->
  exists t, reorient s (d_tiles s (tid G tx ty)) = Ok t /\ t_base t = m_base (M tx ty) /\
    a_w (t_arr t) = g_pw G /\ a_h (t_arr t) = g_ph G /\ a_nodata (t_arr t) = b_nd b tx ty /\
    (forall px py, in_cell G px py -> cell (t_arr t) px py =
        Some (b_val b (tx * g_pw G + px) (ty * g_ph G + (if flip_of s (M tx ty) then g_ph G - 1 - py else py)))) /\
    Inv M E G cap (if flip_of s (M tx ty) then turn G b tx ty else b) (upd_tile s (tid G tx ty) t).
Proof.
  intros HE D I Hro Hin (R1 & R2 & R3 & (W & Ew & Eh & C)) Hn Hh. set (i := tid G tx ty) in *. set (t := d_tiles s i) in *.
  unfold reorient. pose proof (at_geo _ _ _ _ R3) as G6. pose proof (proj1 (at_m _ _ _ _ R3)) as GE.
  rewrite (rd_nth _ 1) by lia. cbn [bind]. change (Z.to_nat 1) with 1%nat. rewrite GE, Hh. cbn [bind].
  rewrite (rd_nth _ 5) by lia. cbn [bind]. change (Z.to_nat 5) with 5%nat. rewrite GE.
  fold (flip_of s (M tx ty)).
  pose proof (I_tiles _ _ _ _ _ _ I tx ty Hin) as [TN TT]. fold i t in TN, TT. rewrite Hn in TT. destruct TT as (TB & c0 & St & T1 & T2 & T3).
  destruct (flip_of s (M tx ty)).
  - destruct (flipVert_spec (t_arr t) W) as (a & A1 & A2 & (S1 & S2 & S3 & S4 & S5 & S6) & A4). rewrite A1. cbn [bind].
    eexists. split; [reflexivity|]. cbn. unfold t_arr in *.
    assert (AC : forall px py, in_cell G px py -> cell a px py = Some (b_val b (tx * g_pw G + px) (ty * g_ph G + (g_ph G - 1 - py)))).
    { intros px py [P1 P2]. rewrite A4 by lia. rewrite Eh. apply C; lia. }
    split; [exact TB|]. split; [congruence|]. split; [congruence|]. split; [rewrite S3; apply R3|]. split; [exact AC|].
    constructor; cbn; try apply I.
    + intros x y Hxy. unfold tile_ok. cbn. destruct (Z.eqb_spec (tid G x y) i) as [Q|Q].
      * destruct (tid_inj G x y tx ty Hxy Hin Q). subst x y. rewrite Hn. split; [cbn; congruence|]. split; [exact TB|].
        exists (fun px py => b_val b (tx * g_pw G + px) (ty * g_ph G + (g_ph G - 1 - py))).
        assert (V0 : vals E (g_pw G) (g_ph G) (fun px py => b_val b (tx * g_pw G + px) (ty * g_ph G + (g_ph G - 1 - py)))).
        { intros x y Hx Hy. destruct St as (_ & V & _). rewrite <- (T3 x (g_ph G - 1 - y)) by (split; lia). unfold lazy_cells.
          rewrite R2. apply V; lia. }
        split; [|cbn; split; [auto|]; split; [rewrite R2; discriminate|]; intros px py Hp; unfold lazy_cells; cbn; rewrite R2].
        -- unfold stored. cbn. rewrite R1. split; [apply attrs_with_arr; auto; rewrite S6; apply R3|]. split; [auto|].
           destruct St as (_ & _ & St). rewrite R1 in St. split; [apply St|]. split; [|congruence]. split; [auto|]. cbn.
           split; [congruence|]. split; [congruence|]. intros x y Hx Hy. apply AC. split; auto.
        -- destruct (quad_tile G tx ty px py D Hp) as [-> ->]. rewrite !Z.eqb_refl. cbn [andb].
           rewrite (Z.add_comm (ty * g_ph G) py), Z.mod_add by (destruct D as (? & ? & ?); lia).
           rewrite Z.mod_small by (apply Hp). reflexivity.
      * pose proof (I_tiles _ _ _ _ _ _ I x y Hxy) as [TN' T]. split; [auto|]. destruct (g_null G x y); auto.
        destruct T as (TB' & c1 & U1 & U2 & U3 & U4). split; [exact TB'|]. exists c1. split; [exact U1|]. split; [auto|]. split; [auto|].
        intros px py Hp. rewrite U4 by auto. destruct (quad_tile G x y px py D Hp) as [-> ->].
        destruct (Z.eqb_spec x tx) as [->|]; destruct (Z.eqb_spec y ty) as [->|]; cbn [andb]; auto. exfalso. apply Q. reflexivity.
    + intros j Hj. destruct (I_cache _ _ _ _ _ _ I j Hj) as (x & y & J1 & J2 & J3 & J4). exists x, y. split; [auto|]. split; [auto|]. split; [auto|].
      destruct (Z.eqb_spec j i) as [->|]; auto.
    + intros Hr x y x' y' H1 H2 H3 H4 H5. apply (I_names _ _ _ _ _ _ I Hr); auto.
      destruct (Z.eqb_spec (tid G x y) i) as [Q1|Q1]; destruct (Z.eqb_spec (tid G x' y') i) as [Q2|Q2]; rewrite ?Q1, ?Q2; exact H5.
  - eexists. split; [reflexivity|]. split; [exact TB|]. split; [exact Ew|]. split; [exact Eh|]. split; [apply R3|]. split.
    + intros px py [P1 P2]. apply C; auto.
    + assert (K : forall j, (if j =? i then t else d_tiles s j) = d_tiles s j) by (intros j; destruct (Z.eqb_spec j i) as [->|]; auto).
      destruct I. constructor; cbn; auto; intros; rewrite ?K in *; auto. apply I_tiles; auto.
Qed.

(** What is written for tile (tx,ty). *)
Definition saved (G : geom) (b : big) (s : a2) (tx ty : Z) (o : option (Z * arr Z)) : Prop :=
  if g_null G tx ty then o = None
  else exists a, o = Some (m_base (M tx ty), a) /\ a_w a = g_pw G /\ a_h a = g_ph G /\ a_nodata a = b_nd b tx ty /\
    forall px py, in_cell G px py -> cell a px py =
        Some (b_val b (tx * g_pw G + px) (ty * g_ph G + (if flip_of s (M tx ty) then g_ph G - 1 - py else py))).
(** The big raster afterwards. *)
Definition turned (G : geom) (b : big) (s : a2) (tl : list (Z * Z)) : Z -> Z -> Z :=
  fun x y => let tx := x / g_pw G in let ty := y / g_ph G in
    if flip_of s (M tx ty) && negb (g_null G tx ty) && existsb (fun p => (fst p =? ty) && (snd p =? tx)) tl
    then b_val b x (ty * g_ph G + (g_ph G - 1 - y mod g_ph G)) else b_val b x y.

Lemma Inv_ext E G cap b b' s : (forall x y, b_val b x y = b_val b' x y) -> (forall x y, b_nd b x y = b_nd b' x y) ->
  Inv M E G cap b s -> Inv M E G cap b' s.
Proof.
  intros H1 H2 I. constructor; try apply I. intros tx ty Hin. pose proof (I_tiles _ _ _ _ _ _ I tx ty Hin) as [TN T].
  split; [auto|]. destruct (g_null G tx ty); auto. destruct T as (TB & c0 & St & T1 & T2 & T3). split; [auto|].
  exists c0. rewrite <- H2. split; [auto|]. split; [auto|]. split; [auto|]. intros. rewrite <- H1. auto.
Qed.

Lemma saveGDAL_ok E G cap b s : env_ok E -> dims (g_pw G) (g_ph G) -> Inv M E G cap b s -> cap <> 0 -> d_ro s = false ->
  (forall tx ty, in_tile G tx ty -> g_null G tx ty = false -> xorb (d_neg (nth 1 (m_geo (M tx ty)) 0)) (d_flipH s) = false) ->
  exists out s', saveGDAL_intended E s = Ok (out, s') /\ same_frame s s' /\
    Forall2 (fun p o => saved G b s (snd p) (fst p) o) (tilelist s) out /\
    Inv M E G cap (mkB (turned G b s (tilelist s)) (b_nd b)) s'.
Proof.
  intros HE D I Hc Hro HH. unfold saveGDAL_intended, save_tiles.
  destruct (forM_inv (fun done (os : list (option (Z * arr Z)) * a2) => 
      Inv M E G cap (mkB (turned G b s done) (b_nd b)) (snd os) /\ same_frame s (snd os) /\
      Forall2 (fun p o => saved G b s (snd p) (fst p) o) done (fst os))
    (fun p (os : list (option (Z * arr Z)) * a2) =>
      let '(out, s) := os in
      do i <- tile_ix s (snd p) (fst p);
      if t_null (d_tiles s i) then Ok (out ++ [None], s) else
      do s1 <- loadTile E s (snd p) (fst p);
      do t <- reorient s1 (d_tiles s1 i);
      do _ <- Ok tt;
      Ok (out ++ [Some (t_base t, t_arr t)], upd_tile s1 i t)) (tilelist s)) with (s := (@nil (option (Z * arr Z)), s)) as ((out & s') & Eo & I' & F' & P').
  - intros done p rest [out s1] Hs (I1 & F1 & P1). cbn [fst snd] in *.
    assert (Hin : In p (tilelist s)) by (rewrite Hs; apply in_app_iff; right; left; auto).
    assert (Hnd : ~ In p done).
    { assert (ND : NoDup (tilelist s)). { unfold tilelist. apply prod_NoDup; apply zrange_NoDup. }
      rewrite Hs in ND. apply NoDup_remove_2 in ND. rewrite in_app_iff in ND. tauto. }
    apply (tilelist_In E G cap b s p I) in Hin. rewrite (tile_ix_ok _ _ _ _ _ _ _ _ I1 Hin). cbn [bind].
    rewrite (tile_null_ok _ _ _ _ _ _ _ I1 Hin). destruct p as [ty tx]. cbn [fst snd] in *.
    assert (ND' : existsb (fun p => (fst p =? ty) && (snd p =? tx)) done = false).
    { destruct (existsb _ done) eqn:Ex; auto. exfalso. apply existsb_exists in Ex. destruct Ex as ([y x] & X1 & X2). cbn in X2.
      apply andb_true_iff in X2. destruct X2 as [X2 X3]. apply Z.eqb_eq in X2, X3. subst. contradiction. }
    destruct (g_null G tx ty) eqn:Hnt.
    + eexists. split; [reflexivity|]. cbn [fst snd]. split; [|split; [auto|]].
      * eapply Inv_ext; [| |exact I1]; cbn; auto. intros x y. unfold turned. rewrite existsb_app. cbn [existsb fst snd]. rewrite orb_false_r.
        destruct (Z.eqb_spec ty (y / g_ph G)) as [Q1|]; destruct (Z.eqb_spec tx (x / g_pw G)) as [Q2|]; cbn [andb]; rewrite ?orb_false_r; auto.
        rewrite <- Q1, <- Q2, Hnt, !andb_false_r. reflexivity.
      * apply Forall2_app; auto. constructor; auto. unfold saved. cbn. rewrite Hnt. reflexivity.
    + destruct (load_step M E G cap _ s1 tx ty HE D I1 Hc Hin) as (s2 & E2 & I2 & (F2 & _) & R). rewrite E2. cbn [bind].
      assert (F3 : same_frame s s2) by (unfold same_frame in *; intuition congruence).
      destruct (reorient_ok E G cap _ s2 tx ty HE D I2) as (t & T1 & T2 & T3 & T4 & T5 & T6 & T7); auto.
      { unfold same_frame in F3. intuition congruence. }
      { replace (d_flipH s2) with (d_flipH s) by (unfold same_frame in F3; intuition congruence). auto. }
      assert (FL : flip_of s2 (M tx ty) = flip_of s (M tx ty)) by (unfold flip_of; f_equal; unfold same_frame in F3; tauto).
      rewrite FL in *. rewrite T1. cbn [bind]. eexists. split; [reflexivity|]. cbn [fst snd].
      assert (TV : forall px py, in_cell G px py -> turned G b s done (tx * g_pw G + px) (ty * g_ph G + py) = b_val b (tx * g_pw G + px) (ty * g_ph G + py)).
      { intros px py Hp. unfold turned. destruct (quad_tile G tx ty px py D Hp) as [-> ->]. rewrite ND', andb_false_r. reflexivity. }
      split; [|split; [unfold same_frame in *; cbn; tauto|]].
      * eapply Inv_ext; [| |exact T7]; destruct (flip_of s (M tx ty)) eqn:Fl; cbn; auto; intros x y;
          unfold turned; cbv zeta; rewrite existsb_app; cbn [existsb fst snd]; rewrite orb_false_r;
          rewrite (Z.eqb_sym (x / g_pw G) tx), (Z.eqb_sym (y / g_ph G) ty) || idtac.
        -- destruct (Z.eqb_spec tx (x / g_pw G)) as [Q2|]; destruct (Z.eqb_spec ty (y / g_ph G)) as [Q1|]; cbn [andb]; rewrite ?orb_false_r; auto.
           rewrite <- Q2, Q1, <- Q1. rewrite Fl, Hnt, orb_true_r. cbn [andb negb].
           rewrite Q1. rewrite Z.add_comm, Z.div_add, Z.mod_add by (destruct D as (? & ? & ?); lia). rewrite Z.div_small.
           2:{ destruct D as (? & ? & ?). pose proof (Z.mod_pos_bound y (g_ph G)). lia. }
           rewrite Z.add_0_l. rewrite <- Q1, ND', andb_false_r. reflexivity.
        -- destruct (Z.eqb_spec tx (x / g_pw G)) as [Q2|]; destruct (Z.eqb_spec ty (y / g_ph G)) as [Q1|]; cbn [andb]; rewrite ?orb_false_r; auto.
           rewrite <- Q2, <- Q1, Fl. reflexivity.
      * apply Forall2_app; auto. constructor; auto. unfold saved. cbn [fst snd]. rewrite Hnt. exists (t_arr t).
        split; [congruence|]. split; [auto|]. split; [auto|]. split; [exact T5|]. intros px py Hp. rewrite T6 by auto. f_equal. cbn [b_val].
        apply TV. destruct Hp as [P2 P3]. destruct (flip_of s (M tx ty)); split; lia.
  - cbn [fst snd]. split; [|split; [apply frame_refl|constructor]]. eapply Inv_ext; [| |exact I]; cbn; auto.
    intros x y. unfold turned. cbn. rewrite andb_false_r. reflexivity.
  - cbn [fst snd] in *. exists out, s'. auto.
Qed.
End Save.

(** The code as it is: as long as there are only null tiles nothing happens; at the first other tile it stops. *)
Lemma saveGDAL_stops E s out s' : saveGDAL_intended E s = Ok (out, s') ->
  (saveGDAL E s = Undef /\ exists f, In (Some f) out) \/ (saveGDAL E s = Ok (out, s') /\ (forall f, In f out -> f = None) /\ s' = s).
Proof.
  unfold saveGDAL, saveGDAL_intended, save_tiles. generalize (tilelist s). intros tl.
  assert (G : forall acc, (forall f, In f acc -> f = None) -> forM tl (fun p (os : list (option (Z * arr Z)) * a2) =>
    let '(out, s) := os in
    do i <- tile_ix s (snd p) (fst p);
    if t_null (d_tiles s i) then Ok (out ++ [None], s) else
    do s1 <- loadTile E s (snd p) (fst p);
    do t <- reorient s1 (d_tiles s1 i);
    do _ <- Ok tt;
    Ok (out ++ [Some (t_base t, t_arr t)], upd_tile s1 i t)) (acc, s) = Ok (out, s') ->
   (forM tl (fun p (os : list (option (Z * arr Z)) * a2) =>
    let '(out, s) := os in
    do i <- tile_ix s (snd p) (fst p);
    if t_null (d_tiles s i) then Ok (out ++ [None], s) else
    do s1 <- loadTile E s (snd p) (fst p);
    do t <- reorient s1 (d_tiles s1 i);
    do _ <- (Undef : res unit);
    Ok (out ++ [Some (t_base t, t_arr t)], upd_tile s1 i t)) (acc, s) = Undef /\ exists f, In (Some f) out) \/
   (forM tl (fun p (os : list (option (Z * arr Z)) * a2) =>
    let '(out, s) := os in
    do i <- tile_ix s (snd p) (fst p);
    if t_null (d_tiles s i) then Ok (out ++ [None], s) else
    do s1 <- loadTile E s (snd p) (fst p);
    do t <- reorient s1 (d_tiles s1 i);
    do _ <- (Undef : res unit);
    Ok (out ++ [Some (t_base t, t_arr t)], upd_tile s1 i t)) (acc, s) = Ok (out, s') /\ (forall f, In f out -> f = None) /\ s' = s)).
  2:{ intros H. apply G; [intros f []|exact H]. }
  assert (K : forall tl' a b o q, forM tl' (fun p (os : list (option (Z * arr Z)) * a2) =>
    let '(out, s) := os in
    do i <- tile_ix s (snd p) (fst p);
    if t_null (d_tiles s i) then Ok (out ++ [None], s) else
    do s1 <- loadTile E s (snd p) (fst p);
    do t <- reorient s1 (d_tiles s1 i);
    do _ <- Ok tt;
    Ok (out ++ [Some (t_base t, t_arr t)], upd_tile s1 i t)) (a, b) = Ok (o, q) -> forall f, In f a -> In f o).
  { induction tl' as [|p tl' IH]; intros a b o q H f Hf; cbn [forM] in H; [injection H as <- <-; exact Hf|].
    cbn [bind] in H. destruct (tile_ix b (snd p) (fst p)) as [i| |]; cbn [bind] in H; try discriminate.
    destruct (t_null (d_tiles b i)); cbn [bind] in H; [eapply IH; [exact H|apply in_app_iff; auto]|].
    destruct (loadTile E b (snd p) (fst p)) as [b1| |]; cbn [bind] in H; try discriminate.
    destruct (reorient b1 (d_tiles b1 i)) as [t| |]; cbn [bind] in H; try discriminate. eapply IH; [exact H|apply in_app_iff; auto]. }
  induction tl as [|p tl IH]; intros acc HA H; cbn [forM] in *.
  - right. injection H as <- <-. auto.
  - destruct (tile_ix s (snd p) (fst p)) as [i| |]; cbn [bind] in *; try discriminate.
    destruct (t_null (d_tiles s i)); cbn [bind] in *.
    + apply IH; [|exact H]. intros f Hf. apply in_app_iff in Hf. destruct Hf as [Hf|[<-|[]]]; auto.
    + destruct (loadTile E s (snd p) (fst p)) as [b1| |]; cbn [bind] in *; try discriminate.
      destruct (reorient b1 (d_tiles b1 i)) as [t| |]; cbn [bind] in *; try discriminate. left. split; [reflexivity|].
      eexists. eapply K; [exact H|]. apply in_app_iff. right. left. reflexivity.
Qed.

