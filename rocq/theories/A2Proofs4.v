From Coq Require Import ZArith List Lia Bool Permutation.
From Verif Require Import Base Res ArrModel ArrSpec ArrProofs CacheModel CacheSpec CacheProofs
  LRUModel LRUSpec LRUProofs A2Model A2Spec A2Proofs A2Proofs2 A2Proofs3.
Open Scope Z_scope.

Lemma nth_concat {A} (d : A) (n : nat) (rows : list (list A)) : (forall r, In r rows -> length r = n) ->
  forall y x, (y < length rows)%nat -> (x < n)%nat -> nth (y * n + x) (concat rows) d = nth x (nth y rows []) d.
Proof.
  induction rows as [|r rows IH]; intros HR y x Hy Hx; cbn in Hy; [lia|]. cbn [concat].
  assert (Lr : length r = n) by (apply HR; left; auto). destruct y as [|y].
  - cbn. apply app_nth1. lia.
  - rewrite app_nth2 by lia. rewrite Lr. replace (S y * n + x - n)%nat with (y * n + x)%nat by lia. cbn [nth].
    apply IH; auto; [|lia]. intros r' Hr. apply HR. right; auto.
Qed.
Lemma length_concat {A} (n : nat) (rows : list (list A)) : (forall r, In r rows -> length r = n) -> length (concat rows) = (length rows * n)%nat.
Proof.
  induction rows as [|r rows IH]; intros HR; cbn; auto. rewrite app_length, IH by (intros; apply HR; right; auto).
  rewrite (HR r) by (left; auto). lia.
Qed.

Lemma max_of_const (f : hdr -> Z) w l : 0 <= w -> (forall h, In (Some h) l -> f h = w) ->
  forall m, 0 <= m <= w -> ((exists h, In (Some h) l) \/ m = w) ->
  fold_left (fun m o => match o with Some h => Z.max m (f h) | None => m end) l m = w.
Proof.
  intros Hw. induction l as [|o l IH]; intros HF m Hm HX; cbn.
  - destruct HX as [[h []]|]; auto.
  - destruct o as [h|].
    + assert (Fh : f h = w) by (apply HF; left; auto). apply IH; [intros; apply HF; right; auto|lia|right; lia].
    + apply IH; [intros; apply HF; right; auto|lia|]. destruct HX as [[h [Hh|Hh]]|]; [discriminate|left; eauto|auto].
Qed.

(** Facts about the layout. *)
Section Layout.
Variables (E : env) (rows : list (list (option hdr))) (w h : Z).
Hypothesis LO : layout_ok E rows w h.
Let G := layout_geom E rows w h.

Lemma lay_len r : In r rows -> length r = length (nth 0 rows []).
Proof. apply LO. Qed.
Lemma lay_flat tx ty : in_tile G tx ty -> nth (Z.to_nat (tid G tx ty)) (concat rows) None = entry rows tx ty /\
  (Z.to_nat (tid G tx ty) < length (concat rows))%nat.
Proof.
  intros [H1 H2]. cbn in H1, H2. unfold entry, tid. cbn [g_wt G layout_geom].
  rewrite (length_concat _ _ lay_len).
  replace (Z.to_nat (ty * Z.of_nat (length (nth 0 rows [])) + tx)) with
    (Z.to_nat ty * length (nth 0 rows []) + Z.to_nat tx)%nat by nia.
  split; [apply nth_concat; [apply lay_len|lia|lia]|].
  assert (Z.to_nat ty < length rows)%nat by lia. assert (Z.to_nat tx < length (nth 0 rows []))%nat by lia. nia.
Qed.
Lemma lay_In tx ty x : in_tile G tx ty -> entry rows tx ty = Some x -> In (Some x) (concat rows).
Proof.
  intros Hin He. destruct (lay_flat tx ty Hin) as [F1 F2]. rewrite He in F1. rewrite <- F1. apply nth_In. auto.
Qed.
Lemma lay_dims : dims w h.
Proof. destruct (lo_some _ _ _ _ LO) as [x Hx]. destruct (lo_hdr _ _ _ _ LO x Hx) as (O & Ew & Eh). destruct O. unfold dims. subst. auto. Qed.

Definition lay_meta (tx ty : Z) : meta :=
  match entry rows tx ty with Some x => mkM (h_geo x) (h_proj x) (h_base x) | None => mkM [] [] 0 end.
Definition lay_state (last0 nd0 : Z) (fc : bool) (cap : Z) : a2 :=
  mkA2 (fun i => layout_tile E fc (nth (Z.to_nat i) (concat rows) None)) (g_wt G) (g_ht G)
             (map (fun o => match o with None => true | Some _ => false end) (concat rows)) (g_wt G)
             (lru_setCapacity cap (lru_new last0)) (g_wt G * w) (g_ht G * h) w h 0 true false false nd0 (fun _ => None).

Lemma layout_ctor_ok last0 nd0 fc cap : layout_ctor E last0 nd0 fc rows cap = Ok (lay_state last0 nd0 fc cap).
Proof.
  destruct lay_dims as (Dw & Dh & Ds). unfold layout_ctor.
  assert (NE : rows <> []). { intros ->. destruct (lo_some _ _ _ _ LO) as [x []]. }
  assert (HR : exists lr rest, rev rows = lr :: rest /\ length lr = length (nth 0 rows [])).
  { destruct (rev rows) as [|lr rest] eqn:Er.
    - apply (f_equal (@rev _)) in Er. rewrite rev_involutive in Er. contradiction.
    - exists lr, rest. split; auto. apply lay_len. apply in_rev. rewrite Er. left; auto. }
  destruct HR as (lr & rest & Er & El). rewrite Er, El.
  assert (Mw : max_of h_w (concat rows) = w).
  { unfold max_of. apply max_of_const; try lia; [|left; apply LO]. intros x Hx. apply (lo_hdr _ _ _ _ LO x Hx). }
  assert (Mh : max_of h_h (concat rows) = h).
  { unfold max_of. apply max_of_const; try lia; [|left; apply LO]. intros x Hx. apply (lo_hdr _ _ _ _ LO x Hx). }
  rewrite Mw, Mh. destruct (lo_small _ _ _ _ LO) as [S1 S2]. unfold int32.
  destruct (Z.leb_spec (- 2 ^ 31) (Z.of_nat (length (nth 0 rows [])) * w)); [|lia].
  destruct (Z.ltb_spec (Z.of_nat (length (nth 0 rows [])) * w) (2 ^ 31)); [|lia].
  destruct (Z.leb_spec (- 2 ^ 31) (Z.of_nat (length rows) * h)); [|lia].
  destruct (Z.ltb_spec (Z.of_nat (length rows) * h) (2 ^ 31)); [|lia]. cbn [andb bind].
  replace (forallb (fun r => Nat.eqb (length r) (length (nth 0 rows []))) rows) with true.
  2:{ symmetry. apply forallb_forall. intros r Hr. apply Nat.eqb_eq. apply lay_len; auto. }
  replace (forallb _ (concat rows)) with true.
  2:{ symmetry. apply forallb_forall. intros [x|] Hx; auto. destruct (lo_hdr _ _ _ _ LO x Hx) as (_ & -> & ->).
      rewrite !Z.eqb_refl. reflexivity. }
  reflexivity.
Qed.

Lemma setcap_LInv cap last0 : -1 <= cap -> LInv (lru_setCapacity cap (lru_new last0)).
Proof. intros H. constructor; cbn; auto; [constructor|intros x []]. Qed.

Lemma fresh_attrs_null : a_nodata (r_arr (fresh (e_k E))) = 256 ^ Z.of_nat (e_k E) - 1.
Proof. reflexivity. Qed.

Lemma quick_ok tx ty : in_tile G tx ty ->
  rd (map (fun o : option hdr => match o with None => true | Some _ => false end) (concat rows)) (tid G tx ty) = Ok (g_null G tx ty).
Proof.
  intros Hin. destruct (lay_flat tx ty Hin) as [F1 F2]. apply rd_Ok. unfold ix.
  assert (P : 0 <= tid G tx ty) by (destruct Hin as [H1 H2]; cbn in H1, H2; unfold tid; cbn; nia).
  destruct (Z.ltb_spec (tid G tx ty) 0); [lia|]. rewrite nth_error_map, (nth_error_nth' _ None) by auto. cbn. rewrite F1. reflexivity.
Qed.

Lemma layout_Inv last0 nd0 fc cap fh fv : -1 <= cap -> readable E fh rows w h ->
  Inv lay_meta E G cap (mkB (layout_val E fv rows w h) (layout_nd rows)) (set_flips (lay_state last0 nd0 fc cap) fh fv).
Proof.
  intros Hcap RD. destruct lay_dims as (Dw & Dh & Ds). constructor; cbn; auto.
  - intros tx ty Hin. apply quick_ok; auto.
  - intros tx ty Hin. destruct (lay_flat tx ty Hin) as [F1 F2]. rewrite F1. unfold tile_ok. cbn.
    destruct (entry rows tx ty) as [x|] eqn:He; cbn; [|auto].
    pose proof (lay_In tx ty x Hin He) as HI. destruct (lo_hdr _ _ _ _ LO x HI) as (O & Ew & Eh).
    destruct (RD x HI) as (R1 & cells & R2 & R3 & R4).
    split; [auto|]. unfold lay_meta, layout_nd. rewrite He. split; [reflexivity|].
    exists (file_cell w h (xorb (d_pos (nth 5 (h_geo x) 0)) fv) cells).
    assert (FV : vals E w h (file_cell w h (xorb (d_pos (nth 5 (h_geo x) 0)) fv) cells)).
    { intros px py Hx Hy. unfold file_cell. rewrite Forall_forall in R4. apply R4. apply nth_In.
      assert (B : forall q, 0 <= q < h -> 0 <= q * w + px < w * h) by (intros q Hq; apply idx_range; auto).
      destruct (xorb (d_pos (nth 5 (h_geo x) 0%Z)) fv).
      - assert (Hq : 0 <= h - 1 - py < h) by lia. specialize (B _ Hq). lia.
      - specialize (B _ Hy). lia. }
    split.
    + split; [destruct O; constructor; cbn; auto; unfold is_int32; try lia; unfold NO_I; lia|]. split; [auto|]. cbn.
      split; [auto|]. split; [auto|]. split; [auto|]. split; [auto|]. split; [exact R1|]. cbn. exists cells. auto.
    + split; [auto|]. split; [discriminate|]. intros px py Hc. unfold lazy_cells. cbn. unfold layout_val.
      destruct (quad_tile G tx ty px py lay_dims Hc) as [Q1 Q2]. cbn in Q1, Q2. rewrite Q1, Q2, He, R2.
      destruct Hc as [C1 C2]. cbn in C1, C2.
      rewrite !(Z.add_comm (_ * _)), !Z.mod_add, !Z.mod_small by lia. reflexivity.
  - apply setcap_LInv; auto.
  - intros i [].
  - discriminate.
Qed.
End Layout.

(** A writable array modelled on another one. *)
Lemma fold_max_const {A} (f : A -> Z) w (l : list A) : 0 <= w -> (forall a, In a l -> f a = w \/ f a = 0) ->
  forall m, 0 <= m <= w -> ((exists a, In a l /\ f a = w) \/ m = w) -> fold_left (fun m a => Z.max m (f a)) l m = w.
Proof.
  intros Hw. induction l as [|a l IH]; intros HF m Hm HX; cbn.
  - destruct HX as [[a [[] _]]|]; auto.
  - destruct (HF a (or_introl eq_refl)) as [Fa|Fa].
    + apply IH; [intros; apply HF; right; auto|lia|right; lia].
    + apply IH; [intros; apply HF; right; auto|lia|].
      destruct HX as [[a' [[Ha|Ha] Fa']]|]; [subst; right; lia|left; eauto|right; lia].
Qed.

Lemma ro_width M E G cap b s tx ty : Inv M E G cap b s -> d_ro s = true -> in_tile G tx ty -> g_null G tx ty = false ->
  a_w (t_arr (d_tiles s (tid G tx ty))) = g_pw G /\ a_h (t_arr (d_tiles s (tid G tx ty))) = g_ph G /\
  r_geo (t_ras (d_tiles s (tid G tx ty))) = m_geo (M tx ty) /\ r_proj (t_ras (d_tiles s (tid G tx ty))) = m_proj (M tx ty) /\
  t_base (d_tiles s (tid G tx ty)) = m_base (M tx ty).
Proof.
  intros I Hro Hin Hn. pose proof (I_tiles _ _ _ _ _ _ I tx ty Hin) as [TN T]. rewrite Hn in T.
  destruct T as (TB & c0 & (A & V & S) & _). rewrite Hro in S. destruct (at_m _ _ _ _ A) as [M1 M2].
  assert (W : a_w (t_arr (d_tiles s (tid G tx ty))) = g_pw G /\ a_h (t_arr (d_tiles s (tid G tx ty))) = g_ph G).
  { destruct (t_loaded (d_tiles s (tid G tx ty))).
    - destruct S as (_ & (W & Ew & Eh & _) & _). auto.
    - destruct S as (_ & S). destruct (t_created _); [tauto|]. destruct S; discriminate. }
  tauto.
Qed.

Section Template.
Variables (E E' : env) (rows : list (list (option hdr))) (w h : Z).
Hypothesis LO : layout_ok E rows w h.
Hypothesis HM : e_maxstr E' = e_maxstr E.
Hypothesis HK : (1 <= e_k E')%nat.
Let G := layout_geom E rows w h.
Let G' := layout_geom E' rows w h.

Lemma ids_tile i : 0 <= i < g_wt G * g_ht G -> exists tx ty, in_tile G tx ty /\ i = tid G tx ty.
Proof.
  intros Hi. destruct (idx_split (g_wt G) (g_ht G) i Hi) as (x & y & Hx & Hy & Ei); [cbn; lia|].
  exists x, y. split; [split; auto|exact Ei].
Qed.

Lemma template_Inv cap0 b0 o last0 nd0 fc cap fs :
  Inv (lay_meta rows) E G cap0 b0 o -> d_ro o = true -> -1 <= cap ->
  (forall tx ty tx' ty' x x', in_tile G tx ty -> in_tile G tx' ty' -> entry rows tx ty = Some x -> entry rows tx' ty' = Some x' ->
     h_base x = h_base x' -> tx = tx' /\ ty = ty') ->
  Inv (lay_meta rows) E' G' cap (mkB (fun _ _ => 0) (fun _ _ => 256 ^ Z.of_nat (e_k E') - 1)) (template_ctor E' last0 nd0 fc o cap fs) /\
  none_cached G' (template_ctor E' last0 nd0 fc o cap fs).
Proof.
  intros I Hro Hcap HB. destruct (lay_dims E rows w h LO) as (Dw & Dh & Ds).
  assert (P256 : 1 < 256 ^ Z.of_nat (e_k E')) by (apply Z.pow_gt_1; lia).
  assert (EX : exists tx ty, in_tile G tx ty /\ g_null G tx ty = false).
  { destruct (lo_some _ _ _ _ LO) as [x Hx]. apply (In_nth _ _ None) in Hx. destruct Hx as (n & Hn & Ex).
    rewrite (length_concat _ _ (lay_len E rows w h LO)) in Hn.
    destruct (ids_tile (Z.of_nat n)) as (tx & ty & H1 & H2); [cbn; nia|]. exists tx, ty. split; auto.
    destruct (lay_flat E rows w h LO tx ty H1) as [F1 _]. cbn. change (layout_geom E rows w h) with G in F1.
    rewrite <- H2, Nat2Z.id, Ex in F1. rewrite <- F1. reflexivity. }
  assert (PT : forall f v, 0 <= v -> (forall tx ty, in_tile G tx ty -> f (tid G tx ty) = if g_null G tx ty then 0 else v) ->
             fold_left (fun m i => Z.max m (f i)) (zrange 0 (Z.to_nat (d_wt o * d_ht o))) 0 = v).
  { intros f v Hv HF. rewrite (I_wt _ _ _ _ _ _ I), (I_ht _ _ _ _ _ _ I). apply fold_max_const; [auto| |lia|].
    - intros i Hi. apply zrange_In in Hi. destruct (ids_tile i) as (tx & ty & H1 & ->); [lia|].
      rewrite HF by auto. destruct (g_null G tx ty); auto.
    - left. destruct EX as (tx & ty & H1 & H2). exists (tid G tx ty). split; [|rewrite HF, H2 by auto; auto].
      apply zrange_In. destruct H1 as [H1 H3]. unfold tid. nia. }
  split.
  - constructor; cbn.
    + exact (I_wt _ _ _ _ _ _ I).
    + exact (I_ht _ _ _ _ _ _ I).
    + exact (I_qw _ _ _ _ _ _ I).
    + apply PT; [lia|]. intros tx ty Hin. destruct (g_null G tx ty) eqn:Hn.
      * pose proof (I_tiles _ _ _ _ _ _ I tx ty Hin) as [_ T]. rewrite Hn in T. tauto.
      * apply (ro_width _ _ _ _ _ _ _ _ I Hro Hin Hn).
    + apply PT; [lia|]. intros tx ty Hin. destruct (g_null G tx ty) eqn:Hn.
      * pose proof (I_tiles _ _ _ _ _ _ I tx ty Hin) as [_ T]. rewrite Hn in T. tauto.
      * apply (ro_width _ _ _ _ _ _ _ _ I Hro Hin Hn).
    + exact (I_quick _ _ _ _ _ _ I).
    + intros tx ty Hin. change (tid G' tx ty) with (tid G tx ty). unfold tile_ok. cbn.
      pose proof (I_tiles _ _ _ _ _ _ I tx ty Hin) as [TN T]. split; [exact TN|].
      destruct (g_null G tx ty) eqn:Hn; cbn in Hn; destruct (entry rows tx ty) as [x|] eqn:He; try discriminate; [auto|].
      destruct (ro_width _ _ _ _ _ _ _ _ I Hro Hin) as (W1 & W2 & W3 & W4 & W5). { cbn. rewrite He. reflexivity. }
      split; [exact W5|]. exists (fun _ _ => 0). cbn.
      pose proof (lay_In E rows w h LO tx ty x Hin He) as HI. destruct (lo_hdr _ _ _ _ LO x HI) as (O & _). destruct O.
      unfold lay_meta in W3, W4. rewrite He in W3, W4. cbn in W3, W4.
      split.
      * split; [|split; [intros px py _ _; unfold is_val; lia|]].
        -- constructor; cbn; rewrite ?W3, ?W4, ?HM; auto; unfold is_int32, is_val, NO_I; try lia.
           unfold lay_meta. rewrite He. auto.
        -- cbn. split; [auto|]. split; [auto|]. split; [exact W1|]. split; [exact W2|]. auto.
      * split; [discriminate|]. split; [discriminate|]. auto.
    + apply setcap_LInv; auto.
    + reflexivity.
    + intros i [].
    + intros _ tx ty tx' ty' H1 H2 H3 H4 H5. change (tid G' tx ty) with (tid G tx ty) in *. change (tid G' tx' ty') with (tid G tx' ty') in *.
      destruct (ro_width _ _ _ _ _ _ tx ty I Hro H1 H3) as (_ & _ & _ & _ & B1).
      destruct (ro_width _ _ _ _ _ _ tx' ty' I Hro H2 H4) as (_ & _ & _ & _ & B2). rewrite B1, B2 in H5.
      unfold lay_meta in H5. destruct (entry rows tx ty) as [x|] eqn:X1; [|discriminate]. destruct (entry rows tx' ty') as [x'|] eqn:X2; [|discriminate].
      destruct (HB tx ty tx' ty' x x' H1 H2 X1 X2 H5) as [-> ->]. reflexivity.
  - intros tx ty Hin Hn. cbn. discriminate.
Qed.
End Template.
