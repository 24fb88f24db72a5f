From Coq Require Import ZArith List Lia Bool.
From Verif Require Import Base Res ArrModel ArrSpec ArrProofs ArrProofs2 CacheModel CacheSpec.
Open Scope Z_scope.

Lemma le_length n z : length (le n z) = n.
Proof. revert z; induction n as [|n IH]; intros z; cbn [le length]; auto. Qed.

Lemma pow256_S n : 256 ^ Z.of_nat (S n) = 256 * 256 ^ Z.of_nat n.
Proof. rewrite Nat2Z.inj_succ, Z.pow_succ_r by lia. reflexivity. Qed.
Lemma pow256_pos n : 0 < 256 ^ Z.of_nat n.
Proof. apply Z.pow_pos_nonneg; lia. Qed.

Lemma mod_split z M : 0 < M -> z mod (256 * M) = z mod 256 + 256 * ((z / 256) mod M).
Proof.
  intros HM. rewrite Z.rem_mul_r by lia. reflexivity.
Qed.

Lemma unle_le n z : unle (le n z) = z mod 256 ^ Z.of_nat n.
Proof.
  revert z; induction n as [|n IH]; intros z; cbn [le unle].
  - rewrite Z.mod_1_r. reflexivity.
  - rewrite IH, pow256_S, mod_split by apply pow256_pos. reflexivity.
Qed.

Lemma unle_partial k z : forall i, (i <= k)%nat ->
  unle (firstn i (le k z) ++ skipn i (le k 0)) = z mod 256 ^ Z.of_nat i.
Proof.
  revert z; induction k as [|k IH]; intros z i Hi.
  - assert (i = 0%nat) by lia. subst. cbn. rewrite Z.mod_1_r. reflexivity.
  - destruct i as [|i].
    + cbn [firstn skipn app]. rewrite unle_le. cbn [Z.of_nat]. rewrite Z.mod_1_r.
      apply Z.mod_0_l. pose proof (pow256_pos (S k)). lia.
    + cbn [le firstn skipn app unle]. rewrite (Z.div_small 0 256) by lia.
      rewrite IH by lia. rewrite pow256_S, mod_split by apply pow256_pos. reflexivity.
Qed.

Lemma flat_map_le_length k l : length (flat_map (le k) l) = (k * length l)%nat.
Proof. induction l as [|z l IH]; cbn [flat_map length]; [lia|]. rewrite app_length, le_length, IH. lia. Qed.

Lemma chunks_flat k l : chunks k (length l) (flat_map (le k) l) = map (le k) l.
Proof.
  induction l as [|z l IH]; cbn [flat_map length chunks map]; auto.
  rewrite firstn_app, le_length, Nat.sub_diag, firstn_O, app_nil_r, firstn_all2 by (rewrite le_length; lia).
  rewrite skipn_app, le_length, Nat.sub_diag, skipn_all2 by (rewrite le_length; lia). cbn [app skipn].
  rewrite IH. reflexivity.
Qed.

(** Cells decoded from a data section cut after [i] bytes over zeroed memory. *)
Lemma chunks_cut k (l : list Z) : (1 <= k)%nat -> forall i c z, nth_error l c = Some z ->
  nth_error (map unle (chunks k (length l) (firstn i (flat_map (le k) l) ++ skipn i (flat_map (le k) (repeat 0 (length l)))))) c
  = Some (z mod 256 ^ Z.of_nat (Nat.min k (i - c * k))).
Proof.
  intros Hk. induction l as [|z0 l IH]; intros i c z Hc; [destruct c; discriminate|].
  cbn [flat_map length repeat chunks map].
  destruct (le_lt_dec k i) as [Hi|Hi].
  - rewrite (firstn_app i (le k z0)), le_length, (firstn_all2 (le k z0)) by (rewrite le_length; lia).
    rewrite (skipn_app i (le k 0)), le_length, (skipn_all2 (le k 0)) by (rewrite le_length; lia). cbn [app].
    rewrite <- app_assoc.
    rewrite (firstn_app k (le k z0)), le_length, Nat.sub_diag, firstn_O, app_nil_r, (firstn_all2 (le k z0)) by (rewrite le_length; lia).
    rewrite (skipn_app k (le k z0)), le_length, Nat.sub_diag, (skipn_all2 (le k z0)) by (rewrite le_length; lia). cbn [app skipn].
    destruct c as [|c]; cbn [nth_error] in *.
    + inversion Hc; subst. rewrite unle_le. rewrite Nat.min_l by lia. reflexivity.
    + rewrite (IH (i - k)%nat c z Hc). replace (i - k - c * k)%nat with (i - S c * k)%nat by lia. reflexivity.
  - rewrite (firstn_app i (le k z0)), le_length. replace (i - k)%nat with 0%nat by lia. rewrite firstn_O, app_nil_r.
    rewrite (skipn_app i (le k 0)), le_length. replace (i - k)%nat with 0%nat by lia. cbn [skipn]. rewrite app_assoc.
    set (hd := firstn i (le k z0) ++ skipn i (le k 0)).
    assert (Lh : length hd = k) by (unfold hd; rewrite app_length, firstn_length, skipn_length, !le_length; lia).
    rewrite (firstn_app k hd), Lh, Nat.sub_diag, firstn_O, app_nil_r, firstn_all2 by lia.
    rewrite (skipn_app k hd), Lh, Nat.sub_diag, skipn_all2 by lia. cbn [app skipn].
    destruct c as [|c]; cbn [nth_error] in *.
    + injection Hc as Ez. rewrite <- Ez. unfold hd. rewrite unle_partial by lia. rewrite Nat.min_r by lia. replace (i - 0 * k)%nat with i by lia. reflexivity.
    + specialize (IH 0%nat c z Hc). rewrite firstn_O in IH. cbn [skipn app] in IH. rewrite IH. replace (0 - c * k)%nat with (i - S c * k)%nat by lia. reflexivity.
Qed.

Lemma chunks_length k n l : length (chunks k n l) = n.
Proof. revert l; induction n as [|n IH]; intros l; cbn [chunks length]; auto. Qed.

Lemma read_full n l rest old : length l = n -> length old = n ->
  read_into n old (mkSt (l ++ rest) false) = (l, mkSt rest false).
Proof.
  intros Hl Ho. unfold read_into. cbn [st_fail st_rest].
  assert (E : firstn n (l ++ rest) = l) by (rewrite firstn_app, Hl, Nat.sub_diag, firstn_O, app_nil_r; apply firstn_all2; lia).
  rewrite E, Hl, Nat.eqb_refl. rewrite skipn_all2 by lia. rewrite app_nil_r. cbn [negb].
  rewrite skipn_app, Hl, Nat.sub_diag, skipn_all2 by lia. reflexivity.
Qed.

Lemma read_short n l old i : length l = n -> length old = n ->
  fst (read_into n old (mkSt (firstn i l) false)) = firstn i l ++ skipn i old.
Proof.
  intros Hl Ho. unfold read_into. cbn [st_fail st_rest fst].
  assert (E : firstn n (firstn i l) = firstn i l) by (apply firstn_all2; rewrite firstn_length; lia).
  rewrite E. rewrite firstn_length, Hl. destruct (le_lt_dec i n).
  - rewrite Nat.min_l by lia. reflexivity.
  - rewrite Nat.min_r by lia. rewrite (skipn_all2 old) by lia. rewrite (skipn_all2 old) by lia. reflexivity.
Qed.

(** Header bytes: everything before the projection string. *)
Definition header (k : nat) (r : raster) : list Z :=
  le 4 (a_h (r_arr r)) ++ le 4 (a_w (r_arr r)) ++ le 4 (r_xoff r) ++ le 4 (r_yoff r) ++ le 4 (a_ndc (r_arr r))
  ++ le k (a_nodata (r_arr r)) ++ flat_map (le 8) (r_geo r) ++ le 8 (Z.of_nat (length (r_proj r))).

Lemma header_length k r : length (r_geo r) = 6%nat -> length (header k r) = (76 + k)%nat.
Proof. intros G. unfold header. rewrite !app_length, !le_length, flat_map_le_length, G. lia. Qed.

Lemma save_bytes k r : representable k r ->
  saveToCache k r = Ok (header k r ++ r_proj r ++ flat_map (le k) (a_data (r_arr r))).
Proof.
  intros H. pose proof (rp_wf k r H) as W. unfold saveToCache, header. rewrite (rp_geo k r H). cbn [Z.of_nat Pos.of_succ_nat Pos.succ Z.ltb Z.compare Pos.compare Pos.compare_cont].
  rewrite size_ok by auto. cbn [bind]. rewrite (wf_len _ W), Z.ltb_irrefl.
  rewrite firstn_all2 by (rewrite (rp_geo k r H); lia).
  rewrite firstn_all2 by (pose proof (wf_len _ W); lia).
  rewrite <- !app_assoc. reflexivity.
Qed.

Lemma s32_le z : is_int32 z -> s32 (unle (le 4 z)) = z.
Proof.
  intros H. rewrite unle_le. change (256 ^ Z.of_nat 4) with (2 ^ 32). fold (w32 z). rewrite s32_w32. apply s32_id. exact H.
Qed.

Lemma map_unle_le k l : Forall (fun c => 0 <= c < 256 ^ Z.of_nat k) l -> map unle (map (le k) l) = l.
Proof.
  induction 1 as [|c l Hc Hl IH]; cbn [map]; auto. rewrite IH, unle_le, Z.mod_small by auto. reflexivity.
Qed.

Lemma zeros_data {A} (b : arr A) v : well_formed b -> (forall x y, 0 <= x < a_w b -> 0 <= y < a_h b -> cell b x y = Some v) ->
  a_data b = repeat v (Z.to_nat (a_w b * a_h b)).
Proof.
  intros W C. pose proof (wf_len b W) as WL. pose proof (wf_w b W).
  apply ix_ext; [rewrite repeat_length; lia|]. intros i Hi. rewrite WL in Hi.
  destruct (idx_split _ _ _ Hi) as [x [y [Hx [Hy ->]]]]; [lia|].
  rewrite <- cell_ix by auto. rewrite C by auto. unfold ix. destruct (Z.ltb_spec (y * a_w b + x) 0); [nia|].
  symmetry. assert (Hn : (Z.to_nat (y * a_w b + x) < Z.to_nat (a_w b * a_h b))%nat) by (apply Z2Nat.inj_lt; lia).
  rewrite (nth_error_nth' _ v) by (rewrite repeat_length; exact Hn). f_equal. apply nth_repeat.
Qed.

(** Loading the first [length header + j] bytes of a cache file. *)
Lemma load_cut k junk junk8 maxstr o r j :
  representable k r -> (forall n, length (junk n) = n) -> length junk8 = 8%nat ->
  Z.of_nat (length (r_proj r)) <= maxstr ->
  a_owned (r_arr o) = true -> a_data (r_arr o) = [] ->
  exists r' dat, loadNative k junk junk8 maxstr o (header k r ++ firstn j (r_proj r ++ flat_map (le k) (a_data (r_arr r)))) = Ok r' /\
    r_arr r' = mkA (a_w (r_arr r)) (a_h (r_arr r)) (a_nodata (r_arr r)) (a_ndc (r_arr r)) (nshift_table (a_w (r_arr r))) true dat /\
    r_xoff r' = r_xoff r /\ r_yoff r' = r_yoff r /\ r_geo r' = r_geo r /\
    length (r_proj r') = length (r_proj r) /\ firstn j (r_proj r') = firstn j (r_proj r) /\
    length dat = length (a_data (r_arr r)) /\
    forall c z, nth_error (a_data (r_arr r)) c = Some z ->
      nth_error dat c = Some (z mod 256 ^ Z.of_nat (Nat.min k (j - length (r_proj r) - c * k))).
Proof.
  intros H HJ H8 HM Ho Hd. pose proof (rp_wf k r H) as W. pose proof (rp_k k r H) as Hk.
  set (A := r_arr r) in *.
  unfold loadNative, header. rewrite <- !app_assoc.
  rewrite (read_full 4) by (apply le_length). rewrite (read_full 4) by (apply le_length).
  rewrite (read_full 4) by (apply le_length). rewrite (read_full 4) by (apply le_length).
  rewrite (read_full 4) by (apply le_length). rewrite (read_full k) by (apply le_length).
  rewrite (read_full 48).
  2:{ rewrite flat_map_le_length, (rp_geo k r H). reflexivity. }
  2:{ rewrite flat_map_le_length, firstn_length, app_length. cbn [length]. lia. }
  rewrite (read_full 8) by (auto using le_length).
  assert (Eps : unle (le 8 (Z.of_nat (length (r_proj r)))) = Z.of_nat (length (r_proj r))).
  { rewrite unle_le. apply Z.mod_small. pose proof (rp_proj_len k r H). change (256 ^ Z.of_nat 8) with (2 ^ 64).
    assert (2 ^ 63 < 2 ^ 64) by reflexivity. lia. }
  rewrite Eps. destruct (Z.ltb_spec maxstr (Z.of_nat (length (r_proj r)))); [lia|]. rewrite Nat2Z.id.
  fold A. assert (Bw : is_int32 (a_w A)) by (unfold is_int32; pose proof (wf_w A W); pw; lia).
  assert (Bh : is_int32 (a_h A)) by (unfold is_int32; pose proof (wf_h A W); pw; lia).
  set (P := r_proj r) in *. set (D := flat_map (le k) (a_data A)).
  set (proj0 := firstn (length P) (r_proj o ++ repeat 32 (length P))).
  assert (Lp0 : length proj0 = length P) by (unfold proj0; rewrite firstn_length, app_length, repeat_length; lia).
  (* the projection read *)
  assert (RP : exists pj s', read_into (length P) proj0 (mkSt (firstn j (P ++ D)) false) = (pj, s') /\
     length pj = length P /\ firstn j pj = firstn j P /\
     forall N zeros, length zeros = N -> length D = N -> fst (read_into N zeros s') = firstn (j - length P) D ++ skipn (j - length P) zeros).
  { destruct (le_lt_dec (length P) j) as [Hj|Hj].
    - exists P, (mkSt (firstn (j - length P) D) false). rewrite firstn_app, firstn_all2 by lia. rewrite read_full by auto.
      split; [reflexivity|]. split; [reflexivity|]. split; [reflexivity|].
      intros N zeros Lz LD. apply read_short; auto.
    - rewrite firstn_app. replace (j - length P)%nat with 0%nat by lia. rewrite firstn_O, app_nil_r.
      pose proof (read_short (length P) P proj0 j eq_refl Lp0) as RS.
      destruct (read_into (length P) proj0 (mkSt (firstn j P) false)) as [pj s'] eqn:E. cbn [fst] in RS. subst pj.
      exists (firstn j P ++ skipn j proj0), s'. split; [reflexivity|].
      split; [rewrite app_length, firstn_length, skipn_length; lia|].
      split. { rewrite firstn_app, firstn_length. rewrite Nat.min_l by lia. rewrite Nat.sub_diag, firstn_O, app_nil_r.
               apply firstn_all2. rewrite firstn_length; lia. }
      intros N zeros Lz LD. unfold read_into in E. cbn [st_fail st_rest] in E. inversion E as [[E1 E2]].
      assert (F : length (firstn (length P) (firstn j P)) <> length P) by (rewrite !firstn_length; lia).
      unfold read_into at 1. cbn [st_fail]. apply Nat.eqb_neq in F. rewrite F. cbn [negb fst]. reflexivity. }
  destruct RP as (pj & s' & RP & Lpj & Fpj & RD). rewrite RP.
  rewrite !s32_le by auto.
  destruct (resize_spec junk (mkA (a_w A) (a_h A) (unle (le k (a_nodata A))) (unle (le 4 (a_ndc A))) (a_nshift (r_arr o)) (a_owned (r_arr o)) (a_data (r_arr o))) (a_w A) (a_h A) 0 HJ)
    as [b [E [Wb [b1 [b2 [b3 [b4 [b5 C]]]]]]]]; try apply W. { left. exact Ho. }
  rewrite E. cbn [bind]. rewrite size_ok by auto. cbn [bind]. rewrite b1, b2.
  assert (Zb : a_data b = repeat 0 (Z.to_nat (a_w A * a_h A))).
  { rewrite <- b1, <- b2. apply zeros_data; auto. rewrite b1, b2. exact C. }
  assert (Ln : Z.to_nat (a_w A * a_h A) = length (a_data A)) by (pose proof (wf_len A W); lia).
  rewrite Zb, Ln. rewrite firstn_all2 by (rewrite repeat_length; lia). rewrite skipn_all2 by (rewrite repeat_length; lia).
  specialize (RD (k * length (a_data A))%nat (flat_map (le k) (repeat 0 (length (a_data A))))).
  rewrite flat_map_le_length, repeat_length in RD. specialize (RD eq_refl (flat_map_le_length k (a_data A))).
  destruct (read_into (k * length (a_data A)) (flat_map (le k) (repeat 0 (length (a_data A)))) s') as [dat s''].
  cbn [fst] in RD. subst dat.
  set (dat := map unle _). exists (mkR (with_data b (dat ++ [])) (s32 (unle (le 4 (r_xoff r)))) (s32 (unle (le 4 (r_yoff r))))
     (map unle (chunks 8 6 (flat_map (le 8) (r_geo r)))) pj), dat.
  split; [reflexivity|]. cbn [r_arr r_xoff r_yoff r_geo r_proj].
  rewrite !s32_le by apply H. rewrite app_nil_r.
  split.
  { unfold with_data. rewrite b1, b2, b3, b4, b5. cbn [a_nodata a_ndc a_owned]. rewrite Ho, (wf_shift b Wb), b1.
    f_equal.
    - rewrite unle_le. apply Z.mod_small. apply H.
    - rewrite unle_le. apply Z.mod_small. change (256 ^ Z.of_nat 4) with (2 ^ 32). apply (rp_n k r H). }
  split; [reflexivity|]. split; [reflexivity|].
  split. { pose proof (chunks_flat 8 (r_geo r)) as CF. rewrite (rp_geo k r H) in CF. rewrite CF. apply map_unle_le. exact (rp_geo_d k r H). }
  split; [exact Lpj|]. split; [exact Fpj|].
  split. { unfold dat. rewrite map_length, chunks_length. reflexivity. }
  intros c z Hc. unfold dat. apply chunks_cut; auto.
Qed.

Lemma nth_error_ext {A} (l l' : list A) : (forall n, nth_error l n = nth_error l' n) -> l = l'.
Proof.
  revert l'; induction l as [|a l IH]; intros [|b l'] H; auto.
  - specialize (H 0%nat); discriminate.
  - specialize (H 0%nat); discriminate.
  - f_equal; [specialize (H 0%nat); cbn in H; congruence|]. apply IH. intros n. apply (H (S n)).
Qed.

Lemma roundtrip k junk junk8 maxstr o r :
  representable k r -> a_owned (r_arr r) = true -> (forall n, length (junk n) = n) -> length junk8 = 8%nat ->
  Z.of_nat (length (r_proj r)) <= maxstr ->
  a_owned (r_arr o) = true -> a_data (r_arr o) = [] ->
  exists f, saveToCache k r = Ok f /\ loadNative k junk junk8 maxstr o f = Ok r.
Proof.
  intros H Hor HJ H8 HM Ho Hd. eexists. split; [apply save_bytes; auto|].
  destruct (load_cut k junk junk8 maxstr o r (length (r_proj r ++ flat_map (le k) (a_data (r_arr r)))) H HJ H8 HM Ho Hd)
    as (r' & dat & E & Ea & Ex & Ey & Eg & Lp & Fp & Ld & C).
  rewrite firstn_all in E. rewrite E. f_equal.
  assert (Edat : dat = a_data (r_arr r)).
  { apply nth_error_ext. intros n. destruct (nth_error (a_data (r_arr r)) n) as [z|] eqn:Hn.
    - rewrite (C n z Hn). f_equal.
      assert (Hlt : (n < length (a_data (r_arr r)))%nat) by (apply nth_error_Some; congruence).
      rewrite app_length, flat_map_le_length. rewrite Nat.min_l by nia.
      apply Z.mod_small. pose proof (rp_cells k r H) as F. rewrite Forall_forall in F. apply F. eapply nth_error_In; eauto.
    - apply nth_error_None in Hn. apply nth_error_None. lia. }
  assert (Ep : r_proj r' = r_proj r).
  { rewrite !firstn_all2 in Fp by (rewrite ?Lp, app_length; lia). exact Fp. }
  destruct r' as [a' x' y' g' p']. cbn in *. subst. destruct r as [a x y g p]. cbn in *. f_equal.
  destruct a; cbn in *. f_equal; auto. exact (eq_sym (wf_shift _ (rp_wf _ _ H))).
Qed.
