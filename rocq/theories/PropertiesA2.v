(** Tiled arrays (tiled/A2Array2D.hpp): C67-C71. *)
From Coq Require Import ZArith List Lia Bool Permutation.
From Verif Require Import Base Res ArrModel ArrSpec ArrProofs ArrProofs3 CacheModel CacheSpec
  LRUModel LRUSpec LRUProofs A2Model A2Spec A2Proofs A2Proofs2 A2Proofs3 A2Proofs4 A2Proofs5 A2Proofs6.
Open Scope Z_scope.

(** ** A concrete layout used in the examples: 2 x 2 tiles of 2 x 2 bytes, the one at (1,0) missing; (0,1) is stored
    bottom up. *)
Definition one_d : Z := 1023 * 2 ^ 52.
Definition mone_d : Z := 2 ^ 63 + 1023 * 2 ^ 52.
Definition north : list Z := [0; one_d; 0; 0; 0; mone_d].
Definition south : list Z := [0; one_d; 0; 0; 0; one_d].
Definition rows1 : list (list (option hdr)) :=
  [[Some (mkH 2 2 255 north [65] 1 11); None];
   [Some (mkH 2 2 255 south [65] 2 12); Some (mkH 2 2 255 north [66] 3 13)]].
Definition files1 (n : Z) : option (list Z) :=
  if n =? 1 then Some [1; 2; 3; 4] else if n =? 2 then Some [5; 6; 7; 8] else if n =? 3 then Some [9; 10; 255; 12] else None.
Definition env1 : env := mkE 1 (fun n => repeat 77 n) (repeat 7 8) 1000 Z.eqb files1.
Definition G1 := layout_geom env1 rows1 2 2.

Lemma env1_ok : env_ok env1.
Proof. constructor; cbn; try lia. intros n. apply repeat_length. Qed.
Lemma hdr1_ok h : In (Some h) (concat rows1) -> hdr_ok env1 h /\ h_w h = 2 /\ h_h h = 2.
Proof.
  intros H. cbn in H. destruct H as [H|[H|[H|[H|[]]]]]; try discriminate; injection H as <-; (split; [|auto]); constructor; cbn; unfold is_val, is_byte;
    try lia; repeat constructor; cbn; lia.
Qed.
Lemma rows1_ok : layout_ok env1 rows1 2 2.
Proof.
  constructor.
  - intros r [<-|[<-|[]]]; reflexivity.
  - eexists. left. reflexivity.
  - apply hdr1_ok.
  - cbn. lia.
Qed.
Lemma rows1_readable : readable env1 false rows1 2 2.
Proof.
  intros x H. cbn in H. destruct H as [H|[H|[H|[H|[]]]]]; try discriminate; injection H as <-; (split; [reflexivity|]); eexists; (split; [reflexivity|]);
    (split; [reflexivity|]); repeat constructor; cbn; lia.
Qed.
Lemma rows1_bases : distinct_bases rows1.
Proof.
  intros tx ty tx' ty' x x' H H' E E' B. cbn in H, H'.
  assert (T : (tx = 0 \/ tx = 1) /\ (ty = 0 \/ ty = 1) /\ (tx' = 0 \/ tx' = 1) /\ (ty' = 0 \/ ty' = 1)) by lia.
  destruct T as ([-> | ->] & [-> | ->] & [-> | ->] & [-> | ->]); cbn in E, E'; try discriminate; injection E as <-; injection E' as <-; cbn in B; try discriminate; auto.
Qed.

(** ** C69: the read-only array *)
Theorem C69_layout_opens : forall E rows w h last0 nd0 fc cap, layout_ok E rows w h ->
  exists s, layout_ctor E last0 nd0 fc rows cap = Ok s /\
    width s = Z.of_nat (length (nth 0 rows [])) * w /\ height s = Z.of_nat (length rows) * h.
Proof. intros. rewrite (layout_ctor_ok E rows w h) by auto. eexists. split; [reflexivity|]. auto. Qed.
Print Assumptions C69_layout_opens.

(** Whatever is read in whatever order with whatever cache size, the array shows the files. *)
Theorem C69_reads_files : forall E rows w h last0 nd0 fc cap fh fv s ops,
  env_ok E -> layout_ok E rows w h -> readable E fh rows w h -> cap = -1 \/ 1 <= cap ->
  layout_ctor E last0 nd0 fc rows cap = Ok s -> Forall (valid (e_k E) (layout_geom E rows w h)) ops -> Forall reads_only ops ->
  exists s', run E ops (set_flips s fh fv) =
    Ok (fst (spec_run (e_eqb E) (layout_geom E rows w h) ops (mkB (layout_val E fv rows w h) (layout_nd rows))), s').
Proof.
  intros E rows w h last0 nd0 fc cap fh fv s ops HE LO RD Hc HC HV HR. rewrite (layout_ctor_ok E rows w h) in HC by auto. injection HC as <-.
  destruct (run_ok (lay_meta rows) E (layout_geom E rows w h) cap ops HE (lay_dims E rows w h LO) ltac:(lia)
     (mkB (layout_val E fv rows w h) (layout_nd rows)) (set_flips (lay_state E rows w h last0 nd0 fc cap) fh fv)) as (s' & R & _); auto.
  - apply layout_Inv; auto. lia.
  - cbn. lia.
  - cbn. discriminate.
  - eauto.
Qed.
Print Assumptions C69_reads_files.
Example C69_met : exists s, layout_ctor env1 0 0 true rows1 1 = Ok s /\
  run env1 [ORead 1 3; OReadQ 1 1 0 0; OIsNoData 2 3; ORead 2 0; ORead 0 3; OIsNoData 3 0; ORead 1 0] (set_flips s false false) = 
  Ok ([6; 9; 1; 255; 5; 1; 2], snd (match run env1 [ORead 1 3; OReadQ 1 1 0 0; OIsNoData 2 3; ORead 2 0; ORead 0 3; OIsNoData 3 0; ORead 1 0] (set_flips s false false) with Ok p => p | _ => ([], s) end)) /\
  Forall (valid 1 G1) [ORead 1 3; OReadQ 1 1 0 0; OIsNoData 2 3; ORead 2 0; ORead 0 3; OIsNoData 3 0; ORead 1 0].
Proof.
  eexists. split; [reflexivity|]. split; [vm_compute; reflexivity|]. repeat constructor; cbn; lia.
Qed.

(** A value written to a read-only array is forgotten when its tile is evicted. *)
Theorem C69_write_kept_refuted : ~ (forall E rows w h last0 nd0 fc cap s ops,
  env_ok E -> layout_ok E rows w h -> readable E false rows w h -> distinct_bases rows -> cap = -1 \/ 1 <= cap ->
  layout_ctor E last0 nd0 fc rows cap = Ok s -> Forall (valid (e_k E) (layout_geom E rows w h)) ops ->
  exists s', run E ops s = Ok (fst (spec_run (e_eqb E) (layout_geom E rows w h) ops (mkB (layout_val E false rows w h) (layout_nd rows))), s')).
Proof.
  intros C. destruct (C env1 rows1 2 2 (-1) 0 false 1 _ [OWrite 0 0 99; ORead 2 2; ORead 0 0] env1_ok rows1_ok rows1_readable rows1_bases
    ltac:(lia) eq_refl) as [s' R]; [repeat constructor; cbn; try lia|]. vm_compute in R. discriminate.
Qed.
Print Assumptions C69_write_kept_refuted.

(** A tile whose rows run from east to west (or option fliph) makes the first access to it undefined. *)
Theorem C69_mirrored_undefined : forall E rows w h last0 nd0 fc cap fh fv s tx ty x cells,
  env_ok E -> layout_ok E rows w h -> cap = -1 \/ 1 <= cap -> layout_ctor E last0 nd0 fc rows cap = Ok s ->
  in_tile (layout_geom E rows w h) tx ty -> entry rows tx ty = Some x ->
  e_gdal E (h_file x) = Some cells -> Z.of_nat (length cells) = w * h ->
  xorb (d_neg (nth 1 (h_geo x) 0)) fh = true ->
  loadTile E (set_flips s fh fv) tx ty = Undef.
Proof.
  intros E rows w h last0 nd0 fc cap fh fv s tx ty x cells HE LO Hc HC Hin He Hg Hl Hx.
  rewrite (layout_ctor_ok E rows w h) in HC by auto. injection HC as <-.
  pose proof (lay_In E rows w h LO tx ty x Hin He) as HI. destruct (lo_hdr _ _ _ _ LO x HI) as (O & Ew & Eh).
  destruct (lay_flat E rows w h LO tx ty Hin) as [F1 F2].
  unfold loadTile, isNullTile. cbn [d_quick d_qw set_flips lay_state].
  change (ty * g_wt (layout_geom E rows w h) + tx) with (tid (layout_geom E rows w h) tx ty).
  rewrite (quick_ok E rows w h LO tx ty Hin). cbn [bind g_null layout_geom]. rewrite He.
  assert (TI : tile_ix (set_flips (lay_state E rows w h last0 nd0 fc cap) fh fv) tx ty = Ok (tid (layout_geom E rows w h) tx ty)).
  { unfold tile_ix. cbn [d_wt d_ht set_flips lay_state]. unfold in_tile in Hin.
    replace (inGrid (g_wt (layout_geom E rows w h)) (g_ht (layout_geom E rows w h)) tx ty) with true by (symmetry; apply inGrid_iff; lia). reflexivity. }
  rewrite TI. cbn [bind]. cbn [d_tiles set_flips lay_state]. rewrite F1, He. cbn [t_loaded layout_tile].
  assert (EV : evict E (set_flips (lay_state E rows w h last0 nd0 fc cap) fh fv) = Ok (set_flips (lay_state E rows w h last0 nd0 fc cap) fh fv)).
  { unfold evict. cbn [d_lru set_flips lay_state]. replace (lru_full (lru_setCapacity cap (lru_new last0))) with false; [reflexivity|]. symmetry. apply Z.eqb_neq. cbn. lia. }
  rewrite EV. cbn [bind d_tiles set_flips lay_state]. rewrite F1, He. cbn [t_created layout_tile d_ro].
  unfold tile_loadData. cbn [t_arr t_ras r_arr a_data t_fc t_file layout_tile]. rewrite Hg.
  destruct O. 
  destruct (resize_spec (e_junk E) (mkA (h_w x) (h_h x) (h_nd x) NO_I [] true []) (h_w x) (h_h x) 0) as (b & Eb & Wb & Bw & Bh & Bn & Bc & Bo & _);
    try lia. { apply HE. } { left; reflexivity. }
  cbn [a_w a_h]. rewrite Eb. cbn [bind]. pose proof (wf_len b Wb) as Lb. rewrite Bw, Bh, Ew, Eh in Lb.
  assert (Ln : length cells = length (a_data b)) by lia. rewrite Ln, Nat.eqb_refl. cbn [bind].
  unfold reorient. cbn [t_ras with_ras with_arr r_geo d_flipH]. rewrite (rd_nth _ 1) by lia. cbn [bind].
  change (Z.to_nat 1) with 1%nat. cbn [d_flipH set_flips]. cbn [layout_tile t_ras r_geo]. rewrite Hx. cbn [t_arr t_ras with_ras with_arr r_arr].
  rewrite flipHorz_undefined; [reflexivity|apply wf_with_data; auto|cbn; lia|cbn; lia].
Qed.
Print Assumptions C69_mirrored_undefined.
Example C69_mirrored_met : exists s, layout_ctor env1 0 0 false rows1 2 = Ok s /\ loadTile env1 (set_flips s true false) 1 1 = Undef.
Proof. eexists. split; [reflexivity|]. vm_compute. reflexivity. Qed.

(** ** C67: the writable array *)
Theorem C67_one_big_raster : forall E E' rows w h last0 nd0 fc cap fh fv s0 pre outs o last1 nd1 fc1 cap1 fs ops,
  env_ok E -> env_ok E' -> e_maxstr E' = e_maxstr E -> layout_ok E rows w h -> distinct_bases rows -> readable E fh rows w h ->
  cap = -1 \/ 1 <= cap -> cap1 = -1 \/ 1 <= cap1 ->
  layout_ctor E last0 nd0 fc rows cap = Ok s0 -> Forall (valid (e_k E) (layout_geom E rows w h)) pre -> Forall reads_only pre ->
  run E pre (set_flips s0 fh fv) = Ok (outs, o) ->
  let a := template_ctor E' last1 nd1 fc1 o cap1 fs in let G := layout_geom E' rows w h in
  Forall (valid (e_k E') G) ops -> setNoData_early E' ops a ->
  exists s', run E' ops a = Ok (fst (spec_run (e_eqb E') G ops (blank E')), s').
Proof.
  intros E E' rows w h last0 nd0 fc cap fh fv s0 pre outs o last1 nd1 fc1 cap1 fs ops HE HE' HM LO HB RD Hc Hc1 HC HVp HRp HP a G HV HS.
  rewrite (layout_ctor_ok E rows w h) in HC by auto. injection HC as <-.
  destruct (run_ok (lay_meta rows) E (layout_geom E rows w h) cap pre HE (lay_dims E rows w h LO) ltac:(lia)
     (mkB (layout_val E fv rows w h) (layout_nd rows)) (set_flips (lay_state E rows w h last0 nd0 fc cap) fh fv)) as (o' & R & I & F); auto.
  { apply layout_Inv; auto. lia. } { cbn. lia. } { cbn. discriminate. }
  rewrite R in HP. injection HP as _ <-.
  destruct (template_Inv E E' rows w h LO HM (eo_k _ HE') cap _ o' last1 nd1 fc1 cap1 fs I) as [IT NC]; [unfold same_frame in F; cbn in F; tauto|lia|exact HB|].
  destruct (run_ok (lay_meta rows) E' G cap1 ops HE' (lay_dims E rows w h LO) ltac:(lia) (blank E') a IT) as (s' & R' & _); auto.
  - cbn. discriminate.
  - cbn. lia.
  - eauto.
Qed.
Print Assumptions C67_one_big_raster.

Definition s1 : a2 := match layout_ctor env1 0 0 true rows1 (-1) with Ok s => s | _ => sized_ctor env1 0 0 0 true 1 1 1 1 1 end.
Definition ops1 : list op :=
  [OSetNoData 9; OSetAll 4; OWrite 0 0 7; ORead 3 3; OWriteQ 1 1 1 1 8; ORead 0 0; ORead 0 3; OIsNoData 0 1; OWrite 0 1 9; ORead 2 2;
   OIsNoData 0 1; ORead 3 3; OWrite 2 0 1; ORead 2 0].
Example C67_met : exists s', run env1 ops1 (template_ctor env1 5 0 true s1 1 (fun _ => Some [])) = Ok ([4; 7; 4; 0; 4; 1; 8; 255], s') /\ getEvictions s' = 7
  /\ Forall (valid 1 G1) ops1 /\ setNoData_early env1 ops1 (template_ctor env1 5 0 true s1 1 (fun _ => Some [])).
Proof.
  eexists. split; [vm_compute; reflexivity|]. split; [reflexivity|]. split; [repeat constructor; cbn; try lia|].
  intros l1 v l2 outs s2 E R. destruct l1 as [|o l1].
  - cbn in R. injection R as _ <-. reflexivity.
  - exfalso. injection E as _ E. unfold ops1 in E. repeat (destruct l1 as [|? l1]; [discriminate|injection E as _ E]). destruct l1; discriminate.
Qed.

(** setNoData does not reach a tile that waits in its cache file. *)
Theorem C67_setNoData_refuted : ~ (forall E rows w h s0 a ops,
  env_ok E -> layout_ok E rows w h -> distinct_bases rows -> readable E false rows w h ->
  layout_ctor E (-1) 0 false rows (-1) = Ok s0 -> a = template_ctor E (-1) 0 false s0 1 (fun _ => None) ->
  Forall (valid (e_k E) (layout_geom E rows w h)) ops ->
  exists s', run E ops a = Ok (fst (spec_run (e_eqb E) (layout_geom E rows w h) ops (blank E)), s')).
Proof.
  intros C. destruct (C env1 rows1 2 2 _ _ [OWrite 0 0 9; OWrite 0 2 9; OSetNoData 9; OIsNoData 0 0] env1_ok rows1_ok rows1_bases rows1_readable
    eq_refl eq_refl) as [s' R]; [repeat constructor; cbn; try lia|]. vm_compute in R. discriminate.
Qed.
Print Assumptions C67_setNoData_refuted.

(** Two tiles with the same base name (in different directories) share a cache file. *)
Definition rows2 : list (list (option hdr)) := [[Some (mkH 2 2 255 north [65] 1 11); Some (mkH 2 2 255 north [65] 3 11)]].
Lemma rows2_ok : layout_ok env1 rows2 2 2.
Proof.
  constructor.
  - intros r [<-|[]]; reflexivity.
  - eexists. left. reflexivity.
  - intros x H. cbn in H. destruct H as [H|[H|[]]]; try discriminate; injection H as <-; (split; [|auto]); constructor; cbn; unfold is_val, is_byte;
      try lia; repeat constructor; cbn; lia.
  - cbn. lia.
Qed.
Lemma rows2_readable : readable env1 false rows2 2 2.
Proof.
  intros x H. cbn in H. destruct H as [H|[H|[]]]; try discriminate; injection H as <-; (split; [reflexivity|]); eexists; (split; [reflexivity|]);
    (split; [reflexivity|]); repeat constructor; cbn; lia.
Qed.
Theorem C67_same_basename_refuted : ~ (forall E rows w h s0 a ops,
  env_ok E -> layout_ok E rows w h -> readable E false rows w h ->
  layout_ctor E (-1) 0 false rows (-1) = Ok s0 -> a = template_ctor E (-1) 0 false s0 1 (fun _ => None) ->
  Forall (valid (e_k E) (layout_geom E rows w h)) ops -> setNoData_early E ops a ->
  exists s', run E ops a = Ok (fst (spec_run (e_eqb E) (layout_geom E rows w h) ops (blank E)), s')).
Proof.
  intros C. destruct (C env1 rows2 2 2 _ _ [OWrite 0 0 7; OWrite 2 0 8; ORead 0 0; ORead 2 0] env1_ok rows2_ok rows2_readable eq_refl eq_refl) as [s' R].
  - repeat constructor; cbn; try lia.
  - intros l1 v l2 outs s2 E R. exfalso. repeat (destruct l1 as [|? l1]; [discriminate|injection E as _ E]). destruct l1; discriminate.
  - vm_compute in R. discriminate.
Qed.
Print Assumptions C67_same_basename_refuted.

(** An array made with explicit sizes is unusable: its first access reads an empty vector. *)
Theorem C67_sized_unusable : forall E last0 nd0 qw0 fc ptw pth w h cap tx ty px py v,
  let a := sized_ctor E last0 nd0 qw0 fc ptw pth w h cap in
  readQ E a tx ty px py = Undef /\ writeQ E a tx ty px py v = Undef /\ isNoDataQ E a tx ty px py = Undef /\ loadTile E a tx ty = Undef.
Proof.
  intros. assert (Q : isNullTile a tx ty = Undef).
  { unfold isNullTile, rd. cbn [d_quick a sized_ctor length]. destruct (0 <=? _) eqn:A; [|reflexivity].
    destruct (_ <? Z.of_nat 0) eqn:B; [|reflexivity]. apply Z.leb_le in A. apply Z.ltb_lt in B. lia. }
  unfold readQ, writeQ, isNoDataQ, loadTile. rewrite Q. auto.
Qed.
Print Assumptions C67_sized_unusable.

(** With cache size 0 the first access to an existing tile is undefined. *)
Theorem C67_cache_zero_undefined : forall E rows w h last0 nd0 fc fh fv s tx ty x,
  layout_ok E rows w h -> layout_ctor E last0 nd0 fc rows 0 = Ok s ->
  in_tile (layout_geom E rows w h) tx ty -> entry rows tx ty = Some x ->
  loadTile E (set_flips s fh fv) tx ty = Undef.
Proof.
  intros E rows w h last0 nd0 fc fh fv s tx ty x LO HC Hin He.
  rewrite (layout_ctor_ok E rows w h) in HC by auto. injection HC as <-.
  destruct (lay_flat E rows w h LO tx ty Hin) as [F1 F2].
  unfold loadTile, isNullTile. cbn [d_quick d_qw set_flips lay_state].
  change (ty * g_wt (layout_geom E rows w h) + tx) with (tid (layout_geom E rows w h) tx ty).
  rewrite (quick_ok E rows w h LO tx ty Hin). cbn [bind g_null layout_geom]. rewrite He.
  assert (TI : tile_ix (set_flips (lay_state E rows w h last0 nd0 fc 0) fh fv) tx ty = Ok (tid (layout_geom E rows w h) tx ty)).
  { unfold tile_ix. cbn [d_wt d_ht set_flips lay_state]. unfold in_tile in Hin.
    replace (inGrid (g_wt (layout_geom E rows w h)) (g_ht (layout_geom E rows w h)) tx ty) with true by (symmetry; apply inGrid_iff; lia). reflexivity. }
  rewrite TI. cbn [bind]. cbn [d_tiles set_flips lay_state]. rewrite F1, He. cbn [t_loaded layout_tile]. reflexivity.
Qed.
Print Assumptions C67_cache_zero_undefined.

(** An array modelled on a writable array none of whose tiles was used has no tile size: indexing divides by zero. *)
Theorem C67_template_of_template : forall E o last0 nd0 fc cap fs last1 nd1 fc1 cap1 fs1 x y v,
  let a := template_ctor E last0 nd0 fc o cap fs in let a' := template_ctor E last1 nd1 fc1 a cap1 fs1 in
  read E a' x y = Undef /\ write E a' x y v = Undef /\ isNoData E a' x y = Undef.
Proof.
  intros. assert (K : d_ptw a' = 0).
  { cbn. generalize (zrange 0 (Z.to_nat (d_wt o * d_ht o))). induction l as [|i l IH]; cbn in *; auto. }
  unfold read, write, isNoData, quad. rewrite K. auto.
Qed.
Print Assumptions C67_template_of_template.

(** ** C68: which tiles are in memory *)
Lemma fresh_LR E rows w h last0 nd0 fc cap fh fv : LR last0 cap [] (set_flips (lay_state E rows w h last0 nd0 fc cap) fh fv).
Proof.
  assert (R0 : recent cap [] = []) by (unfold recent; cbn; destruct (cap =? -1); [|rewrite firstn_nil]; reflexivity).
  constructor; cbn; rewrite ?R0; auto. intros j. destruct (nth _ _ _); reflexivity.
Qed.
Lemma template_LR E last0 nd0 fc o cap fs : LR last0 cap [] (template_ctor E last0 nd0 fc o cap fs).
Proof.
  assert (R0 : recent cap [] = []) by (unfold recent; cbn; destruct (cap =? -1); [|rewrite firstn_nil]; reflexivity).
  constructor; cbn; rewrite ?R0; auto.
Qed.

(** In memory are the [cap] most recently used tiles. Evictions are counted exactly. *)
Theorem C68_layout_lru : forall E rows w h last0 nd0 fc cap fh fv s ops outs s',
  env_ok E -> layout_ok E rows w h -> readable E fh rows w h -> cap = -1 \/ 1 <= cap ->
  let G := layout_geom E rows w h in ~ 0 <= last0 < g_wt G * g_ht G ->
  layout_ctor E last0 nd0 fc rows cap = Ok s -> Forall (valid (e_k E) G) ops -> Forall reads_only ops ->
  run E ops (set_flips s fh fv) = Ok (outs, s') ->
  (forall tx ty, in_tile G tx ty -> in_memory G s' tx ty = existsb (Z.eqb (ty * g_wt G + tx)) (recent cap (history G ops))) /\
  getEvictions s' = misses cap (history G ops) - Z.of_nat (length (recent cap (history G ops))).
Proof.
  intros E rows w h last0 nd0 fc cap fh fv s ops outs s' HE LO RD Hc G HL HC HV HR R.
  rewrite (layout_ctor_ok E rows w h) in HC by auto. injection HC as <-.
  assert (L : LR last0 cap (rev (flat_map (uses G) ops) ++ []) s').
  { eapply (run_LR (lay_meta rows) E G cap last0 ops HE (lay_dims E rows w h LO) Hc) with (s := set_flips (lay_state E rows w h last0 nd0 fc cap) fh fv); eauto.
    - intros tx ty [H1 H2] Q. apply HL. rewrite <- Q. unfold tid. cbn in *. nia.
    - apply layout_Inv; auto. lia.
    - apply fresh_LR.
    - cbn. lia.
    - cbn. discriminate. }
  rewrite app_nil_r in L. destruct L as [L1 L2 L3 L4]. split; [intros tx ty _; apply L3|exact L4].
Qed.
Print Assumptions C68_layout_lru.

Theorem C68_template_lru : forall E E' rows w h last0 nd0 fc cap fh fv s0 pre outs0 o last1 nd1 fc1 cap1 fs ops outs s',
  env_ok E -> env_ok E' -> e_maxstr E' = e_maxstr E -> layout_ok E rows w h -> distinct_bases rows -> readable E fh rows w h ->
  cap = -1 \/ 1 <= cap -> cap1 = -1 \/ 1 <= cap1 ->
  layout_ctor E last0 nd0 fc rows cap = Ok s0 -> Forall (valid (e_k E) (layout_geom E rows w h)) pre -> Forall reads_only pre ->
  run E pre (set_flips s0 fh fv) = Ok (outs0, o) ->
  let a := template_ctor E' last1 nd1 fc1 o cap1 fs in let G := layout_geom E' rows w h in
  ~ 0 <= last1 < g_wt G * g_ht G ->
  Forall (valid (e_k E') G) ops -> setNoData_early E' ops a -> run E' ops a = Ok (outs, s') ->
  (forall tx ty, in_tile G tx ty -> in_memory G s' tx ty = existsb (Z.eqb (ty * g_wt G + tx)) (recent cap1 (history G ops))) /\
  getEvictions s' = misses cap1 (history G ops) - Z.of_nat (length (recent cap1 (history G ops))).
Proof.
  intros E E' rows w h last0 nd0 fc cap fh fv s0 pre outs0 o last1 nd1 fc1 cap1 fs ops outs s' HE HE' HM LO HB RD Hc Hc1 HC HVp HRp HP a G HL HV HS HR.
  rewrite (layout_ctor_ok E rows w h) in HC by auto. injection HC as <-.
  destruct (run_ok (lay_meta rows) E (layout_geom E rows w h) cap pre HE (lay_dims E rows w h LO) ltac:(lia)
     (mkB (layout_val E fv rows w h) (layout_nd rows)) (set_flips (lay_state E rows w h last0 nd0 fc cap) fh fv)) as (o' & R & I & F); auto.
  { apply layout_Inv; auto. lia. } { cbn. lia. } { cbn. discriminate. }
  rewrite R in HP. injection HP as _ <-.
  destruct (template_Inv E E' rows w h LO HM (eo_k _ HE') cap _ o' last1 nd1 fc1 cap1 fs I) as [IT NC]; [unfold same_frame in F; cbn in F; tauto|lia|exact HB|].
  assert (L : LR last1 cap1 (rev (flat_map (uses G) ops) ++ []) s').
  { eapply (run_LR (lay_meta rows) E' G cap1 last1 ops HE' (lay_dims E rows w h LO) Hc1) with (s := a); eauto.
    - intros tx ty [H1 H2] Q. apply HL. rewrite <- Q. unfold tid. cbn in *. nia.
    - apply template_LR.
    - cbn. discriminate.
    - cbn. lia. }
  rewrite app_nil_r in L. destruct L as [L1 L2 L3 L4]. split; [intros tx ty _; apply L3|exact L4].
Qed.
Print Assumptions C68_template_lru.

(** So at most [cap] tiles are in memory at any time. *)
Theorem C68_bounded : forall E rows w h last0 nd0 fc cap fh fv s ops outs s',
  env_ok E -> layout_ok E rows w h -> readable E fh rows w h -> 1 <= cap ->
  let G := layout_geom E rows w h in ~ 0 <= last0 < g_wt G * g_ht G ->
  layout_ctor E last0 nd0 fc rows cap = Ok s -> Forall (valid (e_k E) G) ops -> Forall reads_only ops ->
  run E ops (set_flips s fh fv) = Ok (outs, s') ->
  Z.of_nat (length (filter (fun p => in_memory G s' (fst p) (snd p)) (all_tiles G))) <= cap.
Proof.
  intros E rows w h last0 nd0 fc cap fh fv s ops outs s' HE LO RD Hc G HL HC HV HR R.
  destruct (C68_layout_lru E rows w h last0 nd0 fc cap fh fv s ops outs s' HE LO RD (or_intror Hc) HL HC HV HR R) as [K _].
  assert (LR : (length (recent cap (history G ops)) <= Z.to_nat cap)%nat).
  { unfold recent. destruct (Z.eqb_spec cap (-1)); [lia|]. rewrite firstn_length. lia. }
  enough (length (filter (fun p => in_memory G s' (fst p) (snd p)) (all_tiles G)) <= length (recent cap (history G ops)))%nat by lia.
  rewrite <- (map_length (fun p => snd p * g_wt G + fst p)).
  apply NoDup_incl_length.
  - unfold all_tiles.
    assert (ND : NoDup (map (fun p => snd p * g_wt G + fst p) (map (fun i => (i mod g_wt G, i / g_wt G)) (zrange 0 (Z.to_nat (g_wt G * g_ht G)))))).
    { rewrite map_map. destruct (Z.eq_dec (g_wt G) 0) as [Z0|Z0]; [rewrite Z0; cbn; constructor|].
      rewrite (map_ext_in _ (fun i => i)); [rewrite map_id; apply zrange_NoDup|]. intros i Hi. cbn [fst snd]. pose proof (Z.div_mod i (g_wt G) Z0). lia. }
    revert ND. generalize (map (fun i => (i mod g_wt G, i / g_wt G)) (zrange 0 (Z.to_nat (g_wt G * g_ht G)))). intros l. induction l as [|p l IH]; cbn; auto.
    intros ND. inversion ND; subst. destruct (in_memory _ _ _ _); cbn; auto. constructor; auto. intros Q. apply H1. apply in_map_iff in Q.
    destruct Q as (q & Q1 & Q2). apply filter_In in Q2. apply in_map_iff. exists q. tauto.
  - intros i Hi. apply in_map_iff in Hi. destruct Hi as (p & <- & Hp). apply filter_In in Hp. destruct Hp as [P1 P2].
    unfold all_tiles in P1. apply in_map_iff in P1. destruct P1 as (i & <- & Hi). apply zrange_In in Hi.
    assert (Hw : 0 < g_wt G). { destruct (Z.eq_dec (g_wt G) 0) as [Z0|]; [rewrite Z0 in Hi; cbn in Hi; lia|]. cbn. cbn in n. lia. }
    assert (Hg : 0 <= g_ht G) by (cbn; lia).
    assert (Hin : in_tile G (i mod g_wt G) (i / g_wt G)).
    { split; [apply Z.mod_pos_bound; lia|]. split; [apply Z.div_pos; lia|apply Z.div_lt_upper_bound; lia]. }
    specialize (K _ _ Hin). cbn [fst snd] in *. fold G in K. rewrite K in P2. apply existsb_In in P2. exact P2.
Qed.
Print Assumptions C68_bounded.
Example C68_met : exists s', run env1 [ORead 1 3; ORead 3 3; ORead 0 0] (match layout_ctor env1 (-1) 0 true rows1 2 with Ok s => s | _ => s1 end) = Ok ([6; 12; 1], s') /\
  history G1 [ORead 1 3; ORead 3 3; ORead 0 0] = [0; 3; 2] /\ recent 2 [0; 3; 2] = [0; 3] /\ getEvictions s' = 1 /\
  map (fun p => in_memory G1 s' (fst p) (snd p)) (all_tiles G1) = [true; false; false; true].
Proof. eexists. split; [vm_compute; reflexivity|]. vm_compute. auto. Qed.

(** If the uninitialised member "last" of the cache happens to equal the first tile used, that tile stays in memory
    outside the count. *)
Theorem C68_uninitialised_refuted : ~ (forall E rows w h last0 nd0 fc cap s ops outs s',
  env_ok E -> layout_ok E rows w h -> readable E false rows w h -> 1 <= cap ->
  let G := layout_geom E rows w h in
  layout_ctor E last0 nd0 fc rows cap = Ok s -> Forall (valid (e_k E) G) ops -> Forall reads_only ops ->
  run E ops s = Ok (outs, s') ->
  Z.of_nat (length (filter (fun p => in_memory G s' (fst p) (snd p)) (all_tiles G))) <= cap).
Proof.
  intros C. pose proof (C env1 rows1 2 2 0 0 false 1 _ [ORead 0 0; ORead 0 2; ORead 2 2] _ _ env1_ok rows1_ok rows1_readable ltac:(lia)
    eq_refl ltac:(repeat constructor; cbn; lia) ltac:(repeat constructor) ltac:(vm_compute; reflexivity)) as Q. vm_compute in Q. apply Q. reflexivity.
Qed.
Print Assumptions C68_uninitialised_refuted.

(** ** C70: merging by layout *)
(** If tile (0,0) exists and all NoData values are equal (missing tiles count with the default -1), the output is the
    whole raster, gaps filled with NoData. *)
Theorem C70_merge : forall E rows w h last0 nd0 fc cap fh fv s x00,
  env_ok E -> layout_ok E rows w h -> readable E fh rows w h -> cap = -1 \/ 1 <= cap ->
  layout_ctor E last0 nd0 fc rows cap = Ok s -> entry rows 0 0 = Some x00 ->
  let G := layout_geom E rows w h in
  (forall tx ty, in_tile G tx ty -> e_eqb E (match entry rows tx ty with Some x => h_nd x | None => 256 ^ Z.of_nat (e_k E) - 1 end) (h_nd x00) = true) ->
  exists out s', saveUnifiedGDAL E (set_flips s fh fv) = Ok (out, h_nd x00, h_geo x00, s') /\
    forall x y, in_big G x y -> out x y = unified G (mkB (layout_val E fv rows w h) (layout_nd rows)) (h_nd x00) x y.
Proof.
  intros E rows w h last0 nd0 fc cap fh fv s x00 HE LO RD Hc HC H0 G HN.
  rewrite (layout_ctor_ok E rows w h) in HC by auto. injection HC as <-.
  assert (H00 : in_tile G 0 0).
  { destruct (lo_some _ _ _ _ LO) as [x Hx]. unfold entry in H0. cbn in H0. split; cbn.
    - destruct rows as [|r rows']; [destruct Hx|]. cbn in *. destruct r; cbn in *; [discriminate|lia].
    - destruct rows as [|r rows']; [destruct Hx|]. cbn. lia. }
  assert (N0 : layout_nd rows 0 0 = h_nd x00) by (unfold layout_nd; rewrite H0; reflexivity).
  destruct (saveUnified_ok (lay_meta rows) E G cap (mkB (layout_val E fv rows w h) (layout_nd rows)) (set_flips (lay_state E rows w h last0 nd0 fc cap) fh fv))
    as (out & s' & R & _ & _ & P); auto.
  - apply (lay_dims E rows w h LO).
  - apply layout_Inv; auto. lia.
  - lia.
  - cbn. rewrite H0. reflexivity.
  - intros tx ty Hin. cbn [b_nd]. rewrite N0, <- (HN tx ty Hin). unfold tile_nd, layout_nd. cbn [g_null g_nullval G layout_geom b_nd].
    unfold layout_nd. destruct (entry rows tx ty); reflexivity.
  - cbn [b_nd] in *. rewrite N0 in *. exists out, s'. split; [|exact P]. rewrite R. unfold lay_meta. rewrite H0. reflexivity.
Qed.
Print Assumptions C70_merge.
Example C70_met : exists s out s', layout_ctor env1 0 0 true rows1 1 = Ok s /\ saveUnifiedGDAL env1 s = Ok (out, 255, north, s') /\
  map (fun p => out (snd p) (fst p)) (list_prod (zrange 0 4) (zrange 0 4)) = [1; 2; 255; 255; 3; 4; 255; 255; 7; 8; 9; 10; 5; 6; 255; 12].
Proof. eexists _, _, _. split; [reflexivity|]. split; [vm_compute; reflexivity|]. vm_compute. reflexivity. Qed.

(** Otherwise it throws, ... *)
Theorem C70_differing_nodata : forall E rows w h last0 nd0 fc cap fh fv s tx ty,
  env_ok E -> layout_ok E rows w h -> readable E fh rows w h -> cap = -1 \/ 1 <= cap ->
  layout_ctor E last0 nd0 fc rows cap = Ok s -> in_tile (layout_geom E rows w h) tx ty ->
  let nd tx ty := match entry rows tx ty with Some x => h_nd x | None => 256 ^ Z.of_nat (e_k E) - 1 end in
  e_eqb E (nd tx ty) (nd 0 0) = false -> saveUnifiedGDAL E (set_flips s fh fv) = Thrown.
Proof.
  intros E rows w h last0 nd0 fc cap fh fv s tx ty HE LO RD Hc HC Hin nd HN.
  rewrite (layout_ctor_ok E rows w h) in HC by auto. injection HC as <-.
  assert (K : forall x y, tile_nd (layout_geom E rows w h) (mkB (layout_val E fv rows w h) (layout_nd rows)) x y = nd x y).
  { intros x y. unfold tile_nd, nd. cbn [g_null g_nullval layout_geom b_nd]. unfold layout_nd. destruct (entry rows x y); reflexivity. }
  eapply (saveUnified_bad (lay_meta rows)) with (cap := cap) (b := mkB (layout_val E fv rows w h) (layout_nd rows)).
  - apply layout_Inv; auto. lia.
  - destruct Hin as [H1 H2]. split; lia.
  - exists tx, ty. rewrite !K. auto.
Qed.
Print Assumptions C70_differing_nodata.
Theorem C70_first_missing : forall E rows w h last0 nd0 fc cap fh fv s,
  env_ok E -> layout_ok E rows w h -> readable E fh rows w h -> cap = -1 \/ 1 <= cap ->
  layout_ctor E last0 nd0 fc rows cap = Ok s -> entry rows 0 0 = None ->
  saveUnifiedGDAL E (set_flips s fh fv) = Thrown.
Proof.
  intros E rows w h last0 nd0 fc cap fh fv s HE LO RD Hc HC H0.
  rewrite (layout_ctor_ok E rows w h) in HC by auto. injection HC as <-.
  assert (H00 : in_tile (layout_geom E rows w h) 0 0).
  { destruct (lo_some _ _ _ _ LO) as [x Hx]. split; cbn.
    - destruct rows as [|r rows']; [destruct Hx|]. cbn. destruct r as [|q r]; [|cbn; lia]. exfalso.
      assert (A : forall r', In r' ([] :: rows') -> r' = []). { intros r' Hr. pose proof (lo_rect _ _ _ _ LO r' Hr) as Q. cbn in Q. destruct r'; [auto|discriminate]. }
      apply in_concat in Hx. destruct Hx as (r' & R1 & R2). rewrite (A r' R1) in R2. destruct R2.
    - destruct rows as [|r rows']; [destruct Hx|]. cbn. lia. }
  eapply (saveUnified_geo (lay_meta rows)) with (cap := cap) (b := mkB (layout_val E fv rows w h) (layout_nd rows)).
  - apply layout_Inv; auto. lia.
  - exact H00.
  - destruct (lay_flat E rows w h LO 0 0 H00) as [F1 _]. cbn [d_tiles set_flips lay_state]. rewrite F1, H0. cbn. lia.
Qed.
Print Assumptions C70_first_missing.
(** ... so layouts with gaps cannot be merged unless the files' NoData value is -1. *)
Definition rows3 : list (list (option hdr)) := [[Some (mkH 2 2 0 north [65] 1 11); None]].
Lemma rows3_ok : layout_ok env1 rows3 2 2.
Proof.
  constructor.
  - intros r [<-|[]]; reflexivity.
  - eexists. left. reflexivity.
  - intros x H. cbn in H. destruct H as [H|[H|[]]]; try discriminate; injection H as <-; (split; [|auto]); constructor; cbn; unfold is_val, is_byte;
      try lia; repeat constructor; cbn; lia.
  - cbn. lia.
Qed.
Lemma rows3_readable : readable env1 false rows3 2 2.
Proof.
  intros x H. cbn in H. destruct H as [H|[H|[]]]; try discriminate; injection H as <-; (split; [reflexivity|]); eexists; (split; [reflexivity|]);
    (split; [reflexivity|]); repeat constructor; cbn; lia.
Qed.
Theorem C70_gap_refuted : ~ (forall E rows w h last0 nd0 fc cap s nd,
  env_ok E -> layout_ok E rows w h -> readable E false rows w h -> cap = -1 \/ 1 <= cap ->
  layout_ctor E last0 nd0 fc rows cap = Ok s -> (forall x, In (Some x) (concat rows) -> h_nd x = nd) ->
  exists r, saveUnifiedGDAL E s = Ok r).
Proof.
  intros C. destruct (C env1 rows3 2 2 (-1) 0 false 1 _ 0 env1_ok rows3_ok rows3_readable ltac:(lia) eq_refl) as [r R].
  - intros x H. cbn in H. destruct H as [H|[H|[]]]; try discriminate; injection H as <-; reflexivity.
  - vm_compute in R. discriminate.
Qed.
Print Assumptions C70_gap_refuted.

Lemma Forall2_weaken {A B} (P Q : A -> B -> Prop) l m : (forall a b, P a b -> Q a b) -> Forall2 P l m -> Forall2 Q l m.
Proof. induction 2; constructor; auto. Qed.
(** ** C71: saving a writable array tile by tile.
    The code as it is cannot save any tile ([C71_saves_refuted] below); the theorems on [saveGDAL_intended] are about the code
    with the message argument of line 520 left out. *)
Theorem C71_save : forall E E' rows w h last0 nd0 fc cap fh fv s0 pre outs o last1 nd1 fc1 cap1 fs ops outs1 s,
  env_ok E -> env_ok E' -> e_maxstr E' = e_maxstr E -> layout_ok E rows w h -> distinct_bases rows -> readable E fh rows w h ->
  cap = -1 \/ 1 <= cap -> cap1 = -1 \/ 1 <= cap1 ->
  layout_ctor E last0 nd0 fc rows cap = Ok s0 -> Forall (valid (e_k E) (layout_geom E rows w h)) pre -> Forall reads_only pre ->
  run E pre (set_flips s0 fh fv) = Ok (outs, o) ->
  let a := template_ctor E' last1 nd1 fc1 o cap1 fs in let G := layout_geom E' rows w h in
  Forall (valid (e_k E') G) ops -> setNoData_early E' ops a -> run E' ops a = Ok (outs1, s) ->
  let b := snd (spec_run (e_eqb E') G ops (blank E')) in
  exists out s', saveGDAL_intended E' s = Ok (out, s') /\
    Forall2 (fun p f => match entry rows (snd p) (fst p) with
                        | None => f = None
                        | Some x => tile_file G b (snd p) (fst p) (h_base x) (xorb (d_pos (nth 5 (h_geo x) 0)) fv) f
                        end)
            (list_prod (zrange 0 (length rows)) (zrange 0 (length (nth 0 rows [])))) out.
Proof.
  intros E E' rows w h last0 nd0 fc cap fh fv s0 pre outs o last1 nd1 fc1 cap1 fs ops outs1 s HE HE' HM LO HB RD Hc Hc1 HC HVp HRp HP a G HV HS HR b.
  rewrite (layout_ctor_ok E rows w h) in HC by auto. injection HC as <-.
  destruct (run_ok (lay_meta rows) E (layout_geom E rows w h) cap pre HE (lay_dims E rows w h LO) ltac:(lia)
     (mkB (layout_val E fv rows w h) (layout_nd rows)) (set_flips (lay_state E rows w h last0 nd0 fc cap) fh fv)) as (o' & R & I & F); auto.
  { apply layout_Inv; auto. lia. } { cbn. lia. } { cbn. discriminate. }
  rewrite R in HP. injection HP as _ <-.
  assert (Fo : d_ro o' = true /\ d_flipH o' = fh /\ d_flipV o' = fv) by (unfold same_frame in F; cbn in F; tauto). destruct Fo as (Fo1 & Fo2 & Fo3).
  destruct (template_Inv E E' rows w h LO HM (eo_k _ HE') cap _ o' last1 nd1 fc1 cap1 fs I) as [IT NC]; [auto|lia|exact HB|].
  destruct (run_ok (lay_meta rows) E' G cap1 ops HE' (lay_dims E rows w h LO) ltac:(lia) (blank E') a IT) as (s2 & R' & I2 & F2); auto.
  { cbn. discriminate. } { cbn. lia. }
  rewrite HR in R'. injection R' as _ ->.
  assert (Fs : d_ro s2 = false /\ d_flipH s2 = fh /\ d_flipV s2 = fv) by (unfold same_frame in F2; cbn in F2; intuition congruence). destruct Fs as (Fs1 & Fs2 & Fs3).
  destruct (saveGDAL_ok (lay_meta rows) E' G cap1 b s2 HE' (lay_dims E rows w h LO) I2 ltac:(lia) Fs1) as (out & s' & S1 & S2 & S3 & S4).
  { intros tx ty Hin Hn. cbn in Hn. unfold lay_meta. destruct (entry rows tx ty) as [x|] eqn:He; [|discriminate]. cbn. rewrite Fs2.
    apply (RD x). eapply (lay_In E rows w h LO); eauto. }
  exists out, s'. split; [exact S1|].
  assert (TL : tilelist s2 = list_prod (zrange 0 (length rows)) (zrange 0 (length (nth 0 rows [])))).
  { unfold tilelist. rewrite (I_wt _ _ _ _ _ _ I2), (I_ht _ _ _ _ _ _ I2). cbn. rewrite !Nat2Z.id. reflexivity. }
  rewrite <- TL. eapply Forall2_weaken; [|exact S3]. intros [ty tx] f Hf. cbn [fst snd] in *. unfold saved in Hf. cbn [g_null G layout_geom] in Hf.
  destruct (entry rows tx ty) as [x|] eqn:He; [|exact Hf]. destruct Hf as (q & Q1 & Q2 & Q3 & Q4 & Q5). exists q.
  unfold lay_meta, flip_of in *. rewrite He in *. cbn [m_base m_geo] in *. rewrite Fs3 in Q5. auto.
Qed.
Print Assumptions C71_save.

(** "saveGDAL writes the tiles" is false of the code as it is: whatever was done before, saving is undefined behaviour (a string is
    constructed from a null pointer) at the first tile that exists. *)
Theorem C71_saves_refuted : forall E E' rows w h last0 nd0 fc cap fh fv s0 pre outs o last1 nd1 fc1 cap1 fs ops outs1 s,
  env_ok E -> env_ok E' -> e_maxstr E' = e_maxstr E -> layout_ok E rows w h -> distinct_bases rows -> readable E fh rows w h ->
  cap = -1 \/ 1 <= cap -> cap1 = -1 \/ 1 <= cap1 ->
  layout_ctor E last0 nd0 fc rows cap = Ok s0 -> Forall (valid (e_k E) (layout_geom E rows w h)) pre -> Forall reads_only pre ->
  run E pre (set_flips s0 fh fv) = Ok (outs, o) ->
  let a := template_ctor E' last1 nd1 fc1 o cap1 fs in let G := layout_geom E' rows w h in
  Forall (valid (e_k E') G) ops -> setNoData_early E' ops a -> run E' ops a = Ok (outs1, s) ->
  saveGDAL E' s = Undef.
Proof.
  intros E E' rows w h last0 nd0 fc cap fh fv s0 pre outs o last1 nd1 fc1 cap1 fs ops outs1 s HE HE' HM LO HB RD Hc Hc1 HC HVp HRp HP a G HV HS HR.
  destruct (C71_save E E' rows w h last0 nd0 fc cap fh fv s0 pre outs o last1 nd1 fc1 cap1 fs ops outs1 s HE HE' HM LO HB RD Hc Hc1 HC HVp HRp HP HV HS HR)
    as (out & s' & S1 & S2).
  destruct (saveGDAL_stops _ _ _ _ S1) as [[U _]|[U [N ->]]]; [exact U|]. exfalso.
  destruct (lo_some _ _ _ _ LO) as [x Hx]. apply in_concat in Hx. destruct Hx as (r & Hr & Hx).
  destruct (In_nth _ _ [] Hr) as (j & J1 & J2). destruct (In_nth _ _ None Hx) as (i & I1 & I2).
  assert (Hp : In (Z.of_nat j, Z.of_nat i) (list_prod (zrange 0 (length rows)) (zrange 0 (length (nth 0 rows []))))).
  { apply in_prod; apply zrange_In; [lia|]. rewrite <- (lo_rect _ _ _ _ LO r Hr). lia. }
  assert (He : entry rows (Z.of_nat i) (Z.of_nat j) = Some x) by (unfold entry; rewrite !Nat2Z.id, J2; exact I2).
  clear - S2 Hp He N. induction S2 as [|p f l l' H H' IH]; [destruct Hp|]. destruct Hp as [->|Hp].
  - cbn [fst snd] in H. rewrite He in H. destruct H as (q & Q & _). rewrite (N f) in Q by (left; reflexivity). discriminate.
  - apply IH; [|exact Hp]. intros g Hg. apply N. right. exact Hg.
Qed.
Print Assumptions C71_saves_refuted.
(** the array of [C71_met]: the code as it is, and the intended code *)
Example C71_stops : saveGDAL env1 (template_ctor env1 (-1) 0 true s1 1 (fun _ => None)) = Undef.
Proof. vm_compute. reflexivity. Qed.
Example C71_met : exists out s', saveGDAL_intended env1 (template_ctor env1 (-1) 0 true s1 1 (fun _ => None)) = Ok (out, s') /\
  match out with [Some (11, _); None; Some (12, _); Some (13, _)] => True | _ => False end.
Proof. eexists _, _. split; [vm_compute; reflexivity|]. exact Logic.I. Qed.

(** If no tile is stored bottom up the array can be used further as if nothing had happened. *)
Lemma run_plain M E G cap ops : env_ok E -> dims (g_pw G) (g_ph G) -> cap <> 0 ->
  forall b s, Inv M E G cap b s -> d_ro s = false -> Forall (valid (e_k E) G) ops -> Forall no_setNoData ops ->
  exists s', run E ops s = Ok (fst (spec_run (e_eqb E) G ops b), s').
Proof.
  intros HE D Hcap. induction ops as [|o ops IH]; intros b s I Hro HV HN; cbn [run spec_run fst snd]; [eauto|].
  apply Forall_cons_iff in HV. apply Forall_cons_iff in HN. destruct HV as [HV1 HV2]. destruct HN as [HN1 HN2].
  destruct (step_ok M E G cap b s o HE D I Hcap HV1) as (s1' & E1 & I1 & (F1 & _)); [congruence|auto|].
  rewrite E1. cbn [bind fst snd]. destruct (IH _ s1' I1) as (s' & E2); auto; [unfold same_frame in F1; intuition congruence|].
  rewrite E2. cbn [bind fst snd]. eauto.
Qed.
Theorem C71_reusable : forall E E' rows w h last0 nd0 fc cap fh fv s0 pre outs o last1 nd1 fc1 cap1 fs ops outs1 s ops2,
  env_ok E -> env_ok E' -> e_maxstr E' = e_maxstr E -> layout_ok E rows w h -> distinct_bases rows -> readable E fh rows w h ->
  cap = -1 \/ 1 <= cap -> cap1 = -1 \/ 1 <= cap1 ->
  layout_ctor E last0 nd0 fc rows cap = Ok s0 -> Forall (valid (e_k E) (layout_geom E rows w h)) pre -> Forall reads_only pre ->
  run E pre (set_flips s0 fh fv) = Ok (outs, o) ->
  let a := template_ctor E' last1 nd1 fc1 o cap1 fs in let G := layout_geom E' rows w h in
  Forall (valid (e_k E') G) ops -> setNoData_early E' ops a -> run E' ops a = Ok (outs1, s) ->
  (forall x, In (Some x) (concat rows) -> xorb (d_pos (nth 5 (h_geo x) 0)) fv = false) ->
  Forall (valid (e_k E') G) ops2 -> Forall no_setNoData ops2 ->
  exists out s' s2, saveGDAL_intended E' s = Ok (out, s') /\
    run E' ops2 s' = Ok (fst (spec_run (e_eqb E') G ops2 (snd (spec_run (e_eqb E') G ops (blank E')))), s2).
Proof.
  intros E E' rows w h last0 nd0 fc cap fh fv s0 pre outs o last1 nd1 fc1 cap1 fs ops outs1 s ops2 HE HE' HM LO HB RD Hc Hc1 HC HVp HRp HP a G HV HS HR HT HV2 HN2.
  rewrite (layout_ctor_ok E rows w h) in HC by auto. injection HC as <-.
  destruct (run_ok (lay_meta rows) E (layout_geom E rows w h) cap pre HE (lay_dims E rows w h LO) ltac:(lia)
     (mkB (layout_val E fv rows w h) (layout_nd rows)) (set_flips (lay_state E rows w h last0 nd0 fc cap) fh fv)) as (o' & R & I & F); auto.
  { apply layout_Inv; auto. lia. } { cbn. lia. } { cbn. discriminate. }
  rewrite R in HP. injection HP as _ <-.
  assert (Fo : d_ro o' = true /\ d_flipH o' = fh /\ d_flipV o' = fv) by (unfold same_frame in F; cbn in F; tauto). destruct Fo as (Fo1 & Fo2 & Fo3).
  destruct (template_Inv E E' rows w h LO HM (eo_k _ HE') cap _ o' last1 nd1 fc1 cap1 fs I) as [IT NC]; [auto|lia|exact HB|].
  destruct (run_ok (lay_meta rows) E' G cap1 ops HE' (lay_dims E rows w h LO) ltac:(lia) (blank E') a IT) as (s2 & R' & I2 & F2); auto.
  { cbn. discriminate. } { cbn. lia. }
  rewrite HR in R'. injection R' as _ ->.
  assert (Fs : d_ro s2 = false /\ d_flipH s2 = fh /\ d_flipV s2 = fv) by (unfold same_frame in F2; cbn in F2; intuition congruence). destruct Fs as (Fs1 & Fs2 & Fs3).
  set (b := snd (spec_run (e_eqb E') G ops (blank E'))) in *.
  destruct (saveGDAL_ok (lay_meta rows) E' G cap1 b s2 HE' (lay_dims E rows w h LO) I2 ltac:(lia) Fs1) as (out & s' & S1 & S2 & S3 & S4).
  { intros tx ty Hin Hn. cbn in Hn. unfold lay_meta. destruct (entry rows tx ty) as [x|] eqn:He; [|discriminate]. cbn. rewrite Fs2.
    apply (RD x). eapply (lay_In E rows w h LO); eauto. }
  exists out, s'.
  assert (IB : Inv (lay_meta rows) E' G cap1 b s').
  { eapply Inv_ext; [| |exact S4]; cbn [b_val b_nd]; auto. intros x y. unfold turned. cbv zeta.
    destruct (flip_of s2 (lay_meta rows (x / g_pw G) (y / g_ph G))) eqn:Fl; [|reflexivity].
    destruct (g_null G (x / g_pw G) (y / g_ph G)) eqn:Hn; [reflexivity|].
    destruct (existsb _ (tilelist s2)) eqn:Ex; [|reflexivity]. exfalso. apply existsb_exists in Ex. destruct Ex as ([ty tx] & X1 & X2). cbn in X2.
    apply andb_true_iff in X2. destruct X2 as [X2 X3]. apply Z.eqb_eq in X2, X3.
    apply (tilelist_In (lay_meta rows) E' G cap1 b s2 _ I2) in X1. cbn [fst snd] in X1. unfold flip_of, lay_meta in Fl.
    cbn in Hn. cbn [G layout_geom g_pw g_ph] in *. rewrite <- X2, <- X3 in Hn, Fl. destruct (entry rows tx ty) as [q|] eqn:He; [|discriminate]. cbn in Fl. rewrite Fs3 in Fl.
    rewrite HT in Fl; [discriminate|]. eapply (lay_In E rows w h LO); eauto. }
  destruct (run_plain (lay_meta rows) E' G cap1 ops2 HE' (lay_dims E rows w h LO) ltac:(lia) b s' IB) as (s3 & R3); auto.
  { unfold same_frame in S2. intuition congruence. }
  exists s3. auto.
Qed.
Print Assumptions C71_reusable.

(** Saving turns bottom-up tiles over in memory and leaves them so: afterwards the array reads differently. *)
Theorem C71_reusable_refuted : ~ (forall E rows w h s0 a ops outs s out s',
  env_ok E -> layout_ok E rows w h -> distinct_bases rows -> readable E false rows w h ->
  layout_ctor E (-1) 0 false rows (-1) = Ok s0 -> a = template_ctor E (-1) 0 false s0 (-1) (fun _ => None) ->
  Forall (valid (e_k E) (layout_geom E rows w h)) ops -> run E ops a = Ok (outs, s) -> saveGDAL_intended E s = Ok (out, s') ->
  forall x y r r' t t', in_big (layout_geom E rows w h) x y -> read E s x y = Ok (r, t) -> read E s' x y = Ok (r', t') -> r = r').
Proof.
  intros C. pose proof (C env1 rows1 2 2 _ _ [OWrite 0 2 7] _ _ _ _ env1_ok rows1_ok rows1_bases rows1_readable eq_refl eq_refl
    ltac:(repeat constructor; cbn; lia) ltac:(vm_compute; reflexivity) ltac:(vm_compute; reflexivity) 0 2 7 0 _ _ ltac:(split; cbn; lia)
    ltac:(vm_compute; reflexivity) ltac:(vm_compute; reflexivity)) as Q. discriminate.
Qed.
Print Assumptions C71_reusable_refuted.
