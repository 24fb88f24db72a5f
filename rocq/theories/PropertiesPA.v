(** Properties C55-C58: programs/parallel_d8_accum. *)
From Coq Require Import ZArith List Lia Bool Permutation.
From Verif Require Import Base Res Kahn RasterSpec RasterFacts FlowSpec FlowModel FlowProofs PPFModel PPFSpec PPFMaster PPFTop PAModel PATile PAPath PASpec PAGeo PAMaster PATop PropertiesPF PropertiesPPF.
Open Scope Z_scope.

(** What the program needs: tiles not stored mirrored left to right, with at least two rows and a perimeter that 16 bits can
    number; valid direction codes; at least one consumer; replies in any order. *)
Definition usable (L : layout) (fnd limit : Z) (arrive : list (Z * Z * pjob) -> list (Z * Z * pjob)) : Prop :=
  proper L /\ flipH L = false /\ two_rows L /\ fits L /\ codes_ok (whole L fnd) fnd (W L) (H L) /\ 0 < limit /\ any_order arrive.
(** no water from a cell at a border between tiles runs into a loop inside its tile *)
Definition seams_drain (L : layout) (fnd : Z) : Prop := forall x y, here L x y -> at_seam L (x, y) -> ~ trapped L fnd (x, y).

Lemma complete_no_pinch L : complete L -> no_pinch L.
Proof.
  intros C x y x' y' [R1 _] [R2 _] _. left. split; [split; [apply R1|apply R2]|]. destruct (nul L (col L x) (row L y')) eqn:N; [|reflexivity].
  exfalso. apply (C x y'). split; [split; [apply R1|apply R2]|exact N].
Qed.

(** C55, C56. For every raster of flow directions cut into tiles, some of them missing, in every retention mode, for any number
    of consumers and any order of the replies: the program ends without an error; a data cell that is not below a loop gets the
    number of cells upstream of it on the whole raster, where missing tiles count as NoData; NoData cells get -1; there is no
    output for missing tiles. *)
Theorem C56_missing_tiles : forall L fnd m limit arrive fs0, usable L fnd limit arrive -> no_pinch L -> seams_drain L fnd ->
  exists outp, PAModel.run L fnd m limit arrive fs0 = Ok outp /\
    (forall x y, data (whole L fnd) fnd (W L) (H L) (x, y) -> ~ below_loop (whole L fnd) fnd (W L) (H L) (x, y) ->
       exists v, out_at L outp x y = Some v /\ upstream_count (whole L fnd) fnd (W L) (H L) (x, y) v) /\
    (forall x y, here L x y -> mosaic L x y = fnd -> out_at L outp x y = Some (-1)) /\
    (forall x y, missing L x y -> out_at L outp x y = None).
Proof.
  intros L fnd m limit arrive fs0 [HL [HF [HR [HS [HC [_ HA]]]]]] HP HD.
  destruct (run_accum L fnd HL HC HR HS HF m limit arrive fs0 HA HP) as [outp [E [A [B C]]]].
  { intros [x y] Hp S. apply HD; auto. }
  exists outp. split; [exact E|]. split; [intros x y D N; apply (A (x, y)); auto|]. split.
  - intros x y Hh Em. apply (B (x, y)); [exact Hh|]. unfold whole. cbn [fst snd]. rewrite (proj2 Hh). exact Em.
  - intros x y [_ N]. unfold out_at. rewrite C; [reflexivity|]. rewrite tiles_In. cbn [fst snd]. intros [_ [_ X]]. congruence.
Qed.
Print Assumptions C56_missing_tiles.

(** C55. Without missing tiles: on every cell that is not below a loop the tiles hold what d8_flow_accum computes on the raster
    in one piece. *)
Theorem C55_tiled_equals_whole : forall L fnd m limit arrive fs0, usable L fnd limit arrive -> complete L -> seams_drain L fnd ->
  exists outp area, PAModel.run L fnd m limit arrive fs0 = Ok outp /\ d8_flow_accum (mosaic L) fnd (W L) (H L) (scan (W L) (H L)) = Some (Ok area) /\
    (forall x y, in_raster (W L) (H L) x y -> ~ below_loop (mosaic L) fnd (W L) (H L) (x, y) -> out_at L outp x y = Some (area (x, y))).
Proof.
  intros L fnd m limit arrive fs0 HU HC HD.
  assert (NH : forall x y, in_raster (W L) (H L) x y -> here L x y).
  { intros x y R. split; [exact R|]. destruct (nul L (col L x) (row L y)) eqn:N; [destruct (HC x y); split; assumption|reflexivity]. }
  assert (EW : forall x y, in_raster (W L) (H L) x y -> whole L fnd x y = mosaic L x y) by (intros x y R; unfold whole; rewrite (proj2 (NH x y R)); reflexivity).
  assert (ED : forall p, data (whole L fnd) fnd (W L) (H L) p <-> data (mosaic L) fnd (W L) (H L) p).
  { intros p. unfold data. split; intros [R N]; (split; [exact R|]); [rewrite <- EW by exact R|rewrite EW by exact R]; exact N. }
  assert (EG : forall p q, gives (whole L fnd) fnd (W L) (H L) p q <-> gives (mosaic L) fnd (W L) (H L) p q).
  { intros p q. unfold gives. rewrite !ED. split; intros [D [D' T]]; (split; [exact D|]); (split; [exact D'|]); [rewrite <- EW by apply D|rewrite EW by apply D]; exact T. }
  assert (EP : forall p q, passes (whole L fnd) fnd (W L) (H L) p q <-> passes (mosaic L) fnd (W L) (H L) p q).
  { intros p q. split; (induction 1 as [|p q r P IH G]; [constructor|eapply passes_on; [exact IH|apply EG; exact G]]). }
  assert (EB : forall p, below_loop (whole L fnd) fnd (W L) (H L) p <-> below_loop (mosaic L) fnd (W L) (H L) p).
  { intros p. unfold below_loop, looping. split; intros [q [[d [A B]] C]]; exists q; (split; [exists d; split; [apply EP; exact A|apply EG; exact B]|apply EP; exact C]). }
  assert (CM : codes_ok (mosaic L) fnd (W L) (H L)).
  { intros x y R N. rewrite <- EW in N |- * by exact R. apply HU; auto. }
  destruct (C56_missing_tiles L fnd m limit arrive fs0 HU (complete_no_pinch L HC) HD) as [outp [E [A [B _]]]].
  destruct (accum_correct (mosaic L) fnd (W L) (H L) CM (scan (W L) (H L))) as [area [E' [[G1 [_ G3]] _]]].
  { apply NoDup_Permutation; [apply scan_NoDup|apply cells_NoDup|]. intros [x y]. rewrite scan_In, cells_In. reflexivity. }
  exists outp, area. split; [exact E|]. split; [exact E'|]. intros x y R NB. destruct (Z.eq_dec (mosaic L x y) fnd) as [EF|NF].
  - rewrite (B x y (NH x y R) EF). f_equal. symmetry. apply (G3 (x, y)); auto.
  - assert (D : data (mosaic L) fnd (W L) (H L) (x, y)) by (split; auto).
    destruct (A x y) as [v [Ev [U [ND [HI ->]]]]]; [apply ED; exact D|rewrite EB; exact NB|]. rewrite Ev. f_equal.
    destruct (G1 (x, y) D NB) as [U' [ND' [HI' ->]]]. f_equal. apply (same_length U U'); auto. intros q. rewrite HI, HI', ED, EP. reflexivity.
Qed.
Print Assumptions C55_tiled_equals_whole.

(** A raster of 7 x 5 flow directions with a NoData cell, 255; tiles of [b] columns and 3 rows, the last row of tiles is 2 high *)
Definition dirs7 : list (list Z) := [[7;7;8;1;255;7;7]; [5;6;7;8;1;0;7]; [3;5;7;5;5;6;7]; [3;4;5;6;5;5;7]; [7;8;1;7;7;1;1]].
Definition layd (fV : bool) (b : Z) (rows : list (list Z)) : layout :=
  mkLay 7 5 b 3 false (fun _ _ => false) false fV
    (fun tx ty x y => let th := Z.min 3 (5 - ty * 3) in of_rows rows (tx * b + x) (ty * 3 + (if fV then th - 1 - y else y))) (fun _ _ n => n).
Definition acc7 : list (list Z) := [[1;1;2;1;-1;1;1]; [4;8;1;2;1;2;2]; [2;1;14;1;2;3;3]; [1;1;15;16;1;2;9]; [1;2;1;1;28;11;10]].
Example C55_run : forall fV b, b = 3 \/ b = 1 \/ b = 7 -> forall m,
  show_out (layd fV b dirs7) (PAModel.run (layd fV b dirs7) 255 m 2 (@rev _) (fun _ => None)) = Some (map (map Some) acc7).
Proof. intros fV b [-> | [-> | ->]] m; destruct fV, m; vm_compute; reflexivity. Qed.

(** If numbers can be put on the cells that grow along the flow there are no loops. *)
Definition grows (L : layout) (fnd : Z) (r : grid Z) : Prop := forall p q, gives (whole L fnd) fnd (W L) (H L) p q -> r (fst p) (snd p) < r (fst q) (snd q).
Lemma grows_drain L fnd r : grows L fnd r -> seams_drain L fnd /\ forall p, ~ below_loop (whole L fnd) fnd (W L) (H L) p.
Proof.
  intros G. split.
  - intros x y _ _ [q [s [_ [Wn [Gv _]]]]]. assert (LE : r (fst q) (snd q) <= r (fst s) (snd s)).
    { clear Gv. induction Wn as [|p q s Wn IH [Gv X]]; [lia|]. apply G in Gv. lia. }
    apply G in Gv. lia.
  - intros p [q [[s [P Gv]] _]]. assert (LE : r (fst q) (snd q) <= r (fst s) (snd s)).
    { clear Gv. induction P as [|p' q s P IH Gv]; [lia|]. apply G in Gv. lia. }
    apply G in Gv. lia.
Qed.
Lemma grows_check L fnd r : codes_ok (whole L fnd) fnd (W L) (H L) ->
  forallb (fun c => forallb (fun e => r (fst c) (snd c) <? r (fst (fst e)) (snd (fst e))) (FlowProofs.recv (whole L fnd) fnd (W L) (H L) c)) (cells (W L) (H L)) = true -> grows L fnd r.
Proof.
  intros C B p q Gv. rewrite forallb_forall in B. pose proof Gv as [D _]. apply (edge_gives _ _ _ _ C) in Gv. destruct Gv as [u I].
  destruct p as [x y]. specialize (B (x, y)). rewrite forallb_forall in B. specialize (B (proj2 (cells_In (W L) (H L) x y) (proj1 D)) (q, u) I). apply Z.ltb_lt in B. exact B.
Qed.
Lemma codes_check fd fnd w h : forallb (fun c => (fd (fst c) (snd c) =? fnd) || ((0 <=? fd (fst c) (snd c)) && (fd (fst c) (snd c) <=? 8))) (cells w h) = true -> codes_ok fd fnd w h.
Proof.
  intros B x y R N. rewrite forallb_forall in B. specialize (B (x, y) (proj2 (cells_In w h x y) R)). cbn [fst snd] in B. apply orb_true_iff in B. rewrite Z.eqb_eq, andb_true_iff, !Z.leb_le in B. destruct B; [contradiction|auto].
Qed.
Example C55_meets : forall fV b, b = 3 \/ b = 1 \/ b = 7 ->
  usable (layd fV b dirs7) 255 2 (@rev _) /\ complete (layd fV b dirs7) /\ seams_drain (layd fV b dirs7) 255 /\ (forall p, ~ below_loop (whole (layd fV b dirs7) 255) 255 7 5 p).
Proof.
  intros fV b Hb. assert (C : codes_ok (whole (layd fV b dirs7) 255) 255 7 5) by (apply codes_check; destruct Hb as [-> | [-> | ->]], fV; vm_compute; reflexivity).
  destruct (grows_drain (layd fV b dirs7) 255 (of_rows acc7)) as [A B].
  { apply grows_check; [exact C|]. destruct Hb as [-> | [-> | ->]], fV; vm_compute; reflexivity. }
  split; [|split; [intros x y [_ N]; discriminate N|split; [exact A|exact B]]].
  split; [repeat split; cbn; lia|]. split; [reflexivity|]. split; [split; cbn; lia|]. split; [unfold fits; cbn; lia|]. split; [exact C|]. split; [lia|]. intros l. apply Permutation_sym, Permutation_rev.
Qed.

(** C56. A tile is missing: water that runs into it is gone. *)
Definition holed (mx my : Z) : layout :=
  mkLay 6 6 2 2 true (fun tx ty => (tx =? mx) && (ty =? my)) false false (fun tx ty x y => of_rows [[5;5;5;5;5;7];[5;5;5;5;5;7];[5;5;5;5;5;7];[5;5;5;5;5;7];[5;5;5;5;5;7];[1;1;1;1;1;1]] (tx * 2 + x) (ty * 2 + y)) (fun _ _ n => n).
Example C56_run : show_out (holed 1 1) (PAModel.run (holed 1 1) 255 Evict 3 (fun l => l) (fun _ => None)) =
  Some [map Some [1;2;3;4;5;6]; map Some [1;2;3;4;5;12]; [Some 1; Some 2; None; None; Some 1; Some 14]; [Some 1; Some 2; None; None; Some 1; Some 16]; map Some [1;2;3;4;5;22]; map Some [28;27;26;25;24;23]].
Proof. vm_compute. reflexivity. Qed.
Example C56_meets : usable (holed 1 1) 255 3 (fun l => l) /\ no_pinch (holed 1 1) /\ seams_drain (holed 1 1) 255.
Proof.
  assert (C : codes_ok (whole (holed 1 1) 255) 255 6 6) by (apply codes_check; vm_compute; reflexivity).
  split; [|split].
  - split; [repeat split; cbn; lia|]. split; [reflexivity|]. split; [split; [cbn; lia|vm_compute; discriminate]|]. split; [unfold fits; cbn; lia|]. split; [exact C|]. split; [lia|]. intros l. apply Permutation_refl.
  - assert (NP' : forall c d, In c (cells 6 6) -> In d (cells 6 6) -> (negb (nul (holed 1 1) (fst c / 2) (snd c / 2)) && negb (nul (holed 1 1) (fst d / 2) (snd d / 2)) && (Z.abs (fst c - fst d) <=? 1) && (Z.abs (snd c - snd d) <=? 1) && nul (holed 1 1) (fst c / 2) (snd d / 2) && nul (holed 1 1) (fst d / 2) (snd c / 2)) = false).
    { assert (AL : forallb (fun c => forallb (fun d => negb (negb (nul (holed 1 1) (fst c / 2) (snd c / 2)) && negb (nul (holed 1 1) (fst d / 2) (snd d / 2)) && (Z.abs (fst c - fst d) <=? 1) && (Z.abs (snd c - snd d) <=? 1) && nul (holed 1 1) (fst c / 2) (snd d / 2) && nul (holed 1 1) (fst d / 2) (snd c / 2))) (cells 6 6)) (cells 6 6) = true) by (vm_compute; reflexivity).
      intros c d Hc Hd. rewrite forallb_forall in AL. specialize (AL c Hc). rewrite forallb_forall in AL. apply negb_true_iff. apply (AL d Hd). }
    intros x y x' y' [R1 N1] [R2 N2] A. unfold col, row in *. cbn [bw bh holed] in N1, N2.
    specialize (NP' (x, y) (x', y') (proj2 (cells_In 6 6 x y) R1) (proj2 (cells_In 6 6 x' y') R2)). cbn [fst snd] in NP'. change (nul (holed 1 1) (x / 2) (y / 2) = false) in N1. rewrite N1, N2 in NP'.
    assert (Z.abs (x - x') <= 1 /\ Z.abs (y - y') <= 1) as [A1 A2] by (unfold adjacent in A; lia). rewrite (proj2 (Z.leb_le _ _) A1), (proj2 (Z.leb_le _ _) A2) in NP'. cbn [negb andb] in NP'. apply andb_false_iff in NP'.
    unfold here, in_raster, col, row. cbn [bw bh holed W H]. destruct R1 as [R1 R1'], R2 as [R2 R2']. cbn [W H holed] in *. destruct NP' as [X|X]; [left|right]; (split; [lia|exact X]).
  - apply (grows_drain (holed 1 1) 255 (fun x y => if y =? 5 then 99 - x else 10 * y + x)). apply grows_check; [exact C|vm_compute; reflexivity].
Qed.

(** Where two tiles touch only at a corner water that crosses there is lost: without [no_pinch] the claim is false. *)
Definition pinched : layout :=
  mkLay 6 6 2 2 true (fun tx ty => (tx =? ty) && (0 <? tx)) false false
    (fun tx ty x y => of_rows [[7;7;7;7;7;7];[7;7;7;7;7;7];[7;7;0;0;7;1];[7;7;0;0;8;1];[7;7;7;1;0;0];[7;7;7;7;0;0]] (tx * 2 + x) (ty * 2 + y)) (fun _ _ n => n).
Example C56_pinch_run : show_out pinched (PAModel.run pinched 255 Evict 1 (fun l => l) (fun _ => None)) =
  Some [map Some [1;1;1;1;1;1]; map Some [2;2;2;2;2;2]; [Some 3; Some 3; None; None; Some 6; Some 3]; [Some 4; Some 4; None; None; Some 8; Some 1];
        [Some 5; Some 5; Some 2; Some 1; None; None]; [Some 6; Some 6; Some 3; Some 1; None; None]].
Proof. vm_compute. reflexivity. Qed.
Theorem C56_pinch_refuted : ~ (forall L fnd m limit arrive fs0, usable L fnd limit arrive -> seams_drain L fnd -> forall outp, PAModel.run L fnd m limit arrive fs0 = Ok outp ->
  forall x y x' y' v v', gives (whole L fnd) fnd (W L) (H L) (x, y) (x', y') -> out_at L outp x y = Some v -> out_at L outp x' y' = Some v' -> v <= v').
Proof.
  intros C. assert (CO : codes_ok (whole pinched 255) 255 6 6) by (apply codes_check; vm_compute; reflexivity).
  destruct (PAModel.run pinched 255 Evict 1 (fun l => l) (fun _ => None)) as [outp| |] eqn:E; [|vm_compute in E; discriminate E|vm_compute in E; discriminate E].
  assert (X : 8 <= 1); [|lia]. apply (C pinched 255 Evict 1 (fun l => l) (fun _ => None)) with (outp := outp) (x := 4) (y := 3) (x' := 3) (y' := 4).
  - split; [repeat split; cbn; lia|]. split; [reflexivity|]. split; [split; [cbn; lia|vm_compute; discriminate]|]. split; [unfold fits; cbn; lia|]. split; [exact CO|]. split; [lia|]. intros l. apply Permutation_refl.
  - apply (grows_drain pinched 255 (fun x y => 20 * y - x)). apply grows_check; [exact CO|vm_compute; reflexivity].
  - exact E.
  - split; [split; [split; cbn; lia|vm_compute; discriminate]|]. split; [split; [split; cbn; lia|vm_compute; discriminate]|]. vm_compute. apply (toward_SW 4 3).
  - assert (Y : match PAModel.run pinched 255 Evict 1 (fun l => l) (fun _ => None) with Ok o => out_at pinched o 4 3 | _ => None end = Some 8) by (vm_compute; reflexivity). rewrite E in Y. exact Y.
  - assert (Y : match PAModel.run pinched 255 Evict 1 (fun l => l) (fun _ => None) with Ok o => out_at pinched o 3 4 | _ => None end = Some 1) by (vm_compute; reflexivity). rewrite E in Y. exact Y.
Qed.
Print Assumptions C56_pinch_refuted.

(** ** C57: when the program does not deliver *)
Lemma forM_bad {I S} (body : I -> S -> res S) l x : In x l -> (forall s s', body x s <> Ok s') -> forall s s', forM l body s <> Ok s'.
Proof.
  intros Ix B. induction l as [|i l IH]; [destruct Ix|]. intros s s'. cbn [forM]. destruct (body i s) as [t| |] eqn:E; cbn [bind]; [|discriminate|discriminate].
  destruct Ix as [->|Ix]; [destruct (B s t E)|apply IH; exact Ix].
Qed.
Lemma bind_ok {A B} (x : res A) (f : A -> res B) b : (do a <- x; f a) = Ok b -> exists a, x = Ok a /\ f a = Ok b.
Proof. destruct x as [a| |]; cbn [bind]; intros E; [exists a; auto|discriminate|discriminate]. Qed.
Lemma run_bad L fnd m limit arrive fs0 t : In t (tiles L) -> (forall i s s', PAModel.first_job L fnd m limit (i, t) s <> Ok s') -> forall outp, PAModel.run L fnd m limit arrive fs0 <> Ok outp.
Proof.
  intros Ht B outp E. unfold PAModel.run in E. apply bind_ok in E. destruct E as [s [E _]]. rewrite <- (numbered_snd (tiles L)) in Ht. apply in_map_iff in Ht. destruct Ht as [[i u] [<- Ht]].
  revert E. apply (forM_bad _ _ (i, u) Ht). intros s0 s1. apply B.
Qed.
(** With tiles stored mirrored left to right the program accesses memory it must not; nothing is delivered. *)
Theorem C57_mirrored_tiles : forall L fnd m limit arrive fs0, proper L -> flipH L = true -> (exists x y, here L x y) -> PAModel.run L fnd m limit arrive fs0 = Undef.
Proof.
  intros L fnd m limit arrive fs0 [_ [_ [Hbw Hbh]]] HF [x [y Hh]]. destruct (present_tile L Hbw Hbh (x, y) Hh) as [TP _]. unfold PAModel.run.
  pose proof (numbered_snd (tiles L)) as NS. destruct (numbered (tiles L)) as [|[i t] q]; [cbn in NS; rewrite <- NS in TP; destruct TP|].
  cbn [forM]. unfold PAModel.first_job at 1. unfold PAModel.LoadFromEvict. rewrite HF. reflexivity.
Qed.
Print Assumptions C57_mirrored_tiles.
(** With a tile of one row nothing is delivered. *)
Theorem C57_one_row : forall L fnd m limit arrive fs0, proper L -> (exists x y, here L x y /\ th L (row L y) = 1) -> forall outp, PAModel.run L fnd m limit arrive fs0 <> Ok outp.
Proof.
  intros L fnd m limit arrive fs0 [_ [_ [Hbw Hbh]]] [x [y [Hh T1]]]. destruct (present_tile L Hbw Hbh (x, y) Hh) as [TP _]. apply (run_bad L fnd m limit arrive fs0 _ TP).
  intros i s s'. unfold PAModel.first_job. destruct s as [wd js]. intros E. apply bind_ok in E. destruct E as [r [_ E]]. apply bind_ok in E. destruct E as [u [_ E]]. apply bind_ok in E. destruct E as [j [E _]].
  unfold PAModel.FirstRound in E. do 4 (apply bind_ok in E; destruct E as [? [_ E]]). apply bind_ok in E. destruct E as [? [X _]]. unfold GridPerimToArray in X. change (th L (snd (tl L (x, y)))) with (th L (row L y)) in X. rewrite T1 in X. discriminate X.
Qed.
Print Assumptions C57_one_row.
Example C57_one_row_run : proper (lay false false) /\ th (lay false false) (row (lay false false) 4) = 1 /\ PAModel.run (lay false false) 9 Evict 1 (fun l => l) (fun _ => None) = Undef.
Proof. split; [repeat split; cbn; lia|]. split; [reflexivity|]. vm_compute. reflexivity. Qed.

(** Codes above 8 or below 0 that are not NoData: nothing is delivered. *)
Theorem C57_bad_code : forall L fnd m limit arrive fs0, proper L -> (exists x y, here L x y /\ mosaic L x y <> fnd /\ ~ 0 <= mosaic L x y <= 8) ->
  forall outp, PAModel.run L fnd m limit arrive fs0 <> Ok outp.
Proof.
  intros L fnd m limit arrive fs0 HL [x [y [Hh [NF BC]]]]. destruct (flipH L) eqn:HF; [rewrite (C57_mirrored_tiles L fnd m limit arrive fs0 HL HF) by (exists x, y; exact Hh); discriminate|].
  pose proof HL as [_ [_ [Hbw Hbh]]]. destruct (present_tile L Hbw Hbh (x, y) Hh) as [TP DP]. apply (run_bad L fnd m limit arrive fs0 _ TP).
  set (t := tl L (x, y)) in *. set (c := lo L (x, y)) in *.
  assert (EV : tfd L t (fst c) (snd c) = mosaic L x y).
  { rewrite (tfd_whole L fnd HL HF t c TP DP). unfold t, c. rewrite gl_lo by auto. unfold whole. cbn [fst snd]. rewrite (proj2 Hh). reflexivity. }
  intros i s s'. unfold PAModel.first_job. destruct s as [wd js]. intros E. apply bind_ok in E. destruct E as [r [E _]]. unfold PAModel.LoadFromEvict in E. rewrite HF in E.
  change ((do a <- PAModel.FlowAccumulation (tw L (fst t)) (th L (snd t)) (tfd L t) fnd; Ok (tfd L t, a)) = Ok r) in E. apply bind_ok in E. destruct E as [a [E _]].
  unfold PAModel.FlowAccumulation in E. apply bind_ok in E. destruct E as [s0 [E _]]. revert E. apply (forM_bad _ _ c).
  { destruct c as [cx cy]. apply scan_In. exact DP. }
  intros s1 s2. unfold dep_step. destruct c as [cx cy]. cbn [fst snd] in EV. rewrite gat_ok by exact DP. cbn [bind]. rewrite EV. rewrite (proj2 (Z.eqb_neq _ _) NF). unfold NO_FLOW.
  destruct (Z.eqb_spec (mosaic L x y) 0) as [Z0|_]; [lia|]. unfold off8. rewrite rd_out; [discriminate|]. change (Z.of_nat (length d8x)) with 9. lia.
Qed.
Print Assumptions C57_bad_code.
(** The check of the input comes too late to report it: memory outside the tables is read before. *)
Definition bad7 : list (list Z) := [[7;7;8;1;255;7;7]; [5;6;7;8;1;0;7]; [3;5;7;5;5;6;7]; [3;4;9;6;5;5;7]; [7;8;1;7;7;1;1]].
Theorem C57_bad_code_reported_refuted : ~ (forall L fnd m limit arrive fs0, proper L -> complete L -> flipH L = false -> two_rows L -> fits L -> 0 < limit -> any_order arrive ->
  (exists x y, in_raster (W L) (H L) x y /\ mosaic L x y <> fnd /\ ~ 0 <= mosaic L x y <= 8) -> PAModel.run L fnd m limit arrive fs0 = Thrown).
Proof.
  intros C. assert (X : PAModel.run (layd false 3 bad7) 255 Evict 1 (fun l => l) (fun _ => None) = Thrown); [|vm_compute in X; discriminate X].
  apply C; [repeat split; cbn; lia|intros x y [_ N]; discriminate N|reflexivity|split; cbn; lia|unfold fits; cbn; lia|lia|intros l; apply Permutation_refl|].
  exists 2, 3. split; [split; cbn; lia|]. vm_compute. split; [discriminate|]. intros [_ Y]. apply Y. reflexivity.
Qed.
Print Assumptions C57_bad_code_reported_refuted.

(** A loop inside a tile that water from the border with another tile runs into is reported. *)
Theorem C57_loop_reported : forall L fnd m limit arrive fs0, usable L fnd limit arrive -> no_pinch L ->
  (exists x y x' y', here L x y /\ trapped L fnd (x, y) /\ here L x' y' /\ adjacent D8 x y x' y' /\ ~ same_tile L (x, y) (x', y')) ->
  PAModel.run L fnd m limit arrive fs0 = Thrown.
Proof.
  intros L fnd m limit arrive fs0 [HL [HF [HR [HS [HC [_ HA]]]]]] HP [x [y [x' [y' [Hh [TR [Hh' [AD NS]]]]]]]].
  apply (run_throws L fnd HL HC HR HF). exists (x, y). split; [exact Hh|]. split; [|exact TR]. apply (cross_followed L HL HP (x, y) (x', y')); auto. intros T. apply NS. apply tl_same. exact T.
Qed.
Print Assumptions C57_loop_reported.
Definition trap7 : list (list Z) := [[7;7;8;1;255;7;7]; [5;5;1;8;1;0;7]; [3;5;3;5;5;6;7]; [3;4;5;6;5;5;7]; [7;8;1;7;7;1;1]].
Example C57_trap_run : trapped (layd false 3 trap7) 255 (2, 2) /\ PAModel.run (layd false 3 trap7) 255 Retain 2 (@rev _) (fun _ => None) = Thrown.
Proof.
  split; [|vm_compute; reflexivity].
  assert (GV : forall x y x' y', in_raster 7 5 x y -> in_raster 7 5 x' y' -> whole (layd false 3 trap7) 255 x y <> 255 -> whole (layd false 3 trap7) 255 x' y' <> 255 -> toward (whole (layd false 3 trap7) 255 x y) x y x' y' ->
    same_tile (layd false 3 trap7) (x, y) (x', y') -> gives_inside (layd false 3 trap7) 255 (x, y) (x', y')).
  { intros x y x' y' R R' N N' T ST. split; [|exact ST]. split; [split; [exact R|exact N]|]. split; [split; [exact R'|exact N']|exact T]. }
  exists (2, 1), (1, 1). split; [|split].
  - apply within_on with (q := (2, 2)); [constructor|]. apply GV; [split; lia|split; lia|vm_compute; discriminate|vm_compute; discriminate|vm_compute; apply (toward_N 2 2)|split; reflexivity].
  - apply within_on with (q := (2, 1)); [constructor|]. apply GV; [split; lia|split; lia|vm_compute; discriminate|vm_compute; discriminate|vm_compute; apply (toward_W 2 1)|split; reflexivity].
  - apply GV; [split; lia|split; lia|vm_compute; discriminate|vm_compute; discriminate|vm_compute; apply (toward_E 1 1)|split; reflexivity].
Qed.
(** Other loops are not: here two tiles pass the water to and fro. *)
Definition round7 : list (list Z) := [[7;7;5;1;255;7;7]; [5;6;7;8;1;0;7]; [3;5;7;5;5;6;7]; [3;4;5;6;5;5;7]; [7;8;1;7;7;1;1]].
Example C57_round_run : show_out (layd false 3 round7) (PAModel.run (layd false 3 round7) 255 Retain 2 (@rev _) (fun _ => None)) =
  Some (map (map Some) [[1;1;1;1;-1;1;1]; [4;6;1;2;1;2;2]; [2;1;12;1;2;3;3]; [1;1;13;14;1;2;9]; [1;2;1;1;26;11;10]]).
Proof. vm_compute. reflexivity. Qed.
Theorem C57_all_loops_reported_refuted : ~ (forall L fnd m limit arrive fs0, usable L fnd limit arrive -> complete L ->
  (exists x y, looping (mosaic L) fnd (W L) (H L) (x, y)) -> PAModel.run L fnd m limit arrive fs0 = Thrown).
Proof.
  intros C. assert (X : PAModel.run (layd false 3 round7) 255 Evict 1 (fun l => l) (fun _ => None) = Thrown); [|vm_compute in X; discriminate X].
  assert (CO : codes_ok (whole (layd false 3 round7) 255) 255 7 5) by (apply codes_check; vm_compute; reflexivity). apply C.
  - split; [repeat split; cbn; lia|]. split; [reflexivity|]. split; [split; cbn; lia|]. split; [unfold fits; cbn; lia|]. split; [exact CO|]. split; [lia|]. intros l. apply Permutation_refl.
  - intros x y [_ N]. discriminate N.
  - exists 2, 0. exists (3, 0). assert (G : forall x x', (x = 2 /\ x' = 3) \/ (x = 3 /\ x' = 2) -> gives (mosaic (layd false 3 round7)) 255 7 5 (x, 0) (x', 0)).
    { intros x x' [[-> ->]|[-> ->]]; (split; [split; [split; cbn; lia|vm_compute; discriminate]|]); (split; [split; [split; cbn; lia|vm_compute; discriminate]|]); vm_compute; [apply (toward_E 2 0)|apply (toward_W 3 0)]. }
    split; [apply passes_on with (q := (2, 0)); [constructor|apply G; auto]|apply G; auto].
Qed.
Print Assumptions C57_all_loops_reported_refuted.

(** ** C58: the numbering of the perimeter of a tile *)
Definition perimeter (w h : Z) (c : cellt) : Prop := in_raster w h (fst c) (snd c) /\ (fst c = 0 \/ fst c = w - 1 \/ snd c = 0 \/ snd c = h - 1).
Theorem C58_perimeter : forall w h, 2 <= w -> 2 <= h -> let n := 2 * w + 2 * (h - 2) in
  (forall c, perimeter w h c -> exists s, xyToSerial w h c = Ok s /\ 0 <= s < n /\ serialToXY w h s = Ok c) /\
  (forall s, 0 <= s < n -> exists c, serialToXY w h s = Ok c /\ perimeter w h c /\ xyToSerial w h c = Ok s) /\
  (forall c, ~ perimeter w h c -> xyToSerial w h c = Undef) /\
  (forall g, exists l, GridPerimToArray w h g = Ok l /\ Z.of_nat (length l) = n /\ forall c s, xyToSerial w h c = Ok s -> ix l s = Some (g c)).
Proof.
  intros w h Hw Hh n. assert (Hw1 : 1 <= w) by lia. split; [|split; [|split]].
  - intros c R. exists (ser w h c). split; [apply ser_ok; exact R|]. pose proof (ser_range w h Hw1 Hh c R) as SR. split; [exact SR|]. rewrite pos_ok by auto. rewrite pos_ser by auto. reflexivity.
  - intros s Hs. exists (pos w h s). split; [apply pos_ok; auto|]. pose proof (pos_rim w h Hw1 Hh s Hs) as R. split; [exact R|]. rewrite ser_ok by exact R. rewrite ser_pos by auto. reflexivity.
  - intros [x y] NR. unfold xyToSerial. destruct (on_perim w h (x, y)) eqn:O; [|reflexivity]. apply on_perim_iff in O. contradiction.
  - intros g. destruct (perim_ok w h Hw1 Hh g) as [l [E [LN A]]]. exists l. split; [exact E|]. split; [exact LN|]. intros c s ES.
    assert (R : rim w h c). { destruct (on_perim w h c) eqn:O; [apply on_perim_iff; exact O|]. destruct c. unfold xyToSerial in ES. rewrite O in ES. discriminate ES. }
    rewrite (ser_ok w h c R) in ES. injection ES as <-. rewrite A by (apply ser_range; auto). rewrite pos_ser by auto. reflexivity.
Qed.
Print Assumptions C58_perimeter.
Example C58_run : map (xyToSerial 4 3) [(0,0);(1,0);(2,0);(3,0);(3,1);(3,2);(0,2);(1,2);(2,2);(0,1);(1,1)] = map (@Ok Z) [0;1;2;3;4;5;6;7;8;9] ++ [Undef].
Proof. vm_compute. reflexivity. Qed.
(** In a tile of one column a cell has two numbers: in a tile of 1 x 4 cells both 1 and 4 are cell (0,1). *)
Theorem C58_one_column_refuted : ~ (forall h s c, 2 <= h -> 0 <= s < 2 * 1 + 2 * (h - 2) -> serialToXY 1 h s = Ok c -> xyToSerial 1 h c = Ok s).
Proof. intros C. assert (X : xyToSerial 1 4 (0, 1) = Ok 4) by (apply C; [lia|lia|vm_compute; reflexivity]). vm_compute in X. discriminate X. Qed.
Print Assumptions C58_one_column_refuted.
