(** Properties C52-C54: programs/parallel_priority_flood, depression filling of a raster cut into tiles. *)
From Coq Require Import ZArith List Lia Bool Permutation.
From Verif Require Import Base Res RasterSpec RasterFacts FlowModel PFModel PFProofs TraceFlood ZhouModel ZhouProofs PPFModel PPFSpec PPFTop PropertiesPF.
Open Scope Z_scope.

(** The replies of the first round come back in any order. *)
Definition any_order {A} (arrive : list A -> list A) : Prop := forall l, Permutation (arrive l) l.

(** C52. For every raster, every tiling, stored mirrored or not, every order of equal elevations in each of the queues, every
    number of consumers and every order of the replies: without missing tiles the program ends without an error, and the tiles
    it writes are the whole raster filled to its minimax drainage level. *)
Theorem C52_tiled_is_minimax : forall L m limit tb lowest arrive fs0,
  proper L -> complete L -> m <> Cache -> 0 < limit -> any_order arrive ->
  (forall x y, in_raster (W L) (H L) x y -> lowest <= mosaic L x y) ->
  exists outp, run L m limit tb lowest arrive fs0 = Ok outp /\
    forall x y, in_raster (W L) (H L) x y -> exists v, out_at L outp x y = Some v /\ drainage_level D8 (W L) (H L) (mosaic L) x y v.
Proof.
  intros L m limit tb lowest arrive fs0 HP HC HM Lim AR HL.
  assert (HR : forall x y, in_raster (W L) (H L) x y -> here L x y).
  { intros x y R. split; [exact R|]. destruct (nul L (col L x) (row L y)) eqn:N; [destruct (HC x y); split; assumption|reflexivity]. }
  destruct (run_off L HP m limit tb lowest arrive fs0 AR (fun _ => HC)) as [outp [E [A _]]]; auto.
  - intros x y [R _]. auto.
  - destruct HP as [PW [PH _]]. exists 0, 0. apply HR. split; lia.
  - exists outp. split; [exact E|]. intros x y R. destruct (A x y (HR x y R)) as [v [Ev [D M]]]. exists v. split; [exact Ev|]. split; [apply off_drains; auto|].
    intros z D'. apply M. apply off_drains; auto.
Qed.
Print Assumptions C52_tiled_is_minimax.

(** It is what filling the raster in one piece gives, cell by cell. *)
Theorem C52_tiled_equals_whole : forall L m limit tb lowest arrive fs0 tb',
  proper L -> complete L -> m <> Cache -> 0 < limit -> any_order arrive ->
  (forall x y, in_raster (W L) (H L) x y -> lowest <= mosaic L x y) ->
  exists outp whole, run L m limit tb lowest arrive fs0 = Ok outp /\ PriorityFlood_Zhou2016 tb' (W L) (H L) (mosaic L) = Some whole /\
    forall x y, in_raster (W L) (H L) x y -> out_at L outp x y = Some (whole x y).
Proof.
  intros L m limit tb lowest arrive fs0 tb' HP HC HM Lim AR HL.
  destruct (C52_tiled_is_minimax L m limit tb lowest arrive fs0 HP HC HM Lim AR HL) as [outp [E A]].
  destruct (zhou_correct tb' (W L) (H L) (mosaic L)) as [whole [E' B]]; [apply HP|apply HP|]. exists outp, whole. split; [exact E|]. split; [exact E'|].
  intros x y R. destruct (A x y R) as [v [Ev D]]. rewrite Ev. f_equal. eapply drainage_level_unique; [exact D|apply B; exact R].
Qed.
Print Assumptions C52_tiled_equals_whole.

(** A raster of 7 x 5 cells in tiles of 3 x 2, each stored mirrored both ways; a depression crosses the tiles. *)
Definition big : list (list Z) :=
  [[9;9;9;9;9;9;9];
   [9;2;8;3;1;5;9];
   [9;8;1;2;9;6;9];
   [9;7;3;9;4;9;6];
   [9;9;9;9;9;9;9]].
Definition lay (fH fV : bool) : layout :=
  let e := of_rows big in
  mkLay 7 5 3 2 false (fun _ _ => false) fH fV
    (fun tx ty x y => let tw := Z.min 3 (7 - tx * 3) in let th := Z.min 2 (5 - ty * 2) in
                      e (tx * 3 + (if fH then tw - 1 - x else x)) (ty * 2 + (if fV then th - 1 - y else y)))
    (fun tx ty n => n + Z.to_nat (tx + 2 * ty))%nat.
Definition show_out (L : layout) (o : res (Z -> Z -> option (cellt -> Z))) : option (list (list (option Z))) :=
  match o with
  | Ok outp => Some (map (fun y => map (fun x => out_at L outp x y) (zrange 0 (Z.to_nat (W L)))) (zrange 0 (Z.to_nat (H L))))
  | _ => None
  end.
Example C52_meets : forall fH fV, proper (lay fH fV) /\ complete (lay fH fV) /\ (forall x y, in_raster 7 5 x y -> 0 <= mosaic (lay fH fV) x y).
Proof.
  intros fH fV. split; [repeat split; cbn; lia|]. split; [intros x y [_ N]; discriminate N|].
  intros x y [X Y]. assert (HX : In x (zrange 0 7)) by (apply zrange_In; lia). assert (HY : In y (zrange 0 5)) by (apply zrange_In; lia).
  assert (AL : forallb (fun y => forallb (fun x => 0 <=? mosaic (lay fH fV) x y) (zrange 0 7)) (zrange 0 5) = true) by (destruct fH, fV; vm_compute; reflexivity).
  rewrite forallb_forall in AL. specialize (AL y HY). rewrite forallb_forall in AL. apply Z.leb_le, AL, HX.
Qed.
Example C52_run : forall fH fV, show_out (lay fH fV) (run (lay fH fV) Retain 2 (fun n => 3 * n)%nat (-100) (@rev _) (fun _ => None)) =
  Some (map (map (@Some Z))
  [[9;9;9;9;9;9;9];
   [9;6;8;6;6;6;9];
   [9;8;6;6;9;6;9];
   [9;7;6;9;6;9;6];
   [9;9;9;9;9;9;9]]).
Proof. intros [|] [|]; vm_compute; reflexivity. Qed.

(** ** C53: missing tiles *)
(** For every layout with at least one tile (in mode "one" no tile is missing): the program ends without an error, writes every
    tile there is and only those, and each of their cells stands at the lowest level from which water can leave over cells
    that are there, where water leaves as described by [leaves]. *)
Theorem C53_missing_tiles : forall L m limit tb lowest arrive fs0,
  proper L -> (many L = false -> complete L) -> (exists x y, here L x y) -> m <> Cache -> 0 < limit -> any_order arrive ->
  (forall x y, here L x y -> lowest <= mosaic L x y) ->
  exists outp, run L m limit tb lowest arrive fs0 = Ok outp /\
    (forall x y, here L x y -> exists v, out_at L outp x y = Some v /\ off_level L x y v) /\
    (forall x y, missing L x y -> out_at L outp x y = None).
Proof. intros L m limit tb lowest arrive fs0 HP HC HE HM Lim AR HL. apply run_off; auto. Qed.
Print Assumptions C53_missing_tiles.

(** Three by three tiles of 2 x 2 cells with one missing *)
Definition plateau (mx my : Z) : layout :=
  mkLay 6 6 2 2 true (fun tx ty => (tx =? mx) && (ty =? my)) false false
    (fun tx ty x y => if ((tx * 2 + x =? 0) || (ty * 2 + y =? 0) || (tx * 2 + x =? 5) || (ty * 2 + y =? 5)) then 9 else 1) (fun _ _ n => n).
Example C53_middle_run : show_out (plateau 1 1) (run (plateau 1 1) Evict 3 (fun n => n) (-9) (fun l => l) (fun _ => None)) =
  Some [map Some [9;9;9;9;9;9];
        map Some [9;1;1;1;1;9];
        [Some 9; Some 1; None; None; Some 1; Some 9];
        [Some 9; Some 1; None; None; Some 1; Some 9];
        map Some [9;1;1;1;1;9];
        map Some [9;9;9;9;9;9]].
Proof. vm_compute. reflexivity. Qed.

Lemma plateau_meets : proper (plateau 0 1) /\ (exists x y, here (plateau 0 1) x y) /\ (forall x y, here (plateau 0 1) x y -> -9 <= mosaic (plateau 0 1) x y).
Proof.
  split; [repeat split; cbn; lia|]. split; [exists 0, 0; split; [split; cbn; lia|reflexivity]|].
  intros x y _. unfold mosaic. cbn [files plateau]. destruct (_ || _); lia.
Qed.
(** That a cell next to a missing tile keeps its elevation, because water leaves there, is false for the missing tiles in the
    first row or column. *)
Theorem C53_border_of_missing_refuted : ~ (forall L m limit tb lowest arrive fs0,
  proper L -> many L = true -> m <> Cache -> 0 < limit -> any_order arrive -> (forall x y, here L x y -> lowest <= mosaic L x y) ->
  forall x y x' y', here L x y -> missing L x' y' -> adjacent D4 x y x' y' ->
  exists outp, run L m limit tb lowest arrive fs0 = Ok outp /\ out_at L outp x y = Some (mosaic L x y)).
Proof.
  intros C. destruct plateau_meets as [A [_ B]].
  destruct (C (plateau 0 1) Evict 1 (fun n => n) (-9) (fun l => l) (fun _ => None) A eq_refl) with (x := 2) (y := 3) (x' := 1) (y' := 3) as [outp [E O]]; try (cbn; lia); auto.
  - discriminate.
  - intros l. apply Permutation_refl.
  - split; [split; cbn; lia|reflexivity].
  - split; [split; cbn; lia|reflexivity].
  - assert (X : match run (plateau 0 1) Evict 1 (fun n => n) (-9) (fun l => l) (fun _ => None) with Ok o => out_at (plateau 0 1) o 2 3 | _ => None end = Some 9) by (vm_compute; reflexivity).
    rewrite E, O in X. vm_compute in X. discriminate X.
Qed.
Print Assumptions C53_border_of_missing_refuted.
(** For the other missing tiles it is true. *)
Theorem C53_border_of_missing : forall L m limit tb lowest arrive fs0,
  proper L -> (many L = false -> complete L) -> m <> Cache -> 0 < limit -> any_order arrive -> (forall x y, here L x y -> lowest <= mosaic L x y) ->
  forall x y x' y', here L x y -> missing L x' y' -> 0 < col L x' -> 0 < row L y' -> adjacent D4 x y x' y' ->
  exists outp, run L m limit tb lowest arrive fs0 = Ok outp /\ out_at L outp x y = Some (mosaic L x y).
Proof.
  intros L m limit tb lowest arrive fs0 HP HC HM Lim AR HL x y x' y' HH HMi CX CY AD.
  destruct (C53_missing_tiles L m limit tb lowest arrive fs0 HP HC) as [outp [E [A _]]]; eauto. exists outp. split; [exact E|]. destruct (A x y HH) as [v [Ev [R M]]]. rewrite Ev. f_equal.
  assert (v <= mosaic L x y) by (apply M, ro_leaves; [exact HH|right; exists x', y'; auto|lia]).
  assert (mosaic L x y <= v) by (destruct R; auto). lia.
Qed.
Print Assumptions C53_border_of_missing.

(** If all tiles are missing the program indexes beyond the end of an empty vector. *)
Theorem C53_all_missing_undefined : forall L m limit tb lowest arrive fs0, (forall tx ty, nul L tx ty = true) -> any_order arrive ->
  run L m limit tb lowest arrive fs0 = Undef.
Proof.
  intros L m limit tb lowest arrive fs0 HN AR. assert (ET : tiles L = []).
  { unfold tiles. induction (scan (gridwidth L) (gridheight L)) as [|t q IH]; [reflexivity|]. cbn [filter]. rewrite HN. exact IH. }
  unfold run. rewrite ET. cbn [numbered length zrange combine forM bind]. assert (EA : arrive [] = []) by (apply Permutation_nil, Permutation_sym, AR). rewrite EA.
  unfold Calculations, receive. cbn [fold_left]. unfold merge_all. rewrite ET. cbn [forM bind].
  assert (EM : fold_left (fun m t => m + j_n nojob) (scan (gridwidth L) (gridheight L)) 0 = 0).
  { induction (scan (gridwidth L) (gridheight L)) as [|t q IH]; [reflexivity|]. exact IH. }
  cbv beta zeta. change (fold_left (fun (m0 : Z) (t : Z * Z) => m0 + j_n nojob) (scan (gridwidth L) (gridheight L)) 0 = 0) in EM. cbn [j_n nojob] in EM |- *.
  rewrite EM. reflexivity.
Qed.
Print Assumptions C53_all_missing_undefined.

(** ** C54: the result does not depend on how the work is scheduled or where the tiles are kept *)
Definition retie (L : layout) (ts : Z -> Z -> nat -> nat) : layout := mkLay (W L) (H L) (bw L) (bh L) (many L) (nul L) (flipH L) (flipV L) (files L) ts.
Theorem C54_schedule_independent : forall L ts' m m' limit limit' tb tb' lowest arrive arrive' fs0 fs0',
  proper L -> (many L = false -> complete L) -> (exists x y, here L x y) -> m <> Cache -> m' <> Cache -> 0 < limit -> 0 < limit' ->
  any_order arrive -> any_order arrive' -> (forall x y, here L x y -> lowest <= mosaic L x y) ->
  exists outp outp', run L m limit tb lowest arrive fs0 = Ok outp /\ run (retie L ts') m' limit' tb' lowest arrive' fs0' = Ok outp' /\
    forall x y, in_raster (W L) (H L) x y -> out_at L outp x y = out_at L outp' x y.
Proof.
  intros L ts' m m' limit limit' tb tb' lowest arrive arrive' fs0 fs0' HP HC HE HM HM' Lim Lim' AR AR' HL.
  destruct (C53_missing_tiles L m limit tb lowest arrive fs0 HP HC HE HM Lim AR HL) as [outp [E [A A']]].
  destruct (C53_missing_tiles (retie L ts') m' limit' tb' lowest arrive' fs0' HP HC HE HM' Lim' AR' HL) as [outp' [E' [B B']]].
  exists outp, outp'. split; [exact E|]. split; [exact E'|]. intros x y R. destruct (nul L (col L x) (row L y)) eqn:N.
  - rewrite (A' x y) by (split; assumption). symmetry. apply (B' x y). split; assumption.
  - destruct (A x y) as [v [Ev [R1 M1]]]; [split; assumption|]. destruct (B x y) as [v' [Ev' [R2 M2]]]; [split; assumption|]. rewrite Ev. unfold out_at in *. cbn [retie bw bh] in Ev'.
    change (col (retie L ts') x) with (col L x) in Ev'. change (row (retie L ts') y) with (row L y) in Ev'. change (place (retie L ts') x y) with (place L x y) in Ev'. rewrite Ev'. f_equal.
    assert (SM : forall z a b, runs_off L z a b <-> runs_off (retie L ts') z a b).
    { intros z a b. split; induction 1; [apply ro_leaves; auto|eapply ro_step; eauto|apply ro_leaves; auto|eapply ro_step; eauto]. }
    assert (v <= v') by (apply M1, SM; exact R2). assert (v' <= v) by (apply M2, SM; exact R1). lia.
Qed.
Print Assumptions C54_schedule_independent.

(** With a directory for caching, "evict" and "retain" aside, it is not so: whatever the raster, if the directory holds no file
    "...labels.dat" from elsewhere, the program fails in its second round, as the first round never writes that file. *)
Theorem C54_cache_never_works : forall L limit tb lowest arrive fs0,
  proper L -> (many L = false -> complete L) -> (exists x y, here L x y) -> any_order arrive -> (forall x y, here L x y -> lowest <= mosaic L x y) ->
  (forall t, fs0 (Labelsdat t) = None) -> run L Cache limit tb lowest arrive fs0 = Thrown.
Proof. intros L limit tb lowest arrive fs0 HP HC HE AR HL NF. apply run_cache; auto. Qed.
Print Assumptions C54_cache_never_works.
Theorem C54_cache_refuted : ~ (forall L m limit tb lowest arrive fs0, proper L -> complete L -> 0 < limit -> any_order arrive ->
  (forall x y, in_raster (W L) (H L) x y -> lowest <= mosaic L x y) -> exists outp, run L m limit tb lowest arrive fs0 = Ok outp).
Proof.
  intros C. destruct (C52_meets false false) as [A [B D]].
  destruct (C (lay false false) Cache 1 (fun n => n) 0 (fun l => l) (fun _ => None) A B) as [outp E]; [lia|intros l; apply Permutation_refl|exact D|].
  rewrite C54_cache_never_works in E; [discriminate E|exact A|intros _; exact B| |intros l; apply Permutation_refl|intros x y [R _]; auto|reflexivity].
  exists 0, 0. split; [split; cbn; lia|reflexivity].
Qed.
Print Assumptions C54_cache_refuted.
