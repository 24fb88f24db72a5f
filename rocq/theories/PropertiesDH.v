(** Properties of the depression hierarchy (C26-C28, C39-C42). *)
From Coq Require Import ZArith List Lia Bool Permutation Sorting.Sorted.
From Verif Require Import Base Res RasterSpec FlowModel FlatsSpec DHModel DHSpec DHFlood DHTree DHTerrain DHVol DHAll.
Open Scope Z_scope.

(** ** A concrete terrain: 7 x 5 cells surrounded by ocean, with two pits that merge at level 6 and spill at 9. *)
Definition ex_dem : grid Z := fun x y =>
  if (x =? 0) || (x =? 6) || (y =? 0) || (y =? 4) then 0
  else if (y =? 2) && (x =? 2) then 3 else if (y =? 2) && (x =? 3) then 6 else if (y =? 2) && (x =? 4) then 2 else 9.
Definition ex_lab : grid Z := fun x y => if (x =? 0) || (x =? 6) || (y =? 0) || (y =? 4) then 0 else 2 ^ 32 - 1.
(** std::sort: insertion sort does *)
Fixpoint insert_outlet (o : outlet) (l : list outlet) : list outlet :=
  match l with [] => [o] | a :: l' => if o_elev o <=? o_elev a then o :: l else a :: insert_outlet o l' end.
Definition ex_sort (l : list outlet) : list outlet := fold_right insert_outlet [] l.
Lemma insert_perm o l : Permutation (insert_outlet o l) (o :: l).
Proof. induction l as [|a l IH]; cbn; auto. destruct (_ <=? _); auto. rewrite IH. apply perm_swap. Qed.
Lemma ex_sort_ok l : sorting_of l (ex_sort l).
Proof.
  induction l as [|o l [P S]]; [split; constructor|]. cbn [ex_sort fold_right]. fold (ex_sort l). split; [rewrite insert_perm; auto|].
  clear P. induction S as [|a s S IH F]; cbn; [repeat constructor|]. destruct (Z.leb_spec (o_elev o) (o_elev a)).
  - constructor; [constructor; auto|]. constructor; auto. eapply Forall_impl; [|exact F]. cbn. lia.
  - constructor; auto. eapply Permutation_Forall; [symmetry; apply insert_perm|]. constructor; auto. lia.
Qed.
(** two threads: the rows above y=2, and the others in reverse order *)
Definition ex_parts : list (list cellt) := [flat_map (fun y => map (fun x => (x, y)) (zrange 0 7)) [0; 1]; rev (flat_map (fun y => map (fun x => (x, y)) (zrange 0 7)) [2; 3; 4])].
Lemma ex_inputs : valid_labels 7 5 ex_lab /\ has_coast D8 7 5 ex_lab /\ each_cell_once 7 5 ex_parts.
Proof.
  split; [|split].
  - intros [x y] _. unfold ex_lab, elev_at. cbn [fst snd]. destruct (_ || _ || _ || _); auto.
  - exists (0, 0), (1, 1). unfold ocean_cell, land_cell, inside, in_raster, neighbours, adjacent, elev_at. cbn. repeat split; try lia; try congruence.
  - split; [vm_compute; repeat (constructor; [cbn; intuition congruence|]); constructor|].
    intros [x y]. unfold inside, in_raster. cbn [fst snd]. split.
    + intros H. vm_compute in H. repeat (destruct H as [H|H]; [inversion H; lia|]). destruct H.
    + intros H. assert (X : In x (zrange 0 7)) by (apply zrange_In; lia). assert (Y : In y (zrange 0 5)) by (apply zrange_In; lia).
      vm_compute in X, Y. repeat (destruct X as [<-|X]); try destruct X; repeat (destruct Y as [<-|Y]); try destruct Y; vm_compute; tauto.
Qed.

(** ** C28 *)
Theorem C28_hierarchy t w h dem lab0 fd0 tb sorted parts :
  valid_labels w h lab0 -> has_coast t w h lab0 -> w * h < 2 ^ 31 ->
  (forall db, sorting_of db (sorted db)) -> each_cell_once w h parts ->
  exists lab fd deps pits, GetDepressionHierarchy t w h dem tb sorted parts lab0 fd0 = Some (Ok (lab, fd, deps)) /\
    watersheds t w h dem lab0 fd0 lab fd pits /\ well_formed (Z.of_nat (length pits) + 1) deps.
Proof.
  intros A B C D E. destruct (gdh_ok t w h dem lab0 fd0 tb sorted parts A C B D E) as [lab [fd [deps [pits [X [Y [Z _]]]]]]].
  exists lab, fd, deps, pits. auto.
Qed.
Print Assumptions C28_hierarchy.

Example C28_inhabited : exists lab fd deps, GetDepressionHierarchy D8 7 5 ex_dem (fun _ => 0%nat) ex_sort ex_parts ex_lab (fun _ _ => 0) = Some (Ok (lab, fd, deps)) /\
  map (fun d => (d_parent d, d_lchild d, d_rchild d, d_out_elev d)) deps =
    [(NO_PARENT, NO_VALUE, NO_VALUE, None); (3, NO_VALUE, NO_VALUE, Some 6); (3, NO_VALUE, NO_VALUE, Some 6); (0, 1, 2, Some 9)] /\
  map (fun d => (d_count d, d_vol d)) deps = [(0, None); (2, Some 4); (1, Some 3); (3, Some 16)].
Proof. eexists _, _, _. split; [vm_compute; reflexivity|]. split; vm_compute; reflexivity. Qed.
Example C28_hypotheses_met : exists lab fd deps pits, GetDepressionHierarchy D8 7 5 ex_dem (fun _ => 0%nat) ex_sort ex_parts ex_lab (fun _ _ => 0) = Some (Ok (lab, fd, deps)) /\
    watersheds D8 7 5 ex_dem ex_lab (fun _ _ => 0) lab fd pits /\ well_formed (Z.of_nat (length pits) + 1) deps.
Proof. destruct ex_inputs as [A [B C]]. apply C28_hierarchy; auto; [lia|apply ex_sort_ok]. Qed.

(** ** C26 *)
(** A thread visits cells with the given labels and elevations; the depressions it attributes them to. *)
Fixpoint cached_run (deps : list dep) (cs : list (Z * Z)) (s : coc) : option (list Z) :=
  match cs with
  | [] => Some []
  | (l, e) :: cs' =>
      match mv_search (length deps) deps e (fst (find_start l e s)) (snd (find_start l e s)) with
      | Some (Ok (d, s')) => match cached_run deps cs' s' with Some ds => Some (d :: ds) | None => None end
      | _ => None
      end
  end.
Theorem C26_cached_search n deps : well_formed n deps -> n <= 2 ^ 31 ->
  forall cs, (forall l e, In (l, e) cs -> 0 <= l < Z.of_nat (length deps)) ->
  exists ds, cached_run deps cs coc_new = Some ds /\
    Forall2 (fun c d => plain_search (length deps) deps (snd c) (fst c) = Some (Ok d) /\ holder deps (fst c) (snd c) d) cs ds.
Proof.
  intros WF Hn cs. assert (C0 : CI deps coc_new) by (intros x []). revert C0. generalize coc_new.
  induction cs as [|[l e] cs IH]; intros s HC Hin; [exists []; split; [auto|constructor]|].
  assert (Hl : 0 <= l < Z.of_nat (length deps)) by (apply (Hin l e); left; auto).
  destruct (cached_ok n deps WF Hn l e s Hl HC) as [s1 [A B]]. cbn [cached_run]. rewrite A.
  destruct (IH s1 B) as [ds [C D]]; [intros l' e' I; apply (Hin l' e'); right; auto|]. rewrite C. eexists. split; [reflexivity|].
  constructor; auto. cbn [fst snd]. apply (hold_ok n deps WF Hn); auto.
Qed.
Print Assumptions C26_cached_search.

(** The holder of a cell is unique. *)
Theorem C26_holder_unique n deps : well_formed n deps -> forall k e d d', 0 <= k -> holder deps k e d -> holder deps k e d' -> d = d'.
Proof. intros WF k e d d'. apply (holder_unique n deps WF). Qed.
Print Assumptions C26_holder_unique.

Example C26_inhabited : match GetDepressionHierarchy D8 7 5 ex_dem (fun _ => 0%nat) ex_sort ex_parts ex_lab (fun _ _ => 0) with
  | Some (Ok (_, _, deps)) => cached_run deps [(1, 8); (1, 7); (1, 5); (1, 9); (1, 2); (2, 10); (2, 3); (0, 5); (2, 7)] coc_new
  | _ => None end = Some [3; 3; 1; 3; 1; 0; 2; 0; 3].
Proof. vm_compute. reflexivity. Qed.

(** ** C27 *)
Theorem C27_volumes t w h dem lab0 fd0 tb sorted parts :
  valid_labels w h lab0 -> has_coast t w h lab0 -> w * h < 2 ^ 31 ->
  (forall db, sorting_of db (sorted db)) -> each_cell_once w h parts ->
  exists lab fd deps, GetDepressionHierarchy t w h dem tb sorted parts lab0 fd0 = Some (Ok (lab, fd, deps)) /\
    (forall d r, ix deps d = Some r -> d <> 0 -> exists z l v, d_out_elev r = Some z /\ cells_under w h dem lab deps d z l /\
       d_count r = Z.of_nat (length l) /\ d_vol r = Some v /\ v = depth_sum dem z l /\ 0 <= v) /\
    (forall d r rl rr, ix deps d = Some r -> ix deps (d_lchild r) = Some rl -> ix deps (d_rchild r) = Some rr ->
       exists v vl vr, d_vol r = Some v /\ d_vol rl = Some vl /\ d_vol rr = Some vr /\ vl + vr <= v).
Proof.
  intros A B C D E. destruct (gdh_ok t w h dem lab0 fd0 tb sorted parts A C B D E) as [lab [fd [deps [pits [X [_ [WF [Hn [_ [_ [_ [V S]]]]]]]]]]]].
  exists lab, fd, deps. split; auto. split.
  - intros d r Er Hd. destruct (V d r Er Hd) as [z [l [Z [CU [N [Q _]]]]]]. exists z, l, (depth_sum dem z l). split; auto. split; auto. split; auto. split; auto. split; auto.
    apply depth_nonneg; [exact []|]. intros c Hc. apply (proj1 (proj2 CU c) Hc).
  - intros d r rl rr Er El Err.
    assert (Hd : Z.of_nat (length pits) + 1 <= d).
    { destruct (Z_lt_ge_dec d (Z.of_nat (length pits) + 1)); [|lia]. destruct (wf_leaf _ _ WF d r Er ltac:(lia)) as [L _]. rewrite L in El.
      apply ixr in El. pose proof (wf_size _ _ WF). unfold NO_VALUE in El. lia. }
    destruct (wchild_link _ deps WF Hn d r _ Er Hd (or_introl eq_refl)) as [Cl _].
    destruct (wchild_link _ deps WF Hn d r _ Er Hd (or_intror eq_refl)) as [Cr _].
    destruct (V d r Er ltac:(lia)) as [z [l [_ [_ [_ [Q _]]]]]]. destruct (V _ rl El ltac:(lia)) as [zl [ll [_ [_ [_ [Ql _]]]]]].
    destruct (V _ rr Err ltac:(lia)) as [zr [lr [_ [_ [_ [Qr _]]]]]]. eexists _, _, _. split; [exact Q|]. split; [exact Ql|]. split; [exact Qr|].
    eapply (S d r rl rr); eauto.
Qed.
Print Assumptions C27_volumes.

(** the same for every thread partition: volumes and counts do not depend on it *)
Theorem C27_schedule_independent t w h dem lab0 fd0 tb sorted parts parts' :
  valid_labels w h lab0 -> has_coast t w h lab0 -> w * h < 2 ^ 31 ->
  (forall db, sorting_of db (sorted db)) -> each_cell_once w h parts -> each_cell_once w h parts' ->
  GetDepressionHierarchy t w h dem tb sorted parts lab0 fd0 = GetDepressionHierarchy t w h dem tb sorted parts' lab0 fd0.
Proof. apply gdh_parts. Qed.
Print Assumptions C27_schedule_independent.

Example C27_inhabited : exists lab fd deps, GetDepressionHierarchy D8 7 5 ex_dem (fun _ => 0%nat) ex_sort ex_parts ex_lab (fun _ _ => 0) = Some (Ok (lab, fd, deps)) /\
  exists r, ix deps 3 = Some r /\ d_lchild r = 1 /\ d_rchild r = 2 /\ d_vol r = Some 16.
Proof. eexists _, _, _. split; [vm_compute; reflexivity|]. eexists. vm_compute. auto. Qed.

(** ** C39: watersheds and flow directions *)
Theorem C39_watersheds t w h dem lab0 fd0 tb sorted parts :
  valid_labels w h lab0 -> has_coast t w h lab0 -> w * h < 2 ^ 31 ->
  (forall db, sorting_of db (sorted db)) -> each_cell_once w h parts ->
  exists lab fd deps pits, GetDepressionHierarchy t w h dem tb sorted parts lab0 fd0 = Some (Ok (lab, fd, deps)) /\
    watersheds t w h dem lab0 fd0 lab fd pits /\
    (forall k p, nth_error pits k = Some p -> exists r, ix deps (Z.of_nat k + 1) = Some r /\ d_pit r = Some p /\ d_pit_elev r = Some (elev_at dem p)).
Proof.
  intros A B C D E. destruct (gdh_ok t w h dem lab0 fd0 tb sorted parts A C B D E) as [lab [fd [deps [pits [X [Y [_ [_ [Z _]]]]]]]]].
  exists lab, fd, deps, pits. auto.
Qed.
Print Assumptions C39_watersheds.
Example C39_inhabited : match GetDepressionHierarchy D8 7 5 ex_dem (fun _ => 0%nat) ex_sort ex_parts ex_lab (fun _ _ => 0) with
  | Some (Ok (lab, fd, deps)) => Some (map d_pit deps, lab 3 2, fd 3 2, lab 2 2, lab 1 1) | _ => None end =
  Some ([None; Some (4, 2); Some (2, 2); Some (4, 2)], 1, 5, 2, 0).
Proof. vm_compute. reflexivity. Qed.

(** ** C40: every depression spills over the lowest pass of its rim *)
Theorem C40_outlets t w h dem lab0 fd0 tb sorted parts :
  valid_labels w h lab0 -> has_coast t w h lab0 -> w * h < 2 ^ 31 ->
  (forall db, sorting_of db (sorted db)) -> each_cell_once w h parts ->
  exists lab fd deps, GetDepressionHierarchy t w h dem tb sorted parts lab0 fd0 = Some (Ok (lab, fd, deps)) /\
    forall d r, ix deps d = Some r -> d <> 0 -> exists c z, d_out r = Some c /\ d_out_elev r = Some z /\
      lowest_pass t w h dem (region lab deps d) (outside lab deps d) c z.
Proof.
  intros A B C D E. destruct (gdh_ok t w h dem lab0 fd0 tb sorted parts A C B D E) as [lab [fd [deps [pits [X [_ [_ [_ [_ [Z _]]]]]]]]]].
  exists lab, fd, deps. auto.
Qed.
Print Assumptions C40_outlets.
Example C40_inhabited : match GetDepressionHierarchy D8 7 5 ex_dem (fun _ => 0%nat) ex_sort ex_parts ex_lab (fun _ _ => 0) with
  | Some (Ok (lab, fd, deps)) => Some (map (fun d => (d_out d, d_out_elev d)) (tl deps)) | _ => None end =
  Some [(Some (3, 2), Some 6); (Some (3, 2), Some 6); (Some (3, 1), Some 9)].
Proof. vm_compute. reflexivity. Qed.

(** ** C41: outlet elevations decide at which level water reaches the ocean *)
Theorem C41_spill_levels t w h dem lab0 fd0 tb sorted parts :
  valid_labels w h lab0 -> has_coast t w h lab0 -> w * h < 2 ^ 31 ->
  (forall db, sorting_of db (sorted db)) -> each_cell_once w h parts ->
  exists lab fd deps, GetDepressionHierarchy t w h dem tb sorted parts lab0 fd0 = Some (Ok (lab, fd, deps)) /\
    (forall L p, inside w h p -> (escapes t w h dem (ocean_cell w h lab0) L p <-> elev_at dem p <= L /\
       forall d r z, region lab deps d p -> ix deps d = Some r -> d <> 0 -> d_out_elev r = Some z -> z <= L)) /\
    (* cells of the ocean's watershed drain freely *)
    (forall p, inside w h p -> elev_at lab p = 0 -> escape_level t w h dem (ocean_cell w h lab0) p (elev_at dem p)) /\
    (* for the others the outermost depression around the cell decides *)
    (forall p d r z, inside w h p -> region lab deps d p -> ix deps d = Some r -> d_ocean_parent r = true -> d_out_elev r = Some z ->
       escape_level t w h dem (ocean_cell w h lab0) p (Z.max (elev_at dem p) z)).
Proof.
  intros A B C D E. destruct (gdh_ok t w h dem lab0 fd0 tb sorted parts A C B D E) as [lab [fd [deps [pits [X [Y [WF [_ [_ [_ [SP _]]]]]]]]]]].
  exists lab, fd, deps. split; auto. split; [exact SP|]. split.
  - intros p Hp L0. split.
    + apply SP; auto. split; [lia|]. intros d r z P _ Hd _. rewrite L0 in P. apply (wpart0 _ deps WF) in P. contradiction.
    + intros L' H. apply SP in H; auto. apply H.
  - intros p d r z Hp P Er O Z. unfold region in P.
    assert (Hd : d <> 0). { intros ->. destruct (wf_ocean _ _ WF) as [r0 [E0 [_ [O0 _]]]]. congruence. }
    pose proof (ws_label _ _ _ _ _ _ _ _ _ Y p Hp) as LB.
    split.
    + apply SP; auto. split; [lia|]. intros d' r' z' P' E' Hd' Z'.
      assert (Q : part_of deps d' d).
      { destruct (part_chain deps _ _ _ P' P) as [Q|Q]; auto. apply (part_front deps) in Q. destruct Q as [<-|[q [[r2 [E2 [O2 _]]] _]]]; [apply part_refl|congruence]. }
      pose proof (level_mono _ deps WF d' d Q Hd' r' r z' z E' Er Z' Z). lia.
    + intros L' H. apply SP in H; auto. destruct H as [H1 H2]. specialize (H2 d r z P Er Hd Z). lia.
Qed.
Print Assumptions C41_spill_levels.
Example C41_inhabited : match GetDepressionHierarchy D8 7 5 ex_dem (fun _ => 0%nat) ex_sort ex_parts ex_lab (fun _ _ => 0) with
  | Some (Ok (lab, fd, deps)) => match ix deps 3 with Some r => Some (lab 2 2, lab 4 2, map d_parent deps, d_ocean_parent r, d_out_elev r) | None => None end | _ => None end =
  Some (2, 1, [NO_PARENT; 3; 3; 0], true, Some 9).
Proof. vm_compute. reflexivity. Qed.

(** ** C42: which inputs are rejected *)
Theorem C42_rejects t w h dem lab0 fd0 tb sorted parts : w * h < 2 ^ 31 ->
  (forall db, sorting_of db (sorted db)) -> each_cell_once w h parts ->
  (GetDepressionHierarchy t w h dem tb sorted parts lab0 fd0 = Some Thrown <-> ~ (valid_labels w h lab0 /\ has_coast t w h lab0)) /\
  (valid_labels w h lab0 /\ has_coast t w h lab0 <-> exists r, GetDepressionHierarchy t w h dem tb sorted parts lab0 fd0 = Some (Ok r)).
Proof.
  intros Hs HS HP.
  assert (VD : valid_labels w h lab0 \/ ~ valid_labels w h lab0) by apply valid_dec.
  assert (CD : has_coast t w h lab0 \/ ~ has_coast t w h lab0) by apply coast_dec.
  assert (OK : valid_labels w h lab0 -> has_coast t w h lab0 -> exists r, GetDepressionHierarchy t w h dem tb sorted parts lab0 fd0 = Some (Ok r)).
  { intros V C. destruct (gdh_ok t w h dem lab0 fd0 tb sorted parts V Hs C HS HP) as [lab [fd [deps [pits [X _]]]]]. eauto. }
  destruct VD as [V|V]; [destruct CD as [C|C]|].
  - destruct (OK V C) as [r E]. rewrite E. split; [split; [discriminate|tauto]|]. split; eauto.
  - rewrite (gdh_no_coast t w h dem tb sorted parts lab0 fd0 V Hs C). split; [tauto|]. split; [tauto|]. intros [r X]. discriminate.
  - rewrite (gdh_bad_labels t w h dem tb sorted parts lab0 fd0 V). split; [tauto|]. split; [tauto|]. intros [r X]. discriminate.
Qed.
Print Assumptions C42_rejects.
Example C42_inhabited : GetDepressionHierarchy D8 7 5 ex_dem (fun _ => 0%nat) ex_sort ex_parts (fun _ _ => 5) (fun _ _ => 0) = Some Thrown /\
  GetDepressionHierarchy D8 7 5 ex_dem (fun _ => 0%nat) ex_sort ex_parts (fun _ _ => 0) (fun _ _ => 0) = Some Thrown /\
  GetDepressionHierarchy D8 7 5 ex_dem (fun _ => 0%nat) ex_sort ex_parts (fun _ _ => 2 ^ 32 - 1) (fun _ _ => 0) = Some Thrown.
Proof. vm_compute. auto. Qed.
