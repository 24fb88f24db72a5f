(** Marginal and total volumes (phase 3). *)
From Coq Require Import ZArith List Lia Bool Permutation Sorting.Sorted Relations.
From Verif Require Import Base Res RasterSpec RasterFacts UFModel UFProofs UFSpec FlowModel FlowProofs FlatsSpec FlatsModel FlatsProofs DHModel DHSpec DHFlood DHTree DHTerrain.
Open Scope Z_scope.
Local Notation "g @ c" := (elev_at g c) (at level 20).

(** ** The search for the containing depression *)
Section Search.
  Variables (n : Z) (deps : list dep).
  Hypothesis WF : well_formed n deps.
  Hypothesis Hn : n <= 2 ^ 31.
  Notation len := (Z.of_nat (length deps)).
  Notation part := (part_of deps).

  Lemma part_sdec k d : {part k d} + {~ part k d}.
  Proof.
    remember (Z.to_nat (len - k)) as m eqn:Em. revert k Em. induction m as [m IH] using (well_founded_induction lt_wf).
    intros k Em. destruct (Z.eq_dec k d) as [->|Hne]; [left; apply part_refl|].
    destruct (ix deps k) as [r|] eqn:E.
    2: { right. intros P. apply (part_front deps) in P. destruct P as [|[q [[r [Er _]] _]]]; congruence. }
    destruct (d_ocean_parent r) eqn:O.
    { right. intros P. apply (part_front deps) in P. destruct P as [|[q [[r' [Er [Or _]]] _]]]; congruence. }
    destruct (Z.eq_dec (d_parent r) NO_PARENT) as [N|N].
    { right. intros P. apply (part_front deps) in P. destruct P as [|[q [[r' [Er [Or [Nr _]]]] _]]]; congruence. }
    assert (L : links deps k (d_parent r)) by (exists r; auto).
    pose proof (wlink n deps WF _ _ L). destruct (IH (Z.to_nat (len - d_parent r)) ltac:(lia) (d_parent r) eq_refl) as [Y|Y].
    - left. eapply part_left; eauto.
    - right. intros P. apply (part_front deps) in P. destruct P as [|[q [L2 P]]]; [auto|]. rewrite (link_fun deps _ _ _ L L2) in Y. auto.
  Qed.
  Lemma part_antisym a b : part a b -> part b a -> a = b.
  Proof. intros A B. apply (wpart_le n deps WF) in A. apply (wpart_le n deps WF) in B. lia. Qed.

  (** every depression other than the ocean: outlet and way up *)
  Lemma way_up k : 0 < k < len -> exists r z, ix deps k = Some r /\ d_out_elev r = Some z /\
    (d_ocean_parent r = true /\ (forall p, ~ links deps k p) \/ d_ocean_parent r = false /\ links deps k (d_parent r) /\ k < d_parent r < len).
  Proof.
    intros Hk. destruct (proj2 (ix_some_iff deps k) ltac:(lia)) as [r E]. destruct (wf_levels _ _ WF k r E ltac:(lia)) as [z [Z _]].
    exists r, z. split; auto. split; auto. destruct (wf_parent _ _ WF k r E ltac:(lia)) as [[O _]|[O [P _]]].
    - left. split; auto. intros p [r' [E' [O' _]]]. congruence.
    - right. split; auto. split; [|lia]. exists r. split; auto. split; auto. split; auto. pose proof (wf_size _ _ WF). unfold NO_PARENT. lia.
  Qed.

  (** climbing past a depression that does not reach [e] *)
  Lemma holder_skip l k0 e d : l <> 0 -> (forall d', part l d' -> part d' k0 -> d' <> k0 -> ~ reaches deps e d') -> part l k0 ->
    holder deps k0 e d -> holder deps l e d.
  Proof.
    intros Hl SK P0 [[P [R M]]|[-> M]]; [left|right]; split; auto.
    - eapply part_trans; eauto.
    - split; auto. intros d' P' R'. destruct (part_chain deps l k0 d' P0 P') as [A|A]; [apply M; auto|].
      destruct (Z.eq_dec d' k0) as [->|N]; [apply M; auto; apply part_refl|]. exfalso. eapply SK; eauto.
    - intros d' P' R'. destruct (part_chain deps l k0 d' P0 P') as [A|A]; [apply (M d'); auto|].
      destruct (Z.eq_dec d' k0) as [->|N]; [apply (M k0); auto; apply part_refl|]. eapply SK; eauto.
  Qed.
  Lemma holder_unique k e d d' : 0 <= k -> holder deps k e d -> holder deps k e d' -> d = d'.
  Proof.
    intros Hk [[P [R M]]|[-> M]] [[P' [R' M']]|[-> M']]; auto.
    - apply part_antisym; auto.
    - exfalso. eapply M'; eauto.
    - exfalso. eapply M; eauto.
  Qed.
  Lemma holder_stop k e d : holder deps k e d -> d = 0 \/ part k d.
  Proof. intros [[P _]|[-> _]]; auto. Qed.

  Definition entry (l : Z) (x : option Z * Z) : Prop := part l (snd x) /\ 0 < snd x < len /\ exists r, ix deps (snd x) = Some r /\ fst x = d_out_elev r.

  Lemma search_ok e : forall f k s, 0 <= k < len -> len - k <= Z.of_nat f -> exists d s', mv_search f deps e k s = Some (Ok (d, s')) /\
    plain_search f deps e k = Some (Ok d) /\ holder deps k e d /\ c_leaf s' = c_leaf s /\
    (forall x, In x (c_outlets s') -> In x (c_outlets s) \/ entry k x).
  Proof.
    induction f as [|f IH]; intros k s Hk Hf; [lia|].
    assert (E0 : mv_search (S f) deps e k s = if k =? OCEAN then Some (Ok (k, s)) else match at_ deps k with
           | Ok d =>
               let s' := mkCoc (c_leaf s) ((d_out_elev d, k) :: c_outlets s) in
               if le_out e (d_out_elev d) then Some (Ok (k, s'))
               else if d_ocean_parent d then Some (Ok (OCEAN, s'))
               else mv_search f deps e (d_parent d) s'
           | Thrown => Some Thrown
           | Undef => Some Undef
           end) by reflexivity.
    assert (E1 : plain_search (S f) deps e k = if k =? OCEAN then Some (Ok k) else match at_ deps k with
           | Ok d => if le_out e (d_out_elev d) then Some (Ok k)
                     else if d_ocean_parent d then Some (Ok OCEAN)
                     else plain_search f deps e (d_parent d)
           | Thrown => Some Thrown
           | Undef => Some Undef
           end) by reflexivity.
    rewrite E0, E1. clear E0 E1. unfold OCEAN. destruct (Z.eqb_spec k 0) as [->|Hk0].
    { exists 0, s. split; auto. split; auto. split; [|auto]. right. split; auto. intros d' P. apply (wpart0 n deps WF) in P. intros [X _]. auto. }
    destruct (way_up k ltac:(lia)) as [r [z [E [Z U]]]]. rewrite (at_in _ _ _ E), Z. cbv zeta. cbn [le_out].
    assert (EN : entry k (Some z, k)) by (split; [apply part_refl|split; [cbn; lia|exists r; auto]]).
    destruct (Z.leb_spec e z) as [L|L].
    { eexists k, _. split; [reflexivity|]. split; auto. split; [|split; [auto|]].
      - left. split; [apply part_refl|]. split; [split; auto; exists r, z; auto|]. auto.
      - cbn [c_outlets]. intros x [<-|I]; auto. }
    assert (NR : ~ reaches deps e k). { intros [_ [r' [z' [X [Y Q]]]]]. assert (r' = r) by congruence. subst. assert (z' = z) by congruence. lia. }
    destruct U as [[O NL]|[O [LK B]]]; rewrite O.
    { eexists 0, _. split; [reflexivity|]. split; auto. split; [|split; [auto|]].
      - right. split; auto. intros d' P. apply (part_front deps) in P. destruct P as [<-|[p [LP _]]]; auto. exfalso. eapply NL; eauto.
      - cbn [c_outlets]. intros x [<-|I]; auto. }
    destruct (IH (d_parent r) (mkCoc (c_leaf s) ((Some z, k) :: c_outlets s)) ltac:(lia) ltac:(lia)) as [d [s' [A [B' [C [D F]]]]]].
    exists d, s'. split; auto. split; auto. split.
    - apply holder_skip with (d_parent r); auto.
      + intros d' P P' N R. apply (part_front deps) in P. destruct P as [<-|[p [LP P]]]; [auto|].
        rewrite (link_fun deps _ _ _ LP LK) in P. apply N. apply part_antisym; auto.
      + eapply part_step; [apply part_refl|eauto].
    - split; auto. intros x I. destruct (F x I) as [[<-|X]|[X1 X2]]; auto. right. split; auto. eapply part_left; eauto.
  Qed.

  Lemma out_low k d e z : part k d -> k <> 0 -> 0 <= d < len -> (exists r, ix deps d = Some r /\ d_out_elev r = Some z) -> z < e -> ~ reaches deps e k.
  Proof.
    intros P Hk Hd [rd [Ed Zd]] L [_ [rk [zk [Ek [Zk Q]]]]]. pose proof (level_mono n deps WF k d P Hk rk rd zk z Ek Ed Zk Zd). lia.
  Qed.

  (** CachingOutletChecker *)
  Definition CI (s : coc) : Prop := forall x, In x (c_outlets s) -> entry (c_leaf s) x.
  Lemma pop_suffix e l : exists pre, l = pre ++ pop_outlets e l.
  Proof.
    induction l as [|[z k] l [pre IH]]; [exists []; auto|]. cbn [pop_outlets]. destruct (le_out e z); [|exists []; auto].
    exists ((z, k) :: pre). cbn. congruence.
  Qed.
  Lemma pop_head e l z k l' : pop_outlets e l = (z, k) :: l' -> le_out e z = false.
  Proof. induction l as [|[z1 k1] l IH]; cbn [pop_outlets]; [discriminate|]. destruct (le_out e z1) eqn:E; auto. intros X. congruence. Qed.

  Lemma start_ok l e s k0 s0 : 0 <= l < len -> CI s -> find_start l e s = (k0, s0) ->
    CI s0 /\ c_leaf s0 = l /\ part l k0 /\ 0 <= k0 < len /\ (l = 0 -> k0 = 0) /\ (forall d', part l d' -> part d' k0 -> d' <> k0 -> ~ reaches deps e d').
  Proof.
    intros Hl HC. unfold find_start.
    assert (RESET : CI (coc_reset l) /\ c_leaf (coc_reset l) = l /\ part l l /\ 0 <= l < len /\ (l = 0 -> l = 0) /\ (forall d', part l d' -> part d' l -> d' <> l -> ~ reaches deps e d')).
    { split; [intros x []|]. split; auto. split; [apply part_refl|]. split; auto. split; auto.
      intros d' A B N. exfalso. apply N. apply part_antisym; auto. }
    destruct (Z.eqb_spec (c_leaf s) l) as [El|El]; cbn [negb]; [|intros X; inversion X; subst; auto].
    destruct (pop_outlets e (c_outlets s)) as [|[z k] l'] eqn:Ep; [intros X; inversion X; subst; auto|].
    intros X; inversion X; subst k0 s0. cbn [c_leaf c_outlets].
    destruct (pop_suffix e (c_outlets s)) as [pre Hpre]. rewrite Ep in Hpre.
    assert (HE : entry l (z, k)). { rewrite <- El. apply HC. rewrite Hpre. apply in_or_app. right. left. auto. }
    destruct HE as [H1 [H2 [r [H3 H4]]]]. cbn [fst snd] in *.
    split. { intros x I. cbn [c_leaf]. rewrite <- El in *. apply HC. rewrite Hpre. apply in_or_app. auto. }
    split; auto. split; auto. split; [lia|]. split; [intros ->; apply (wpart0 n deps WF) in H1; auto|].
    intros d' A B N. pose proof (pop_head _ _ _ _ _ Ep) as LE. destruct (way_up k ltac:(lia)) as [r' [z' [E' [Z' _]]]].
    assert (r' = r) by congruence. subst r'. rewrite H4, Z' in LE. cbn [le_out] in LE. apply Z.leb_gt in LE.
    apply (out_low d' k e z'); auto.
    - intros ->. apply (wpart_of0 n deps WF) in A; [|lia]. rewrite A in H1. apply (wpart0 n deps WF) in H1. lia.
    - lia.
    - eauto.
  Qed.

  Definition hold (l e : Z) : Z := match plain_search (length deps) deps e l with Some (Ok k) => k | _ => 0 end.
  Lemma hold_ok l e : 0 <= l < len -> plain_search (length deps) deps e l = Some (Ok (hold l e)) /\ holder deps l e (hold l e).
  Proof.
    intros Hl. destruct (search_ok e (length deps) l coc_new Hl ltac:(lia)) as [d [s' [_ [A [B _]]]]]. unfold hold. rewrite A. auto.
  Qed.
  Lemma hold_in l e : 0 <= l < len -> 0 <= hold l e < len.
  Proof. intros Hl. destruct (hold_ok l e Hl) as [_ H]. apply holder_stop in H. destruct H as [->|P]; [lia|]. eapply (wpart_in n deps WF); eauto. Qed.

  (** one cell: the cache does not change the result *)
  Lemma cached_ok l e s : 0 <= l < len -> CI s -> exists s1,
    mv_search (length deps) deps e (fst (find_start l e s)) (snd (find_start l e s)) = Some (Ok (hold l e, s1)) /\ CI s1.
  Proof.
    intros Hl HC. destruct (find_start l e s) as [k0 s0] eqn:E. cbn [fst snd].
    destruct (start_ok l e s k0 s0 Hl HC E) as [C0 [L0 [P0 [B0 [Z0 SK]]]]].
    destruct (search_ok e (length deps) k0 s0 B0 ltac:(lia)) as [d [s' [A [_ [H [D F]]]]]]. exists s'.
    assert (Hd : holder deps l e d).
    { destruct (Z.eq_dec l 0) as [->|Hl0]; [rewrite Z0 in H by auto; auto|]. apply holder_skip with k0; auto. }
    rewrite (holder_unique l e (hold l e) d); [|lia|apply hold_ok; auto|auto]. split; auto.
    intros x I. rewrite D. destruct (F x I) as [X|[X1 X2]]; [apply C0; auto|]. split; auto. rewrite L0. eapply part_trans; eauto.
  Qed.

  (** ** Counting *)
  Variables (w h : Z) (dem lab : grid Z).
  Hypothesis Hsize : w * h < 2 ^ 31.
  Hypothesis Hlab : forall c, inside w h c -> 0 <= lab @ c < len.
  Definition ch (c : cellt) : Z := hold (lab @ c) (dem @ c).
  (** how often [k] holds a cell of [p], and the sum of their elevations *)
  Definition cnt (k : Z) (p : list cellt) : Z := if k =? 0 then 0 else Z.of_nat (length (filter (fun c => ch c =? k) p)).
  Definition tot (k : Z) (p : list cellt) : Z := if k =? 0 then 0 else zsum (map (fun c => dem @ c) (filter (fun c => ch c =? k) p)).
  Lemma zsum_app a b : zsum (a ++ b) = zsum a + zsum b.
  Proof. induction a as [|x a IH]; cbn; [auto|]. unfold zsum in *. cbn. lia. Qed.
  Lemma cnt_app k a b : cnt k (a ++ b) = cnt k a + cnt k b.
  Proof. unfold cnt. destruct (k =? 0); auto. rewrite filter_app, app_length. lia. Qed.
  Lemma tot_app k a b : tot k (a ++ b) = tot k a + tot k b.
  Proof. unfold tot. destruct (k =? 0); auto. rewrite filter_app, map_app, zsum_app. reflexivity. Qed.
  Lemma cnt_le k p : 0 <= cnt k p <= Z.of_nat (length p).
  Proof. unfold cnt. destruct (k =? 0); [lia|]. pose proof (filter_le (fun c => ch c =? k) p). lia. Qed.

  Lemma cell_ok c s cs : inside w h c -> CI s -> (forall k, 0 <= fst cs k < 2 ^ 32 - 1) -> exists s' cs',
    mv_cell w h dem lab deps c (s, cs) = Some (Ok (s', cs')) /\ CI s' /\
    (forall k, fst cs' k = fst cs k + cnt k [c]) /\ (forall k, snd cs' k = snd cs k + tot k [c]).
  Proof.
    intros Hc HC HB. unfold mv_cell. rewrite !gat_in by auto. cbn [bind]. fold (dem @ c). fold (lab @ c).
    destruct (cached_ok (lab @ c) (dem @ c) s (Hlab c Hc) HC) as [s1 [A B]]. cbn [fst snd].
    destruct (find_start (lab @ c) (dem @ c) s) as [k0 s0]. cbn [fst snd] in A. rewrite A.
    pose proof (hold_in (lab @ c) (dem @ c) (Hlab c Hc)) as HI. fold (ch c) in *. unfold OCEAN.
    destruct (Z.eqb_spec (ch c) 0) as [E|E].
    - eexists _, _. split; [reflexivity|]. split; auto. split; intros k; [unfold cnt|unfold tot]; cbn [filter]; rewrite E;
        destruct (Z.eqb_spec k 0); destruct (Z.eqb_spec 0 k); try lia; cbn; lia.
    - destruct (Z.leb_spec 0 (ch c)); [|lia]. destruct (Z.ltb_spec (ch c) len); [|lia]. cbn [andb].
      eexists _, _. split; [reflexivity|]. split; auto. cbn [fst snd]. split; intros k; unfold zupd; [unfold cnt|unfold tot]; cbn [filter];
        destruct (Z.eqb_spec k (ch c)) as [->|Nk].
      + rewrite Z.eqb_refl. destruct (Z.eqb_spec (ch c) 0); [lia|]. cbn [length]. specialize (HB (ch c)). rewrite w32_id; lia.
      + destruct (Z.eqb_spec (ch c) k); [congruence|]. destruct (k =? 0); cbn; lia.
      + rewrite Z.eqb_refl. destruct (Z.eqb_spec (ch c) 0); [lia|]. cbn. lia.
      + destruct (Z.eqb_spec (ch c) k); [congruence|]. destruct (k =? 0); cbn; lia.
  Qed.

  Lemma thread_ok : forall p s cs m, (forall c, In c p -> inside w h c) -> CI s -> (forall k, 0 <= fst cs k <= m) -> m + Z.of_nat (length p) < 2 ^ 32 - 1 ->
    exists s' cs', forO p (mv_cell w h dem lab deps) (s, cs) = Some (Ok (s', cs')) /\
      (forall k, fst cs' k = fst cs k + cnt k p) /\ (forall k, snd cs' k = snd cs k + tot k p).
  Proof.
    induction p as [|c p IH]; intros s cs m Hp HC HB Hm.
    - exists s, cs. split; [reflexivity|]. split; intros k; [unfold cnt|unfold tot]; cbn [filter]; destruct (k =? 0); cbn; lia.
    - cbn [length] in Hm. cbn [forO]. destruct (cell_ok c s cs (Hp c (or_introl eq_refl)) HC) as [s1 [cs1 [A [B [C D]]]]]; [intros k; specialize (HB k); lia|].
      rewrite A. destruct (IH s1 cs1 (m + 1)) as [s' [cs' [E [F G]]]]; [intros; apply Hp; right; auto|auto| |lia|].
      + intros k. rewrite C. pose proof (cnt_le k [c]). cbn [length] in *. specialize (HB k). lia.
      + exists s', cs'. split; auto. change (c :: p) with ([c] ++ p). split; intros k.
        * rewrite cnt_app, F, C. lia.
        * rewrite tot_app, G, D. lia.
  Qed.
End Search.

(** ** Records with other volumes *)
Definition setv (r : dep) (c : Z) (v : option Z) (t : Z) : dep :=
  mkDep (d_pit r) (d_out r) (d_parent r) (d_odep r) (d_geolink r) (d_pit_elev r) (d_out_elev r) (d_lchild r)
        (d_rchild r) (d_ocean_parent r) (d_ocean_linked r) (d_label r) c v t.
Lemma ix_combine deps k : ix (combine (zrange 0 (length deps)) deps) k = match ix deps k with Some r => Some (k, r) | None => @None (Z * dep) end.
Proof.
  unfold ix. destruct (Z.ltb_spec k 0); auto. destruct (nth_error deps (Z.to_nat k)) as [r|] eqn:E.
  - assert (Z.to_nat k < length deps)%nat by (apply nth_error_Some; congruence).
    rewrite (combine_nth _ _ _ _ _ (zrange_nth 0 _ _ H0) E). f_equal. f_equal. lia.
  - apply nth_error_None in E. apply nth_error_None. rewrite combine_length, zrange_length. lia.
Qed.
Lemma ix_map {A B} (f : A -> B) l k : ix (map f l) k = option_map f (ix l k).
Proof. unfold ix. destruct (k <? 0); auto. apply nth_error_map. Qed.
Lemma add_counts_ix cs deps k : ix (add_counts cs deps) k =
  match ix deps k with Some r => Some (setv r (w32 (d_count r + fst cs k)) (d_vol r) (d_total r + snd cs k)) | None => None end.
Proof. unfold add_counts. rewrite ix_map, ix_combine. destruct (ix deps k); reflexivity. Qed.
Lemma add_counts_length cs deps : length (add_counts cs deps) = length deps.
Proof. unfold add_counts. rewrite map_length, combine_length, zrange_length. lia. Qed.

(** [ds] is [deps] with cell counts [c], volumes [v] and total elevations [t] *)
Definition with_values (deps ds : list dep) (c : Z -> Z) (v : Z -> option Z) (t : Z -> Z) : Prop :=
  length ds = length deps /\ forall k r, ix deps k = Some r -> ix ds k = Some (setv r (c k) (v k) (t k)).

Lemma marginal_ok n deps w h dem lab parts : well_formed n deps -> n <= 2 ^ 31 -> w * h < 2 ^ 31 ->
  (forall c, inside w h c -> 0 <= lab @ c < Z.of_nat (length deps)) ->
  (forall k r, ix deps k = Some r -> d_count r = 0 /\ d_total r = 0 /\ d_vol r = Some 0) ->
  (forall c, In c (concat parts) -> inside w h c) -> Z.of_nat (length (concat parts)) < 2 ^ 31 ->
  exists ds, CalculateMarginalVolumes w h dem lab parts deps = Some (Ok ds) /\
    with_values deps ds (fun k => cnt deps dem lab k (concat parts)) (fun _ => Some 0) (fun k => tot deps dem lab k (concat parts)).
Proof.
  intros WF Hn Hsize Hlab H0 Hin Hlen. unfold CalculateMarginalVolumes.
  assert (G : forall rest done ds, parts = done ++ rest ->
    with_values deps ds (fun k => cnt deps dem lab k (concat done)) (fun _ => Some 0) (fun k => tot deps dem lab k (concat done)) ->
    exists ds', forO rest (fun p ds =>
      match forO p (mv_cell w h dem lab deps) (coc_new, (fun _ => 0, fun _ => 0)) with
      | Some (Ok s) => Some (Ok (add_counts (snd s) ds))
      | Some Thrown => Some Thrown | Some Undef => Some Undef | None => None
      end) ds = Some (Ok ds') /\
      with_values deps ds' (fun k => cnt deps dem lab k (concat parts)) (fun _ => Some 0) (fun k => tot deps dem lab k (concat parts))).
  { induction rest as [|p rest IH]; intros done ds Ep HV.
    - rewrite app_nil_r in Ep. subst done. exists ds. auto.
    - assert (LL : (length (concat done) + length p <= length (concat parts))%nat).
      { rewrite Ep, concat_app. cbn [concat]. rewrite !app_length. lia. }
      cbn [forO]. destruct (thread_ok n deps WF Hn w h dem lab Hlab p coc_new (fun _ => 0, fun _ => 0) 0) as [s' [cs [A [B C]]]].
      + intros c Hc. apply Hin. rewrite Ep, concat_app. cbn [concat]. apply in_or_app. right. apply in_or_app. auto.
      + intros x [].
      + cbn. intros. lia.
      + lia.
      + rewrite A. cbn [snd]. apply IH with (done ++ [p]); [rewrite Ep, <- app_assoc; auto|].
        destruct HV as [HL HV]. split; [rewrite add_counts_length; auto|]. intros k r E. rewrite add_counts_ix, (HV k r E).
        rewrite concat_app. cbn [concat]. rewrite app_nil_r, cnt_app, tot_app, B, C. cbn [setv d_count d_vol d_total fst snd].
        unfold setv. cbn [d_pit d_out d_parent d_odep d_geolink d_pit_elev d_out_elev d_lchild d_rchild d_ocean_parent d_ocean_linked d_label].
        pose proof (cnt_le deps dem lab k (concat done)). pose proof (cnt_le deps dem lab k p).
        rewrite w32_id by (unfold cellt in *; lia). reflexivity. }
  apply G with []; auto. split; auto. intros k r E. destruct (H0 k r E) as [A [B C]]. rewrite E. f_equal.
  unfold cnt, tot. cbn. destruct (k =? 0); cbn; destruct r; cbn in *; subst; reflexivity.
Qed.

(** ** Total volumes *)
Section Totals.
  Variables (n : Z) (deps : list dep) (w h : Z) (dem lab : grid Z) (L : list cellt).
  Hypothesis WF : well_formed n deps.
  Hypothesis Hn : n <= 2 ^ 31.
  Hypothesis Hlab : forall c, inside w h c -> 0 <= lab @ c < Z.of_nat (length deps).
  Hypothesis HL : NoDup L.
  Hypothesis HLin : forall c, In c L <-> inside w h c.
  Hypothesis HLlen : Z.of_nat (length L) < 2 ^ 31.
  Notation part := (part_of deps).
  Notation ch := (ch deps dem lab).
  Notation cnt := (cnt deps dem lab).
  Notation tot := (tot deps dem lab).

  Definition under (d : Z) (c : cellt) : bool := negb (ch c =? 0) && (if part_sdec n deps WF (ch c) d then true else false).
  Definition U (d : Z) : list cellt := filter (under d) L.
  Definition Csum (d : Z) : Z := Z.of_nat (length (U d)).
  Definition Tsum (d : Z) : Z := zsum (map (fun c => dem @ c) (U d)).
  Definition vol (d : Z) : option Z := match ix deps d with Some r => match d_out_elev r with Some z => Some (Csum d * z - Tsum d) | None => None end | None => None end.

  Lemma under_iff d c : under d c = true <-> ch c <> 0 /\ part (ch c) d.
  Proof. unfold under. destruct (Z.eqb_spec (ch c) 0); destruct (part_sdec n deps WF (ch c) d); cbn; intuition congruence. Qed.
  Lemma ch_holder c : In c L -> holder deps (lab @ c) (dem @ c) (ch c).
  Proof. intros I. apply (hold_ok n deps WF Hn). apply Hlab, HLin; auto. Qed.

  Lemma U_cells d r z : ix deps d = Some r -> d <> 0 -> d_out_elev r = Some z -> cells_under w h dem lab deps d z (U d).
  Proof.
    intros E Hd Z. split; [apply NoDup_filter; auto|]. intros c. unfold U. rewrite filter_In, under_iff. split.
    - intros [I [N P]]. destruct (ch_holder c I) as [[P' [R _]]|[X _]]; [|contradiction]. split; [apply HLin; auto|].
      split; [eapply part_trans; eauto|]. destruct R as [_ [r' [z' [E' [Z' Q]]]]].
      pose proof (level_mono n deps WF (ch c) d P N r' r z' z E' E Z' Z). lia.
    - intros [I [P Q]]. apply HLin in I. split; auto. assert (R : reaches deps (dem @ c) d) by (split; auto; exists r, z; auto).
      destruct (ch_holder c I) as [[P' [[N _] M]]|[_ M]]; [auto|]. exfalso. eapply M; eauto.
  Qed.

  (** splitting the cells below [d] *)
  Lemma split_count {A} (f g1 g2 g3 : A -> bool) (v : A -> Z) l :
    (forall a, In a l -> f a = g1 a || g2 a || g3 a) ->
    (forall a, In a l -> g1 a && g2 a = false /\ g1 a && g3 a = false /\ g2 a && g3 a = false) ->
    zsum (map v (filter f l)) = zsum (map v (filter g1 l)) + zsum (map v (filter g2 l)) + zsum (map v (filter g3 l)).
  Proof.
    induction l as [|a l IH]; intros H1 H2; [reflexivity|]. specialize (IH (fun a I => H1 a (or_intror I)) (fun a I => H2 a (or_intror I))).
    specialize (H1 a (or_introl eq_refl)). specialize (H2 a (or_introl eq_refl)). unfold zsum in *.
    cbn [filter]. rewrite H1. destruct (g1 a), (g2 a), (g3 a); cbn [orb andb] in *; try (exfalso; intuition congruence); cbn [map fold_right]; lia.
  Qed.
  Lemma zsum_ones {A} (l : list A) : zsum (map (fun _ => 1) l) = Z.of_nat (length l).
  Proof. induction l as [|a l IH]; [reflexivity|]. unfold zsum in *. cbn [map fold_right length]. lia. Qed.
  Lemma zsum_none {A} (v : A -> Z) f (l : list A) : (forall a, In a l -> f a = false) -> filter f l = [].
  Proof. induction l as [|a l IH]; intros H; [reflexivity|]. cbn [filter]. rewrite (H a (or_introl eq_refl)). apply IH. intros; apply H; right; auto. Qed.

  Definition own (d : Z) (c : cellt) : bool := negb (d =? 0) && (ch c =? d).
  Lemma cnt_own d : cnt d L = Z.of_nat (length (filter (own d) L)).
  Proof.
    unfold DHVol.cnt, own. destruct (d =? 0); cbn [negb andb]; [|reflexivity].
    rewrite (zsum_none (fun _ => 0)) by auto. reflexivity.
  Qed.
  Lemma tot_own d : tot d L = zsum (map (fun c => dem @ c) (filter (own d) L)).
  Proof.
    unfold DHVol.tot, own. destruct (d =? 0); cbn [negb andb]; [|reflexivity].
    rewrite (zsum_none (fun _ => 0)) by auto. reflexivity.
  Qed.

  Lemma U_leaf d r (v : cellt -> Z) : ix deps d = Some r -> d < n -> zsum (map v (U d)) = zsum (map v (filter (own d) L)).
  Proof.
    intros E Hd. unfold U. f_equal. f_equal. apply filter_ext_in. intros c I. apply eq_true_iff_eq. rewrite under_iff. unfold own.
    rewrite andb_true_iff, negb_true_iff, Z.eqb_neq, Z.eqb_eq. split.
    - intros [N P]. apply part_inv in P. destruct P as [P|[p [_ LK]]]; [subst; auto|]. apply (wlink n deps WF) in LK. lia.
    - intros [N P]. subst d. split; auto. apply part_refl.
  Qed.
  Lemma U_meta d r (v : cellt -> Z) : ix deps d = Some r -> n <= d ->
    zsum (map v (U d)) = zsum (map v (filter (own d) L)) + zsum (map v (U (d_lchild r))) + zsum (map v (U (d_rchild r))).
  Proof.
    intros E Hd.
    destruct (wchild_link n deps WF Hn d r _ E Hd (or_introl eq_refl)) as [Cl Ll].
    destruct (wchild_link n deps WF Hn d r _ E Hd (or_intror eq_refl)) as [Cr Lr].
    assert (NLR : d_lchild r <> d_rchild r) by apply (wf_meta _ _ WF d r E Hd).
    assert (SEP : forall a b, (a = d_lchild r \/ a = d_rchild r) -> (b = d_lchild r \/ b = d_rchild r) -> a <> b -> ~ part a b).
    { intros a b Ha Hb N P. apply (part_front deps) in P. destruct P as [|[p [LP P]]]; [auto|].
      assert (La : links deps a d) by (destruct Ha; subst; auto). assert (b < d) by (destruct Hb; subst; lia).
      rewrite (link_fun deps _ _ _ LP La) in P. apply (wpart_le n deps WF) in P. lia. }
    unfold U. apply split_count.
    - intros c I. apply eq_true_iff_eq. rewrite !orb_true_iff, !under_iff. unfold own. rewrite andb_true_iff, negb_true_iff, Z.eqb_neq, Z.eqb_eq. split.
      + intros [N P]. destruct (Z.eq_dec (ch c) d) as [X|X]; [left; left; subst; auto|].
        destruct (wchild n deps WF d r _ E Hd P X); auto.
      + intros [[[N P]|[N P]]|[N P]]; split; auto; [lia|rewrite P; apply part_refl| |]; eapply part_step; eauto.
    - intros c I. assert (X : forall b, b = false <-> b <> true) by (intros []; intuition congruence). rewrite !X, !andb_true_iff, !under_iff. unfold own.
      rewrite andb_true_iff, negb_true_iff, Z.eqb_neq, Z.eqb_eq. split; [|split].
      + intros [[_ A] [_ B]]. rewrite A in B. apply (wpart_le n deps WF) in B. lia.
      + intros [[_ A] [_ B]]. rewrite A in B. apply (wpart_le n deps WF) in B. lia.
      + intros [[_ A] [_ B]]. destruct (part_chain deps (ch c) _ _ A B) as [P|P]; revert P; apply SEP; auto.
  Qed.

  Lemma Csum_le d : 0 <= Csum d <= Z.of_nat (length L).
  Proof. unfold Csum, U. pose proof (filter_le (under d) L). lia. Qed.

  (** depth sums *)
  Lemma depth_eq z l : depth_sum dem z l = Z.of_nat (length l) * z - zsum (map (fun c => dem @ c) l).
  Proof. unfold depth_sum. induction l as [|c l IH]; [reflexivity|]. unfold zsum in *. cbn [map fold_right length] in *. lia. Qed.
  Lemma vol_eq d r z : ix deps d = Some r -> d_out_elev r = Some z -> vol d = Some (depth_sum dem z (U d)).
  Proof. intros E Z. unfold vol. rewrite E, Z, depth_eq. reflexivity. Qed.
  Lemma depth_nonneg z l : (forall c, In c l -> dem @ c <= z) -> 0 <= depth_sum dem z l.
  Proof.
    unfold depth_sum, zsum. induction l as [|c l IH]; intros H; cbn [map fold_right]; [lia|].
    specialize (IH (fun c I => H c (or_intror I))). specialize (H c (or_introl eq_refl)). lia.
  Qed.
  Lemma depth_mono z z' l : z <= z' -> depth_sum dem z l <= depth_sum dem z' l.
  Proof. intros H. unfold depth_sum, zsum. induction l as [|c l IH]; cbn [map fold_right]; lia. Qed.
  Lemma depth_super d r z zl zr rl rr : ix deps d = Some r -> n <= d -> d_out_elev r = Some z ->
    ix deps (d_lchild r) = Some rl -> d_out_elev rl = Some zl -> ix deps (d_rchild r) = Some rr -> d_out_elev rr = Some zr ->
    0 < d ->
    depth_sum dem zl (U (d_lchild r)) + depth_sum dem zr (U (d_rchild r)) <= depth_sum dem z (U d).
  Proof.
    intros E Hd Z El Zl Er Zr Hpos. unfold depth_sum at 3. rewrite (U_meta d r _ E Hd).
    change (depth_sum dem zl (U (d_lchild r)) + depth_sum dem zr (U (d_rchild r)) <= depth_sum dem z (filter (own d) L) + depth_sum dem z (U (d_lchild r)) + depth_sum dem z (U (d_rchild r))).
    destruct (wchild_link n deps WF Hn d r _ E Hd (or_introl eq_refl)) as [Cl Ll].
    destruct (wchild_link n deps WF Hn d r _ E Hd (or_intror eq_refl)) as [Cr Lr].
    assert (PL : part (d_lchild r) d) by (eapply part_step; [apply part_refl|eauto]).
    assert (PR : part (d_rchild r) d) by (eapply part_step; [apply part_refl|eauto]).
    pose proof (level_mono n deps WF _ _ PL ltac:(lia) _ _ _ _ El E Zl Z) as M1.
    pose proof (level_mono n deps WF _ _ PR ltac:(lia) _ _ _ _ Er E Zr Z) as M2.
    pose proof (depth_mono zl z (U (d_lchild r)) M1). pose proof (depth_mono zr z (U (d_rchild r)) M2).
    assert (0 <= depth_sum dem z (filter (own d) L)); [|lia].
    apply depth_nonneg. intros c Hc. apply filter_In in Hc. destruct Hc as [I O].
    apply (proj2 (U_cells d r z E ltac:(lia) Z) c). apply filter_In. split; auto. apply under_iff.
    unfold own in O. rewrite andb_true_iff, negb_true_iff, Z.eqb_neq, Z.eqb_eq in O. destruct O as [O1 O2]. split; [lia|].
    rewrite O2. apply part_refl.
  Qed.

  Lemma totals_ok ds : with_values deps ds (fun k => cnt k L) (fun _ => Some 0) (fun k => tot k L) ->
    exists ds', CalculateTotalVolumes ds = Ok ds' /\ with_values deps ds' Csum vol Tsum.
  Proof.
    intros HV. assert (Hlen : length ds = length deps) by apply HV. unfold CalculateTotalVolumes.
    set (P := fun (done : list Z) (x : list dep) => with_values deps x
       (fun k => if k <? Z.of_nat (length done) then Csum k else cnt k L)
       (fun k => if k <? Z.of_nat (length done) then vol k else Some 0)
       (fun k => if k <? Z.of_nat (length done) then Tsum k else tot k L)).
    destruct (forM_inv P total_step (zrange 0 (length ds))) with (s := ds) as [ds' [E [HL' HP]]].
    - intros done i rest s Es [Sl Sv].
      assert (Hi : i = Z.of_nat (length done) /\ (length done < length ds)%nat).
      { assert (length done < length (zrange 0 (length ds)))%nat by (rewrite Es, app_length; cbn; lia). rewrite zrange_length in H.
        split; auto. assert (X : nth_error (zrange 0 (length ds)) (length done) = Some i) by (rewrite Es, nth_error_app2, Nat.sub_diag by lia; reflexivity).
        rewrite zrange_nth in X by auto. inversion X. lia. }
      destruct Hi as [Hi Hb]. destruct (proj2 (ix_some_iff deps i) ltac:(lia)) as [r E].
      assert (LT : forall k, (k <? Z.of_nat (length done)) = (k <? i)) by (intros; rewrite Hi; auto).
      pose proof (Sv i r E) as Ei. rewrite LT, Z.ltb_irrefl in Ei. unfold total_step. rewrite (at_in _ _ _ Ei). cbn [bind].
      assert (HW : forall c v t0, c = Csum i -> v = vol i -> t0 = Tsum i -> exists s', wr s i (setv r c v t0) = Ok s' /\ P (done ++ [i]) s').
      { intros c v t0 -> -> ->. destruct (wr_in s i (setv r (Csum i) (vol i) (Tsum i)) ltac:(lia)) as [s' [A [B C]]]. exists s'. split; auto.
        split; [congruence|]. intros k rk Ek. rewrite C, app_length. cbn [length].
        destruct (Z.eqb_spec k i) as [->|Nk].
        - assert (rk = r) by congruence. subst rk. destruct (Z.ltb_spec i (Z.of_nat (length done + 1))); [auto|lia].
        - rewrite (Sv k rk Ek). destruct (Z.ltb_spec k (Z.of_nat (length done))), (Z.ltb_spec k (Z.of_nat (length done + 1))); auto; lia. }
      cbn [setv d_lchild d_rchild d_count d_total d_out_elev].
      pose proof (wf_size _ _ WF) as WS.
      destruct (Z_lt_ge_dec i n) as [Hl|Hl].
      + destruct (wf_leaf _ _ WF i r E ltac:(lia)) as [Lc _]. rewrite Lc, Z.eqb_refl. cbn [negb bind fst snd].
        assert (EC : cnt i L = Csum i). { rewrite cnt_own. unfold Csum. rewrite <- !zsum_ones. symmetry. eapply U_leaf; eauto. }
        assert (ET : tot i L = Tsum i). { rewrite tot_own. unfold Tsum. symmetry. eapply U_leaf; eauto. }
        destruct (HW (cnt i L) (match d_out_elev r with Some z => Some (cnt i L * z - tot i L) | None => None end) (tot i L) EC) as [s' [A B]]; [unfold vol; rewrite E, EC, ET; reflexivity|auto|].
        exists s'. split; [unfold setv in A; rewrite Lc in A; exact A|exact B].
      + destruct (wchild_link n deps WF Hn i r _ E ltac:(lia) (or_introl eq_refl)) as [Cl Ll].
        destruct (wchild_link n deps WF Hn i r _ E ltac:(lia) (or_intror eq_refl)) as [Cr Lr].
        destruct (Z.eqb_spec (d_lchild r) NO_VALUE) as [X|_]; [unfold NO_VALUE in X; lia|].
        destruct (Z.eqb_spec (d_rchild r) NO_VALUE) as [X|_]; [unfold NO_VALUE in X; lia|].
        destruct (Z.ltb_spec (d_lchild r) i); [|lia]. destruct (Z.ltb_spec (d_rchild r) i); [|lia]. cbn [negb andb assert_ bind].
        destruct (way_up n deps WF Hn (d_lchild r) ltac:(lia)) as [rl [zl [El [Zl _]]]].
        destruct (way_up n deps WF Hn (d_rchild r) ltac:(lia)) as [rr [zr [Er [Zr _]]]].
        destruct (way_up n deps WF Hn i ltac:(lia)) as [r' [z [E' [Z _]]]]. assert (r' = r) by congruence. subst r'.
        pose proof (Sv _ _ El) as Sl1. rewrite LT in Sl1. destruct (Z.ltb_spec (d_lchild r) i); [|lia].
        pose proof (Sv _ _ Er) as Sr1. rewrite LT in Sr1. destruct (Z.ltb_spec (d_rchild r) i); [|lia].
        rewrite (at_in _ _ _ Sl1). cbn [bind]. rewrite (at_in _ _ _ Sr1). cbn [bind setv d_count d_total d_vol fst snd].
        assert (EC : cnt i L + Csum (d_lchild r) + Csum (d_rchild r) = Csum i).
        { rewrite cnt_own. unfold Csum. rewrite <- !zsum_ones. symmetry. eapply U_meta; eauto. lia. }
        assert (ET : tot i L + Tsum (d_lchild r) + Tsum (d_rchild r) = Tsum i).
        { rewrite tot_own. unfold Tsum. symmetry. eapply U_meta; eauto. lia. }
        rewrite EC, ET. pose proof (Csum_le i). rewrite w32_id by lia. rewrite Z.
        assert (EV : Some (Csum i * z - Tsum i) = vol i) by (unfold vol; rewrite E, Z; auto). rewrite EV.
        rewrite (vol_eq _ _ _ El Zl), (vol_eq _ _ _ Er Zr), (vol_eq _ _ _ E Z). cbn [vol_le].
        pose proof (depth_super i r z zl zr rl rr E ltac:(lia) Z El Zl Er Zr ltac:(lia)).
        destruct (Z.leb_spec (depth_sum dem zl (U (d_lchild r)) + depth_sum dem zr (U (d_rchild r))) (depth_sum dem z (U i))); [|lia].
        cbn [assert_ bind]. destruct (HW (Csum i) (Some (depth_sum dem z (U i))) (Tsum i) eq_refl) as [s' [A B]]; [symmetry; apply (vol_eq i r); auto|auto|].
        exists s'. split; [rewrite <- Z; exact A|exact B].
    - split; auto. intros k r E. rewrite (proj2 HV k r E). cbn [length]. pose proof (ixr _ _ _ E).
      destruct (Z.ltb_spec k (Z.of_nat 0)); [lia|reflexivity].
    - exists ds'. split; auto. split; auto. intros k r Ek. rewrite (HP k r Ek). rewrite zrange_length, Hlen. pose proof (ixr _ _ _ Ek).
      destruct (Z.ltb_spec k (Z.of_nat (length deps))); [reflexivity|lia].
  Qed.
End Totals.
