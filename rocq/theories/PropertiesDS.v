(** Properties C08-C10, C25, C32, C33, C36: data structures and tables. *)
From Coq Require Import ZArith List Lia.
From Verif Require Import Base UFModel UFSpec UFProofs LRUModel LRUSpec LRUProofs CmpModel CmpSpec CmpProofs MVModel MVProofs.
Open Scope Z_scope.

(** C08. Every history of makeSet/findSet/unionSet/sameSet/mergeAintoB calls on ids below 2^32-1 (merges applied
    to representatives; the caller catches exceptions): all calls return, sameSet answers the generated
    equivalence, findSet returns an allocated member of the set which represents itself, and an id that was never
    allocated raises an error and changes nothing. Any recursion depth [f] larger than the history suffices. *)
Theorem C08_union_find : forall N l f, 0 <= N < 2 ^ 32 -> Forall valid_op l -> Z.of_nat (length l) + 1 < 2 ^ 32 ->
  (length l < f)%nat -> merges_ok f l (uf_new N) ->
  exists s, run f l (uf_new N) = Some s /\
    let (n, ps) := spec_run l N [] in
    u_size s = n /\
    forall a b, 0 <= a -> 0 <= b ->
      (a < n -> b < n -> exists r s', sameSet f a b s = Ret r s' /\ (r = true <-> joined ps a b)) /\
      (a < n -> exists r s', findSet f a s = Ret r s' /\ joined ps a r /\ 0 <= r < n /\ findSet 1 r s = Ret r s) /\
      (n <= a -> findSet f a s = Throw s).
Proof. exact history_correct. Qed.
Print Assumptions C08_union_find.

Definition uf_hist : list op := [UnionSet 0 1; MakeSet 6; UnionSet 5 6; SameSet 0 6; Merge 2 8; UnionSet 1 5; UnionSet 3 99].
Lemma uf_hist_ok : Forall valid_op uf_hist /\ merges_ok 20 uf_hist (uf_new 4).
Proof. split; [repeat constructor; cbn; lia|]. cbn -[representative]. repeat split; auto; try discriminate; first [right; vm_compute; reflexivity|left; vm_compute; discriminate]. Qed.
Example C08_run : match run 20 uf_hist (uf_new 4) with
  | Some s => (match sameSet 20 0 6 s with Ret b _ => Some b | _ => None end, match sameSet 20 0 2 s with Ret b _ => Some b | _ => None end, u_size s)
  | None => (None, None, 0) end = (Some true, Some false, 9) /\ spec_run uf_hist 4 [] = (9, [(1, 5); (2, 8); (5, 6); (0, 1)]).
Proof. vm_compute. auto. Qed.

(** makeSet(2^32-1) computes the new size 0 and deletes every set. *)
Theorem C08_makeSet_max_id_refuted : forall s, 0 <= u_size s < 2 ^ 32 ->
  exists s', makeSet (2 ^ 32 - 1) s = Ret tt s' /\ u_size s' = 0.
Proof. exact makeSet_wraps. Qed.
Print Assumptions C08_makeSet_max_id_refuted.

(** C36. With unions only, findSet recurses at most 1 + log2(number of sets) deep, whatever the history
    (stack use of every call inside the history is below 34 frames). *)
Theorem C36_log_depth : forall N l f a, 0 <= N < 2 ^ 32 -> Forall valid_op l -> Forall no_merge l -> (34 <= f)%nat ->
  exists s, run f l (uf_new N) = Some s /\ u_size s = fst (spec_run l N []) /\
    (0 <= a < u_size s -> exists r s', findSet (S (Z.to_nat (Z.log2 (u_size s)))) a s = Ret r s').
Proof. exact log_depth. Qed.
Print Assumptions C36_log_depth.
(** The bound is attained: four unions of 4 singletons give a chain of two edges. *)
Example C36_tight : match run 40 [UnionSet 0 1; UnionSet 2 3; UnionSet 1 3] (uf_new 4) with
  | Some s => (match findSet 2 3 s with Deep => true | _ => false end, match findSet 3 3 s with Ret r _ => Some r | _ => None end)
  | None => (false, None) end = (true, Some 0).
Proof. vm_compute. reflexivity. Qed.

(** C09. *)
Theorem C09_merge : forall N l f s a b, 0 <= N < 2 ^ 32 -> Forall valid_op l -> Z.of_nat (length l) + 2 < 2 ^ 32 ->
  (length l + 1 < f)%nat -> merges_ok f l (uf_new N) -> run f l (uf_new N) = Some s ->
  valid_id a -> valid_id b -> a <> b -> representative s a -> representative s b ->
  exists s', mergeAintoB a b s = Ret tt s' /\
    (exists s2, findSet f a s' = Ret b s2) /\ findSet f b s' = Ret b s' /\
    forall x y, 0 <= x < u_size s' -> 0 <= y < u_size s' ->
      exists r s2, sameSet f x y s' = Ret r s2 /\ (r = true <-> joined ((a, b) :: snd (spec_run l N [])) x y).
Proof. exact merge_correct. Qed.
Print Assumptions C09_merge.
Example C09_inhabited : exists s, run 20 uf_hist (uf_new 4) = Some s /\ representative s 8 /\ representative s 0.
Proof. eexists. split; [vm_compute; reflexivity|]. split; right; vm_compute; reflexivity. Qed.

(** Without the precondition: after mergeAintoB(0,1); mergeAintoB(1,0) findSet recurses for ever. *)
Theorem C09_merge_cycle_refuted : exists s, run 1 [Merge 0 1; Merge 1 0] (uf_new 2) = Some s /\
  forall f, findSet f 0 s = Deep /\ findSet f 1 s = Deep.
Proof. exists bad. split; [reflexivity|exact bad_loops]. Qed.
Print Assumptions C09_merge_cycle_refuted.

(** C10. Along every history without undefined behaviour (and capacities >= -1). *)
Theorem C10_lru_invariants : forall junk l s, Forall cap_ok l -> lrun l (lru_new junk) = Some s ->
  NoDup (l_cache s) /\ lru_size s = Z.of_nat (length (l_cache s)) /\
  (forall e, In e (l_visited s) <-> In e (l_cache s)) /\
  (exists s', lru_prune s = Some s' /\
    l_cache s' = (if lru_getCapacity s =? -1 then l_cache s else firstn (Z.to_nat (lru_getCapacity s)) (l_cache s)) /\
    (lru_getCapacity s <> -1 -> lru_size s' <= lru_getCapacity s)).
Proof. exact lru_invariants. Qed.
Print Assumptions C10_lru_invariants.

(** The cache is a textbook LRU list on every history that never re-inserts the last inserted item after its eviction. *)
Theorem C10_lru_textbook : forall junk l, sane l junk (mkR [] (-1)) ->
  exists s, lrun l (lru_new junk) = Some s /\
    l_cache s = r_list (ref_run l (mkR [] (-1))) /\ lru_size s = Z.of_nat (length (r_list (ref_run l (mkR [] (-1))))) /\
    (l_cache s <> [] -> lru_back s = Some (last (r_list (ref_run l (mkR [] (-1)))) 0)).
Proof. exact lru_textbook. Qed.
Print Assumptions C10_lru_textbook.

(** Insertions only: the cache lists the distinct items, most recently inserted first. *)
Theorem C10_lru_recency : forall junk l, hd_error l <> Some junk ->
  exists s, lrun (map LInsert l) (lru_new junk) = Some s /\ l_cache s = firsts (rev l).
Proof. exact lru_inserts. Qed.
Print Assumptions C10_lru_recency.
Example C10_run : option_map l_cache (lrun [LInsert 1; LInsert 2; LInsert 3; LInsert 1; LSetCap 2; LPrune; LInsert 3] (lru_new 0)) = Some [3; 1].
Proof. reflexivity. Qed.
Example C10_sane : sane [LInsert 1; LInsert 2; LInsert 3; LInsert 1; LSetCap 2; LPrune; LInsert 3] 0 (mkR [] (-1)).
Proof. cbn. repeat split; try lia; discriminate. Qed.

(** The last inserted item, once evicted, cannot be re-inserted; and the very first insertion is lost if it equals
    the uninitialised member [last]. *)
Theorem C10_evicted_last_refuted : forall junk e, e <> junk ->
  option_map l_cache (lrun [LInsert e; LPopBack; LInsert e] (lru_new junk)) = Some [] /\
  option_map l_cache (lrun [LInsert junk] (lru_new junk)) = Some [].
Proof.
  intros junk e H. cbn. unfold lru_insert; cbn. apply Z.eqb_neq in H. rewrite H. cbn. rewrite !Z.eqb_refl. auto.
Qed.
Print Assumptions C10_evicted_last_refuted.

(** C25. The six comparison operators compare with NaN below every number. *)
Theorem C25_cell_operators : forall a b,
  (cell_lt a b = true <-> ecompare a b = Lt) /\ (cell_gt a b = true <-> ecompare a b = Gt) /\
  (cell_eq a b = true <-> ecompare a b = Eq) /\ (cell_ne a b = true <-> ecompare a b <> Eq) /\
  (cell_le a b = true <-> ecompare a b <> Gt) /\ (cell_ge a b = true <-> ecompare a b <> Lt).
Proof. exact cell_ops. Qed.
Print Assumptions C25_cell_operators.

(** Stable queues: whatever the heap does, every history with fewer than 2^31 insertions pops the
    earliest (low) resp. latest (high) inserted cell of minimal elevation. *)
Theorem C25_low_queue : forall tb l, pushes l < 2 ^ 31 -> qrun low_gt tb l 0 kq_empty = srun (take_first snd) l [].
Proof. exact low_queue_stable. Qed.
Print Assumptions C25_low_queue.
Theorem C25_high_queue : forall tb l, pushes l < 2 ^ 31 -> qrun high_gt tb l 0 kq_empty = srun (take_last snd) l [].
Proof. exact high_queue_stable. Qed.
Print Assumptions C25_high_queue.
Example C25_run : qrun low_gt (fun n => n) [QPush 0 0 (Some 5); QPush 1 0 None; QPush 2 0 (Some 5); QPush 3 0 None; QPop; QPop; QPop; QPop; QPop] 0 kq_empty
  = [Some (1, 0, None); Some (3, 0, None); Some (0, 0, Some 5); Some (2, 0, Some 5); None] /\
  qrun high_gt (fun n => n) [QPush 0 0 (Some 5); QPush 1 0 None; QPush 2 0 (Some 5); QPush 3 0 None; QPop; QPop; QPop; QPop; QPop] 0 kq_empty
  = [Some (3, 0, None); Some (1, 0, None); Some (2, 0, Some 5); Some (0, 0, Some 5); None].
Proof. vm_compute. auto. Qed.

(** The 64-bit counter is truncated to int: from insertion number 2^31 on, ties pop in the wrong order. *)
Theorem C25_counter_overflow_refuted : forall x y z bag,
  let q := kq_emplace x y z (kq_emplace x y z (mkQ bag (2 ^ 31 - 2))) in
  match q_bag q with second :: first :: _ => low_gt first second = true /\ low_gt second first = false | _ => False end.
Proof. exact counter_overflow. Qed.
Print Assumptions C25_counter_overflow_refuted.

(** C32. Wrapping then assigning frees the caller's memory. *)
Theorem C32_assignment_frees_wrapped_refuted : forall m k n,
  option_map freed (mrun [VWrap 0 k n; VNew 1; VMoveAssign 0 1] (st0 m)) = Some [Ext k] /\
  option_map freed (mrun [VWrap 0 k n; VNew 1; VCopyAssign 0 1] (st0 m)) = Some [Ext k].
Proof. split; reflexivity. Qed.
Print Assumptions C32_assignment_frees_wrapped_refuted.

(** Exactly when: one step frees caller memory iff it assigns to an object holding it, or destroys/resizes an
    object that holds it while believing to own it (which only a self-move can cause). *)
Theorem C32_frees_external_iff : forall s o s' k, mstep o s = Some s' -> ~ In (Ext k) (freed s) ->
  (In (Ext k) (freed s') <->
    exists i oi, objs s i = Some oi /\ v_data oi = Some (Ext k) /\
      ((exists j, o = VCopyAssign i j) \/ (exists j, o = VMoveAssign i j /\ i <> j) \/
       (v_owned oi = true /\ (o = VDestroy i \/ exists n junk, o = VResize i n junk /\ v_size oi <> n)))).
Proof. exact frees_external. Qed.
Print Assumptions C32_frees_external_iff.

(** Programs that never assign to a wrapping vector (nor a vector to itself by move) are memory safe. *)
Theorem C32_careful_programs_safe : forall m l s, careful_run l (st0 m) -> mrun l (st0 m) = Some s ->
  (forall k, ~ In (Ext k) (freed s)) /\ NoDup (freed s) /\
  (forall i o b, objs s i = Some o -> v_data o = Some b -> ~ In b (freed s)) /\
  ((forall i, objs s i = None) -> forall n, (n < next s)%nat -> In (Own n) (freed s)).
Proof. exact careful_correct. Qed.
Print Assumptions C32_careful_programs_safe.
Definition mv_prog : list mop := [VWrap 0 7 3; VSized 1 4 9; VCopyCtor 2 0; VMoveAssign 1 2; VResize 1 5 []; VDestroy 0; VDestroy 1; VDestroy 2].
Example C32_inhabited : careful_run mv_prog (st0 (fun _ => [1; 2; 3])) /\
  option_map (fun s => (freed s, next s)) (mrun mv_prog (st0 (fun _ => [1; 2; 3]))) = Some ([Own 2; Own 1; Own 0], 3%nat).
Proof. split; [cbn; repeat split; auto; try discriminate; intros ? E; injection E as <-; reflexivity|reflexivity]. Qed.

(** Copying is deep: the copy has the same elements and writing to it disturbs no other vector. *)
Theorem C32_copy_deep : forall m l s i j s', careful_run l (st0 m) -> mrun l (st0 m) = Some s -> mstep (VCopyCtor i j) s = Some s' ->
  exists oi oj, objs s' i = Some oi /\ objs s j = Some oj /\ contents s' oi = contents s oj /\ v_owned oi = true /\ v_size oi = v_size oj /\
    (forall k v s2, mstep (VWrite i k v) s' = Some s2 ->
       forall a oa, a <> i -> objs s2 a = Some oa -> objs s a = Some oa /\ contents s2 oa = contents s oa).
Proof. exact (fun m l s i j s' HC E => copy_deep s i j s' (mrun_inv l _ _ (VInv_0 m) HC E)). Qed.
Print Assumptions C32_copy_deep.

(** C33. Tables, for every direction of both topologies. *)
Theorem C33_tables : forall t n, In n (dirs t) ->
  In (dinverse t n) (dirs t) /\ dinverse t (dinverse t n) = n /\
  dx t (dinverse t n) = - dx t n /\ dy t (dinverse t n) = - dy t n /\ (dx t n, dy t n) <> (0, 0) /\
  (t = D8 -> nth n n8_diag false = true <-> dx D8 n <> 0 /\ dy D8 n <> 0).
Proof.
  intros t n H. destruct t; cbn in H; repeat (destruct H as [<-|H]); try contradiction; cbn;
    repeat split; auto 10; try congruence; try discriminate; intros; intuition congruence.
Qed.
Print Assumptions C33_tables.
Theorem C33_offsets_once : forall a b,
  (Z.abs a <= 1 -> Z.abs b <= 1 -> (a, b) <> (0, 0) -> exists! n, In n (dirs D8) /\ dx D8 n = a /\ dy D8 n = b) /\
  (Z.abs a + Z.abs b = 1 -> exists! n, In n (dirs D4) /\ dx D4 n = a /\ dy D4 n = b).
Proof.
  intros a b. split.
  - intros Ha Hb Hn. assert (Ca : a = -1 \/ a = 0 \/ a = 1) by lia. assert (Cb : b = -1 \/ b = 0 \/ b = 1) by lia.
    destruct Ca as [->|[-> | ->]], Cb as [->|[-> | ->]]; try congruence;
      [exists 2%nat|exists 1%nat|exists 8%nat|exists 3%nat|exists 7%nat|exists 4%nat|exists 5%nat|exists 6%nat];
      (split; [cbn; intuition|]); intros n (Hin & Hx & Hy); cbn in Hin; repeat (destruct Hin as [<-|Hin]); cbn in *; try discriminate; auto; contradiction.
  - intros Hs. assert (C : (a = -1 /\ b = 0) \/ (a = 0 /\ b = -1) \/ (a = 1 /\ b = 0) \/ (a = 0 /\ b = 1)) by lia.
    destruct C as [[-> ->]|[[-> ->]|[[-> ->]|[-> ->]]]];
      [exists 1%nat|exists 2%nat|exists 3%nat|exists 4%nat];
      (split; [cbn; intuition|]); intros n (Hin & Hx & Hy); cbn in Hin; repeat (destruct Hin as [<-|Hin]); cbn in *; try discriminate; auto; contradiction.
Qed.
Print Assumptions C33_offsets_once.
(** ArcGIS codes: the eight powers of two, numbered clockwise from east, as in the header's picture
    (RichDEM directions are numbered clockwise from west). *)
Theorem C33_arcgis : forall n, In n (dirs D8) -> nth n d8_arcgis 0 = 2 ^ ((Z.of_nat n - 5) mod 8).
Proof. intros n H. cbn in H; repeat (destruct H as [<-|H]); try contradiction; reflexivity. Qed.
Print Assumptions C33_arcgis.
