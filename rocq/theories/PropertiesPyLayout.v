(** C93: rd_layout_find_square.py and rd_layout_check.py. *)
From Coq Require Import Ascii String ZArith List Lia Bool.
From Verif Require Import Base Res LayoutModel LayoutSpec LayoutProofs LayoutProofs2 PropertiesLayout PyLayoutModel PyLayoutProofs.
Open Scope Z_scope.
Open Scope list_scope.

(** there is a tile at row y, column x: the field has a character that is not white space *)
Definition tile (rows : list (list text)) (y x : Z) : Prop := exists a, In a (nth (Z.to_nat x) (nth (Z.to_nat y) rows []) []) /\ is_ws a = false.
(** the k x k block with upper left corner row y, column x, is in the h x w layout and has a tile everywhere *)
Definition square (rows : list (list text)) (h w y x k : Z) : Prop :=
  forall j i, y <= j < y + k -> x <= i < x + k -> 0 <= j < h /\ 0 <= i < w /\ tile rows j i.
(** a file with that contents, all rows with the same number of fields ("\r\n" and "\r" count as ends of lines) *)
Definition rectangular (fs : text -> option text) (layout : text) (rows : list (list text)) (h w : Z) : Prop :=
  exists s, fs layout = Some s /\ layout_text rows (univ false s) /\ rows <> [] /\ h = Z.of_nat (List.length rows) /\ Forall (fun r => Z.of_nat (List.length r) = w) rows.
(** what the script takes for the largest square: no corner in the last row or column is considered *)
Definition found (rows : list (list text)) (h w v : Z) (l : option (Z * Z)) : Prop :=
  match l with
  | None => v = -1 /\ forall y x, 0 <= y < h - 1 -> 0 <= x < w - 1 -> ~ tile rows y x
  | Some (y0, x0) => 1 <= v /\ 0 <= y0 < h - 1 /\ 0 <= x0 < w - 1 /\ square rows h w y0 x0 v /\
      (forall y x k, 0 <= y < h - 1 -> 0 <= x < w - 1 -> square rows h w y x k -> k <= v) /\
      (forall y x, 0 <= y < h - 1 -> 0 <= x < w - 1 -> square rows h w y x v -> y < y0 \/ (y = y0 /\ x <= x0))
  end.

Lemma nth_first {T} (l : list T) n i d : (i < n)%nat -> nth i (firstn n l) d = nth i l d.
Proof. revert n i. induction l as [|a l IH]; intros [|n] [|i] H; cbn; try lia; try reflexivity. apply IH. lia. Qed.
Lemma nth_skip {T} (l : list T) a i d : nth i (skipn a l) d = nth (a + i) l d.
Proof. revert l. induction a as [|a IH]; intros [|b l]; cbn; try reflexivity; [destruct i; reflexivity|apply IH]. Qed.
Section One.
  Variables (fs : text -> option text) (layout s : text) (rows : list (list text)) (h w : Z).
  Hypotheses (Hs : fs layout = Some s) (Hl : layout_text rows (univ false s)) (Hn : rows <> []) (Hh : h = Z.of_nat (List.length rows)) (Hw : Forall (fun r => Z.of_nat (List.length r) = w) rows).
  Let g := py_rows s.
  Lemma g_len : List.length g = List.length rows.
  Proof. pose proof (f_equal (@List.length nat) (py_rows_lengths rows s Hl)) as E. rewrite !map_length in E. exact E. Qed.
  Lemma g_rows : Forall (fun r => Z.of_nat (List.length r) = w) g.
  Proof.
    pose proof (py_rows_ok rows s Hl) as F. fold g in F. clear -F Hw. induction F as [|r r' l l' Hr _ IH]; [constructor|]. apply Forall_cons_iff in Hw. destruct Hw as [E Hw'].
    constructor; [rewrite <- (F2_length _ _ _ Hr); exact E|auto].
  Qed.
  Lemma w_pos : 1 <= w.
  Proof. destruct Hl as [F _]. destruct rows as [|r rs]; [contradiction|]. apply Forall_inv in F. apply Forall_inv in Hw. destruct r; [destruct F; contradiction|]. cbn [List.length] in Hw. lia. Qed.
  Lemma h_pos : 1 <= h. Proof. destruct rows; [contradiction|]. cbn [List.length] in Hh. lia. Qed.
  Definition ones : grid Z := fun x y => if blank (nth (Z.to_nat x) (nth (Z.to_nat y) g []) []) then 0 else 1.
  Lemma np_ok : np_array g = Ok (h, w, ones).
  Proof.
    unfold np_array. pose proof g_len as GL. pose proof g_rows as GR. unfold ones. destruct g as [|r0 g']; [destruct rows; [contradiction|discriminate]|].
    assert (B : forallb (fun r => Nat.eqb (List.length r) (List.length r0)) (r0 :: g') = true).
    { apply forallb_forall. intros r Hr. rewrite Forall_forall in GR. apply Nat.eqb_eq. pose proof (GR r Hr). pose proof (GR r0 ltac:(left; reflexivity)). lia. }
    rewrite B. apply Forall_inv in GR. rewrite GL, Hh, GR. reflexivity.
  Qed.
  Lemma ones_tile j i : ones i j = 1 /\ tile rows j i \/ ones i j = 0 /\ ~ tile rows j i.
  Proof.
    unfold ones, blank, g. rewrite (py_rows_nth rows s) by exact Hl. unfold tile. rewrite <- strip_nonempty.
    destruct (strip _); [right; split; [reflexivity|intros X; apply X; reflexivity]|left; split; [reflexivity|discriminate]].
  Qed.
  Lemma search_ok : exists v l, LargestSquareOfOnes h w ones = Ok (v, l) /\ found rows h w v l.
  Proof.
    destruct (squares_ok h w (tile rows) ones) as (v & l & E & B); [intros j i _; apply ones_tile|exact h_pos|exact w_pos|].
    exists v, l. split; [exact E|]. unfold best_of in B. unfold found. destruct l as [[y0 x0]|].
    - destruct B as (B1 & [B2 B3] & _ & B4 & B5 & B6). split; [exact B1|]. split; [exact B2|]. split; [exact B3|]. split; [exact B4|]. split.
      + intros y x k Hy Hx Q. apply (B5 y x); [split; assumption|exact I|exact Q].
      + intros y x Hy Hx Q. destruct (Z_lt_ge_dec y y0); [auto|]. destruct (Z.eq_dec y y0) as [->|Ny].
        * right. split; [reflexivity|]. destruct (Z_le_gt_dec x x0); [assumption|]. specialize (B6 y0 x v ltac:(split; assumption) I ltac:(right; split; [reflexivity|lia]) Q). lia.
        * specialize (B6 y x v ltac:(split; assumption) I ltac:(left; lia) Q). lia.
    - destruct B as [B1 B2]. split; [exact B1|]. intros y x Hy Hx T. apply (B2 y x); [split; assumption|exact I|].
      intros j i Hj Hi. assert (j = y) by lia. assert (i = x) by lia. subst. split; [lia|]. split; [lia|exact T].
  Qed.

  (** the rows of one output file *)
  Definition block (y x k : Z) : list (list text) := map (fun r => slice r x k) (slice g y k).
  Lemma slice_length {T} (l : list T) a n : 0 <= a -> 0 <= n -> a + n <= Z.of_nat (List.length l) -> List.length (slice l a n) = Z.to_nat n.
  Proof. intros A B C. unfold slice. rewrite firstn_length, skipn_length. lia. Qed.
  Lemma slice_nth {T} (l : list T) a n i d : 0 <= a -> 0 <= i < n -> nth (Z.to_nat i) (slice l a n) d = nth (Z.to_nat (a + i)) l d.
  Proof.
    intros A B. unfold slice. rewrite nth_first by lia. rewrite nth_skip. f_equal. lia.
  Qed.
  Lemma slice_in {T} (l : list T) a n v : In v (slice l a n) -> In v l.
  Proof. unfold slice. intros H. rewrite <- (firstn_skipn (Z.to_nat a) l). apply in_or_app. right. rewrite <- (firstn_skipn (Z.to_nat n) (skipn (Z.to_nat a) l)). apply in_or_app. left. exact H. Qed.
  Lemma body_ok x k : forall n y acc, 0 <= y -> y + Z.of_nat n <= h ->
    forM (map (fun j => y + Z.of_nat j) (seq 0 n)) (fun y acc => do row <- rd g y; Ok (acc ++ pjoin comma (slice row x k) ++ [nl])) acc
    = Ok (acc ++ concat (map (fun l => l ++ [nl]) (map (join comma) (map (fun r => slice r x k) (slice g y (Z.of_nat n)))))).
  Proof.
    induction n as [|n IH]; intros y acc Hy Hb; [cbn; rewrite app_nil_r; reflexivity|]. cbn [seq map forM]. rewrite Z.add_0_r.
    destruct (rd_in g y) as (r & E1 & E2); [rewrite g_len; lia|]. rewrite E1. cbn [bind].
    assert (S0 : slice g y (Z.of_nat (S n)) = r :: slice g (y + 1) (Z.of_nat n)).
    { unfold slice. rewrite !Nat2Z.id. replace (Z.to_nat (y + 1)) with (S (Z.to_nat y)) by lia. unfold ix in E2. destruct (Z.ltb_spec y 0); [lia|].
      clear -E2. revert E2. generalize (Z.to_nat y) as m. induction g as [|a l IHl]; intros [|m] E; cbn in E |- *; try discriminate; [injection E as ->; reflexivity|]. specialize (IHl m E). exact IHl. }
    rewrite S0. cbn [map concat]. rewrite <- seq_shift, map_map.
    rewrite (map_ext _ (fun j => (y + 1) + Z.of_nat j)) by (intros; lia). rewrite IH by lia. rewrite pjoin_join, <- !app_assoc. reflexivity.
  Qed.
  Lemma block_layout y x k : 0 <= y -> 0 <= x -> 1 <= k -> y + k <= h -> x + k <= w ->
    let b := block y x k in
    layout_text b (concat (map (fun l => l ++ [nl]) (map (join comma) b))) /\ List.length b = Z.to_nat k /\ Forall (fun r => List.length r = Z.to_nat k) b /\
    forall j i, 0 <= j < k -> 0 <= i < k -> strip (nth (Z.to_nat i) (nth (Z.to_nat j) b []) []) = strip (nth (Z.to_nat (x + i)) (nth (Z.to_nat (y + j)) rows []) []).
  Proof.
    intros Hy Hx Hk Hyk Hxk b. pose proof g_rows as GR. pose proof g_len as GL. rewrite Forall_forall in GR.
    assert (LB : Forall (fun r => List.length r = Z.to_nat k) b).
    { apply Forall_forall. intros r Hr. apply in_map_iff in Hr. destruct Hr as (r' & <- & Hr). apply slice_in in Hr. apply GR in Hr. apply slice_length; lia. }
    destruct (layout_fields _ _ Hl) as [F1 F2]. pose proof (py_rows_ok rows s Hl) as F0.
    pose proof (rows_free _ _ _ F0 F1) as C1. pose proof (rows_free _ _ _ F0 F2) as C2. fold g in C1, C2.
    assert (FB : forall c, Forall (Forall (free c)) g -> Forall (Forall (free c)) b).
    { intros c C. apply Forall_forall. intros r Hr. apply in_map_iff in Hr. destruct Hr as (r' & <- & Hr). apply slice_in in Hr. rewrite Forall_forall in C. specialize (C r' Hr).
      apply Forall_forall. intros f Hf. apply slice_in in Hf. rewrite Forall_forall in C. apply C. exact Hf. }
    split; [|split; [|split]].
    - split.
      + apply Forall_forall. intros r Hr. split; [|specialize (FB comma C1); rewrite Forall_forall in FB; apply FB; exact Hr]. rewrite Forall_forall in LB. specialize (LB r Hr). intros ->. cbn in LB. lia.
      + split; [|left; reflexivity]. apply Forall_forall. intros l Hlb. apply in_map_iff in Hlb. destruct Hlb as (r & <- & Hr). apply join_free; [discriminate|]. specialize (FB nl C2). rewrite Forall_forall in FB. apply FB. exact Hr.
    - unfold b, block. rewrite map_length. apply slice_length; lia.
    - exact LB.
    - intros j i Hj Hi. unfold b, block. rewrite (nth_indep _ [] (slice [] x k)) by (rewrite map_length, slice_length by lia; lia). rewrite (map_nth (fun r => slice r x k)).
      rewrite !slice_nth by lia. apply py_rows_nth. exact Hl.
  Qed.
  Lemma files_ok arg y x v : 0 <= y -> 0 <= x -> 1 <= v -> y + v <= h -> x + v <= w ->
    forall n a out, 0 <= a -> a + Z.of_nat n <= v ->
    forM (map (fun k => Z.of_nat k) (seq (S (Z.to_nat a)) n))
          (fun size out => do body <- forM (map (fun k => y + Z.of_nat k) (seq 0 (Z.to_nat size))) (fun y acc => do row <- rd g y; Ok (acc ++ pjoin comma (slice row x size) ++ [nl])) [];
                 Ok (out ++ [(arg ++ to_string size ++ tx ".layout", body)])) out
    = Ok (out ++ map (fun size => (arg ++ to_string size ++ tx ".layout", concat (map (fun l => l ++ [nl]) (map (join comma) (block y x size))))) (map (fun k => Z.of_nat k) (seq (S (Z.to_nat a)) n))).
  Proof.
    intros Hy Hx Hv Hyv Hxv. induction n as [|n IH]; intros a out Ha Hb; [cbn; rewrite app_nil_r; reflexivity|]. cbn [seq map forM].
    rewrite Nat2Z.id, body_ok by lia. cbn [bind app]. replace (S (S (Z.to_nat a))) with (S (Z.to_nat (a + 1))) by lia. rewrite IH by lia.
    rewrite <- app_assoc. unfold block. cbn [app]. reflexivity.
  Qed.
End One.

(** C93. With "onlydim" the script prints the size of the largest full square whose corner is not in the last row or column, or -1. *)
Theorem C93_size : forall fs layout rows h w, rectangular fs layout rows h w ->
  exists v l, find_square fs (tx "onlydim") layout = Ok (Printed v) /\ found rows h w v l.
Proof.
  intros fs layout rows h w (s & Hs & Hl & Hn & Hh & Hw). destruct (search_ok s rows h w Hl Hn Hh Hw) as (v & l & E & F).
  exists v, l. split; [|exact F]. unfold find_square. rewrite Hs. cbv zeta. rewrite (np_ok s rows h w Hl Hn Hh Hw). cbn [bind]. rewrite E. cbn [bind]. rewrite text_eqb_refl. reflexivity.
Qed.
Print Assumptions C93_size.

(** C93. With another first argument it writes, for every size up to that number, the file <argument><size>.layout and no other file; each is a layout of size x size tiles, those at the place found,
    and the reader of layouts delivers all of them as tiles. *)
Theorem C93_files : forall fs arg layout rows h w, rectangular fs layout rows h w -> arg <> tx "onlydim" ->
  exists v l files, found rows h w v l /\ find_square fs arg layout = Ok (Written files) /\ List.length files = Z.to_nat v /\
    forall y0 x0 k, l = Some (y0, x0) -> 1 <= k <= v -> exists body b,
      nth_error files (Z.to_nat (k - 1)) = Some (arg ++ to_string k ++ tx ".layout", body) /\ layout_text b body /\ List.length b = Z.to_nat k /\ Forall (fun r => List.length r = Z.to_nat k) b /\
      (forall j i, 0 <= j < k -> 0 <= i < k -> strip (nth (Z.to_nat i) (nth (Z.to_nat j) b []) []) = strip (nth (Z.to_nat (x0 + i)) (nth (Z.to_nat (y0 + j)) rows []) [])) /\
      forall fs' name fuel, fs' name = Some body -> (Z.to_nat k * Z.to_nat k < fuel)%nat -> exists r es, open_layout fs' name = Ok r /\ read_all fuel r = Some (Ok es) /\
        es = entries (dir_part name) (fun y x => field (nth y b []) x) (Z.to_nat k) (Z.to_nat k) /\ forall e, In e es -> e_null e = false.
Proof.
  intros fs arg layout rows h w (s & Hs & Hl & Hn & Hh & Hw) Na. destruct (search_ok s rows h w Hl Hn Hh Hw) as (v & l & E & F).
  pose proof (h_pos s rows h w Hl Hn Hh Hw) as HP. pose proof (w_pos s rows h w Hl Hn Hh Hw) as WP.
  assert (R : exists files, find_square fs arg layout = Ok (Written files) /\ files = match l with None => [] | Some (y, x) =>
     map (fun size => (arg ++ to_string size ++ tx ".layout", concat (map (fun l => l ++ [nl]) (map (join comma) (block s y x size))))) (map (fun k => Z.of_nat k) (seq 1 (Z.to_nat v))) end).
  { unfold find_square. rewrite Hs. cbv zeta. rewrite (np_ok s rows h w Hl Hn Hh Hw). cbn [bind]. rewrite E. cbn [bind]. rewrite text_eqb_false by exact Na. destruct l as [[y x]|].
    - destruct F as (F1 & F2 & F3 & F4 & _).
      destruct (F4 (y + v - 1) (x + v - 1) ltac:(lia) ltac:(lia)) as (Q1 & Q2 & _).
      rewrite (files_ok s rows h w Hl Hh arg y x v) with (a := 0) (n := Z.to_nat v) by lia. cbn [bind app]. eexists. split; reflexivity.
    - destruct F as [-> _]. cbn. eexists. split; reflexivity. }
  destruct R as (files & R1 & R2). exists v, l, files. split; [exact F|]. split; [exact R1|]. split.
  { rewrite R2. destruct l as [[y x]|]; [rewrite !map_length, seq_length; reflexivity|]. destruct F as [-> _]. reflexivity. }
  intros y0 x0 k -> Hk. destruct F as (F1 & F2 & F3 & F4 & _). destruct (F4 (y0 + v - 1) (x0 + v - 1) ltac:(lia) ltac:(lia)) as (Q1 & Q2 & _).
  destruct (block_layout s rows h w Hl Hh Hw y0 x0 k) as (B1 & B2 & B3 & B4); [lia..|].
  exists (concat (map (fun l => l ++ [nl]) (map (join comma) (block s y0 x0 k)))), (block s y0 x0 k).
  split.
  { rewrite R2. rewrite map_map. rewrite nth_error_map. rewrite (nth_error_nth' _ 0%nat) by (rewrite seq_length; lia). rewrite seq_nth by lia. cbn [option_map].
    replace (Z.of_nat (1 + Z.to_nat (k - 1))) with k by lia. reflexivity. }
  split; [exact B1|]. split; [exact B2|]. split; [exact B3|]. split; [exact B4|].
  (* every field of the block has a character other than white space *)
  assert (NB : forall j i, (j < Z.to_nat k)%nat -> (i < Z.to_nat k)%nat -> field (nth j (block s y0 x0 k) []) i <> []).
  { intros j i Hj Hi. destruct (F4 (y0 + Z.of_nat j) (x0 + Z.of_nat i) ltac:(lia) ltac:(lia)) as (_ & _ & T). unfold tile in T. apply strip_nonempty in T.
    rewrite <- (B4 (Z.of_nat j) (Z.of_nat i)) in T by lia. rewrite !Nat2Z.id in T. apply strip_nonempty in T. destruct T as (a & Ia & Wa). unfold field, trim.
    set (f := nth i (nth j (block s y0 x0 k) []) []) in *. assert (SP : a <> space) by (intros ->; discriminate).
    assert (LT : forall t, In a t -> In a (ltrim t)). { clear -SP. induction t as [|b t IH]; cbn [ltrim]; [auto|]. destruct (Ascii.eqb b space) eqn:Eb; [|auto]. apply Ascii.eqb_eq in Eb. intros [X|X]; [congruence|auto]. }
    intros X. assert (In a (rev (ltrim (rev (ltrim f))))). { rewrite <- in_rev. apply LT. rewrite <- in_rev. apply LT. exact Ia. } rewrite X in H. destruct H. }
  intros fs' name fuel Hb Hf.
  assert (NE : block s y0 x0 k <> []) by (intros X; rewrite X in B2; cbn in B2; lia).
  assert (CT : columns (block s y0 x0 k) = Z.to_nat k).
  { apply columns_full; [exact B3|]. apply Exists_exists. destruct (block s y0 x0 k) as [|r rs] eqn:Eb; [contradiction|]. exists r. split; [left; reflexivity|].
    pose proof (Forall_inv B3) as Lr. cbv beta in Lr. specialize (NB 0%nat (Z.to_nat k - 1)%nat ltac:(lia) ltac:(lia)). cbn [nth] in NB. unfold field in NB. intros X.
    apply NB. assert (Y : nth (Z.to_nat k - 1) r [] = last r []).
    { rewrite <- Lr. clear. induction r as [|a [|b r] IH]; [reflexivity|reflexivity|]. change (last (a :: b :: r) []) with (last (b :: r) []). rewrite <- IH. cbn [List.length]. replace (S (S (List.length r)) - 1)%nat with (S (S (List.length r) - 1)) by lia. reflexivity. }
    rewrite Y. exact (f_equal trim X). }
  destruct (C72_reads_the_grid fs' name _ (block s y0 x0 k) fuel Hb B1 NE) as (r & O1 & O2).
  - lia.
  - intros r Hr. apply (columns_near _ (Z.to_nat k)); assumption.
  - rewrite CT, B2. exact Hf.
  - rewrite CT, B2 in O2. exists r. eexists. split; [exact O1|]. split; [exact O2|]. split; [reflexivity|]. intros e He. unfold entries in He. apply in_flat_map in He. destruct He as (y & Hy & He).
    apply in_map_iff in He. destruct He as (x & <- & Hx). apply in_seq in Hy, Hx. unfold entry_at. cbn [e_null]. specialize (NB y x ltac:(lia) ltac:(lia)). destruct (field _ _); [contradiction|reflexivity].
Qed.
Print Assumptions C93_files.

(** C93. If the layout has a full 2 x 2 square anywhere, the number is the size of the largest full square of the whole layout. *)
Theorem C93_largest : forall fs layout rows h w, rectangular fs layout rows h w -> (exists y x, square rows h w y x 2) ->
  exists v, find_square fs (tx "onlydim") layout = Ok (Printed v) /\ (exists y x, square rows h w y x v) /\ forall y x k, square rows h w y x k -> k <= v.
Proof.
  intros fs layout rows h w R (y1 & x1 & Q2). destruct (C93_size fs layout rows h w R) as (v & l & E & F). exists v. split; [exact E|].
  assert (I : forall y x k, 2 <= k -> square rows h w y x k -> 0 <= y < h - 1 /\ 0 <= x < w - 1).
  { intros y x k Hk Q. destruct (Q y x ltac:(lia) ltac:(lia)) as (A & B & _). destruct (Q (y + 1) (x + 1) ltac:(lia) ltac:(lia)) as (C & D & _). lia. }
  destruct (I y1 x1 2 ltac:(lia) Q2) as [I1 I2]. unfold found in F. destruct l as [[y0 x0]|].
  - destruct F as (F1 & F2 & F3 & F4 & F5 & _). split; [exists y0, x0; exact F4|]. intros y x k Q. pose proof (F5 y1 x1 2 I1 I2 Q2). destruct (Z_lt_ge_dec k 2); [lia|]. destruct (I y x k ltac:(lia) Q). apply (F5 y x); assumption.
  - destruct F as [_ F]. exfalso. destruct (Q2 y1 x1 ltac:(lia) ltac:(lia)) as (_ & _ & T). apply (F y1 x1); assumption.
Qed.
Print Assumptions C93_largest.

(** "The number is the size of the largest square" is false for layouts whose tiles all lie in the last row or the last column, such as those with one row or one column: the answer is -1, and
    without "onlydim" no file is written, in silence. *)
Theorem C93_border_refuted : forall fs layout rows h w, rectangular fs layout rows h w -> (forall y x, 0 <= y < h -> 0 <= x < w -> tile rows y x -> y = h - 1 \/ x = w - 1) ->
  find_square fs (tx "onlydim") layout = Ok (Printed (-1)) /\ forall arg, arg <> tx "onlydim" -> find_square fs arg layout = Ok (Written []).
Proof.
  intros fs layout rows h w R B.
  assert (N : forall v l, found rows h w v l -> v = -1).
  { intros v [[y0 x0]|] F; [|exact (proj1 F)]. destruct F as (F1 & F2 & F3 & F4 & _). destruct (F4 y0 x0 ltac:(lia) ltac:(lia)) as (_ & _ & T). destruct (B y0 x0 ltac:(lia) ltac:(lia) T); lia. }
  split.
  - destruct (C93_size fs layout rows h w R) as (v & l & E & F). rewrite (N v l F) in E. exact E.
  - intros arg Na. destruct (C93_files fs arg layout rows h w R Na) as (v & l & files & F & E & L & _). rewrite (N v l F) in L. destruct files; [exact E|discriminate].
Qed.
Print Assumptions C93_border_refuted.

(** C93. Otherwise the script ends with an exception: no such file, an empty file, rows of different lengths. *)
Theorem C93_rejects : forall fs arg layout,
  (fs layout = None -> find_square fs arg layout = Thrown) /\ (fs layout = Some [] -> find_square fs arg layout = Thrown) /\
  (forall s rows r r', fs layout = Some s -> layout_text rows (univ false s) -> In r rows -> In r' rows -> List.length r <> List.length r' -> find_square fs arg layout = Thrown).
Proof.
  intros fs arg layout. unfold find_square. split; [intros ->; reflexivity|]. split; [intros ->; reflexivity|]. intros s rows r r' -> Hl Hr Hr' Hd. cbv zeta.
  replace (np_array (py_rows s)) with (@Thrown (Z * Z * grid Z)); [reflexivity|]. unfold np_array. pose proof (py_rows_lengths rows s Hl) as E.
  destruct (py_rows s) as [|r0 g]; [reflexivity|]. destruct (forallb _ (r0 :: g)) eqn:Eb; [|reflexivity]. exfalso. rewrite forallb_forall in Eb.
  assert (X : forall q, In q rows -> List.length q = List.length r0).
  { intros q Hq. apply (in_map (@List.length text)) in Hq. rewrite <- E in Hq. apply in_map_iff in Hq. destruct Hq as (q' & Eq & Hq'). rewrite <- Eq. apply Nat.eqb_eq. apply Eb. exact Hq'. }
  apply Hd. rewrite (X r Hr), (X r' Hr'). reflexivity.
Qed.
Print Assumptions C93_rejects.

(** a 3 x 3 layout with a 2 x 2 square at row 1, column 0 *)
Definition ex_rows : list (list text) := [[tx "a"; []; tx "b"]; [tx "c"; tx " d"; []]; [tx "e"; tx "f"; tx "g"]].
Definition ex_text : text := concat (map (fun l => l ++ [nl]) (map (join comma) ex_rows)).
Definition ex_fs (f : text) : option text := if text_eqb f (tx "t.layout") then Some ex_text else None.
Example C93_not_vacuous : rectangular ex_fs (tx "t.layout") ex_rows 3 3 /\ square ex_rows 3 3 1 0 2 /\
  find_square ex_fs (tx "onlydim") (tx "t.layout") = Ok (Printed 2) /\
  find_square ex_fs (tx "s") (tx "t.layout") = Ok (Written [(tx "s1.layout", tx "c" ++ [nl]); (tx "s2.layout", tx "c, d" ++ [nl] ++ tx "e,f" ++ [nl])]).
Proof.
  split; [|split; [|split]].
  - exists ex_text. split; [reflexivity|]. split.
    + split; [repeat constructor; try discriminate; chars|]. split; [repeat constructor; chars|left; reflexivity].
    + split; [discriminate|]. split; [reflexivity|repeat constructor].
  - intros j i Hj Hi. split; [lia|]. split; [lia|]. unfold tile. assert (j = 1 \/ j = 2) as [->| ->] by lia; assert (i = 0 \/ i = 1) as [->| ->] by lia.
    + exists "c"%char. split; [vm_compute; auto|reflexivity].
    + exists "d"%char. split; [vm_compute; auto|reflexivity].
    + exists "e"%char. split; [vm_compute; auto|reflexivity].
    + exists "f"%char. split; [vm_compute; auto|reflexivity].
  - vm_compute. reflexivity.
  - vm_compute. reflexivity.
Qed.
