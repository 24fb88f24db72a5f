(** Facts about file names and about the tiled programs' reading and writing of layout files. *)
From Coq Require Import Ascii String DecimalString DecimalZ.
From Verif Require Import Base Res LayoutModel LayoutSpec LayoutProofs.
Open Scope nat_scope.

(** * Numbers in names *)
Definition numeric (a : ascii) : Prop := In a (tx "0123456789-").
Lemma to_string_numeric z : Forall numeric (to_string z).
Proof.
  unfold to_string. destruct (Z.to_int z) as [d|d]; cbn [NilEmpty.string_of_int].
  - induction d; cbn; constructor; auto; unfold numeric, tx; cbn; tauto.
  - cbn. constructor; [unfold numeric, tx; cbn; tauto|].
    induction d; cbn; constructor; auto; unfold numeric, tx; cbn; tauto.
Qed.
Lemma tx_inj a b : tx a = tx b -> a = b.
Proof. intros H. apply (f_equal string_of_list_ascii) in H. unfold tx in H. rewrite !string_of_list_ascii_of_string in H. exact H. Qed.
Lemma to_string_inj a b : to_string a = to_string b -> a = b.
Proof.
  unfold to_string. intros H. apply tx_inj in H. apply (f_equal NilEmpty.int_of_string) in H.
  rewrite !NilEmpty.isi in H. injection H as H.
  apply (f_equal Z.of_int) in H. rewrite !DecimalZ.of_to in H. exact H.
Qed.
Definition loc (x y : Z) : text := to_string x ++ tx "_" ++ to_string y.
Lemma numeric_free c s : Forall numeric s -> ~ numeric c -> free c s.
Proof. intros F N H. rewrite Forall_forall in F. apply N, F, H. Qed.
Lemma not_numeric c : existsb (Ascii.eqb c) (tx "0123456789-") = false -> ~ numeric c.
Proof.
  intros E H. assert (existsb (Ascii.eqb c) (tx "0123456789-") = true); [|congruence].
  apply existsb_exists. exists c. split; [exact H|apply Ascii.eqb_refl].
Qed.
Lemma loc_free c x y : existsb (Ascii.eqb c) (tx "0123456789-_") = false -> free c (loc x y).
Proof.
  intros E. unfold loc. rewrite !free_app.
  assert (N : existsb (Ascii.eqb c) (tx "0123456789-") = false /\ c <> "_"%char).
  { split.
    - change (tx "0123456789-_") with (tx "0123456789-" ++ tx "_") in E. rewrite existsb_app in E. apply orb_false_iff in E. tauto.
    - intros ->. discriminate. }
  destruct N as [N1 N2]. split; [apply numeric_free; [apply to_string_numeric|apply not_numeric, N1]|].
  split; [|apply numeric_free; [apply to_string_numeric|apply not_numeric, N1]].
  intros [H|[]]. congruence.
Qed.
Lemma split_unique {A} (c : A) a b a' b' : ~ In c a -> ~ In c a' -> a ++ c :: b = a' ++ c :: b' -> a = a' /\ b = b'.
Proof.
  revert a'; induction a as [|x a IH]; intros [|x' a'] H H' E; cbn in E.
  - injection E as E. auto.
  - injection E as E1 E2. subst. exfalso. apply H'. left. reflexivity.
  - injection E as E1 E2. subst. exfalso. apply H. left. reflexivity.
  - injection E as E1 E2. subst. destruct (IH a') as [-> ->]; auto.
    + intros X. apply H. right. exact X.
    + intros X. apply H'. right. exact X.
Qed.
Lemma loc_inj x y x' y' : loc x y = loc x' y' -> x = x' /\ y = y'.
Proof.
  unfold loc. change (tx "_") with ["_"%char]. cbn [app]. intros H.
  apply split_unique in H.
  - destruct H as [H1 H2]. apply to_string_inj in H1, H2. auto.
  - apply numeric_free with (c := "_"%char); [apply to_string_numeric|apply not_numeric; reflexivity].
  - apply numeric_free with (c := "_"%char); [apply to_string_numeric|apply not_numeric; reflexivity].
Qed.
Lemma loc_nonempty x y : loc x y <> [].
Proof. unfold loc. intros H. apply app_eq_nil in H. destruct H as [_ H]. discriminate. Qed.

(** * Base names and extensions *)
(** [b]: the file name [f] without its extension, which is everything from its last period on *)
Lemma base_good s a e : file_part s = a ++ period :: e -> free period e -> GetBaseName s = a.
Proof.
  intros H F. unfold GetBaseName.
  assert (E : s = (dir_part s ++ a) ++ period :: e) by (rewrite <- app_assoc, <- H, dir_file; reflexivity).
  assert (E' : find_last_of period s = Some (length (dir_part s ++ a))) by (rewrite E at 1; apply find_last_of_app; exact F).
  rewrite E'. cbv zeta.
  assert (Ef : firstn (length (dir_part s ++ a)) s = dir_part s ++ a) by (rewrite E at 2; apply firstn_app_all).
  rewrite Ef.
  destruct (last_of_cases slash s) as [G|[c [d [Es G]]]].
  - assert (D := dir_part_free s G). apply find_last_of_None in G. rewrite G, D. reflexivity.
  - rewrite Es at 1. rewrite find_last_of_app by exact G.
    assert (D : dir_part s = c ++ [slash]) by (rewrite Es; apply dir_part_app; exact G). rewrite D.
    replace (length c + 1) with (length (c ++ [slash])) by (rewrite app_length; reflexivity). apply skipn_app_all.
Qed.
Lemma base_plain s : free period s -> GetBaseName s = file_part s.
Proof.
  intros F. unfold GetBaseName. apply find_last_of_None in F. rewrite F. apply strip_eq.
Qed.
Lemma base_lost s : In period (dir_part s) -> free period (file_part s) -> GetBaseName s = [].
Proof.
  intros H F. unfold GetBaseName.
  destruct (last_of_cases slash s) as [G|[c [d [Es G]]]].
  { rewrite dir_part_free in H by exact G. destruct H. }
  assert (D : dir_part s = c ++ [slash]) by (rewrite Es; apply dir_part_app; exact G).
  assert (P : file_part s = d) by (rewrite Es; apply file_part_app; exact G).
  rewrite D in H. rewrite P in F. apply in_app_or in H. destruct H as [H|[H|[]]]; [|discriminate].
  destruct (last_of_cases period c) as [X|[c1 [c2 [Ec X]]]]; [destruct (X H)|].
  assert (E2 : s = c1 ++ period :: (c2 ++ slash :: d)) by (rewrite Es, Ec, <- app_assoc; reflexivity).
  assert (F2 : free period (c2 ++ slash :: d)).
  { apply free_app. split; [exact X|]. apply free_cons. split; [discriminate|exact F]. }
  assert (X1 : find_last_of slash s = Some (length c)) by (rewrite Es; apply find_last_of_app; exact G).
  assert (X2 : find_last_of period s = Some (length c1)) by (rewrite E2; apply find_last_of_app; exact F2).
  rewrite X1, X2. cbv zeta iota.
  replace (firstn (length c1) s) with c1 by (rewrite E2, firstn_app_all; reflexivity).
  apply skipn_all2. rewrite Ec, app_length. cbn [length]. lia.
Qed.
Lemma layout_name_good n a e : file_part n = a ++ period :: e -> free period e ->
  layout_name n = dir_part n ++ a ++ tx ".layout".
Proof.
  intros H F. unfold layout_name, open_writer. cbn [wfile].
  assert (E : n = (dir_part n ++ a) ++ period :: e) by (rewrite <- app_assoc, <- H, dir_file; reflexivity).
  assert (X2 : find_last_of period n = Some (length (dir_part n ++ a))) by (rewrite E at 1; apply find_last_of_app; exact F).
  rewrite X2.
  replace (firstn (length (dir_part n ++ a) + 1) n) with ((dir_part n ++ a) ++ [period]).
  - rewrite <- !app_assoc. reflexivity.
  - rewrite E at 3. replace ((dir_part n ++ a) ++ period :: e) with (((dir_part n ++ a) ++ [period]) ++ e)
      by (rewrite <- !app_assoc; reflexivity).
    replace (length (dir_part n ++ a) + 1) with (length ((dir_part n ++ a) ++ [period])) by (rewrite !app_length; reflexivity).
    rewrite firstn_app_all. reflexivity.
Qed.
Lemma layout_name_plain n : free period n -> layout_name n = n.
Proof. intros F. unfold layout_name, open_writer. cbn [wfile]. apply find_last_of_None in F. rewrite F. reflexivity. Qed.
Lemma layout_name_lost n a b : dir_part n = a ++ period :: b -> free period b -> free period (file_part n) ->
  layout_name n = a ++ tx ".layout".
Proof.
  intros D F G. unfold layout_name, open_writer. cbn [wfile].
  assert (E : n = a ++ period :: (b ++ file_part n)).
  { rewrite <- (dir_file n) at 1. rewrite D, <- app_assoc. reflexivity. }
  assert (F2 : free period (b ++ file_part n)) by (apply free_app; auto).
  assert (X2 : find_last_of period n = Some (length a)) by (rewrite E at 1; apply find_last_of_app; exact F2).
  rewrite X2.
  replace (firstn (length a + 1) n) with (a ++ [period]).
  - rewrite <- app_assoc. reflexivity.
  - rewrite E. replace (a ++ period :: b ++ file_part n) with ((a ++ [period]) ++ (b ++ file_part n)) by (rewrite <- app_assoc; reflexivity).
    replace (length a + 1) with (length (a ++ [period])) by (rewrite app_length; reflexivity).
    rewrite firstn_app_all. reflexivity.
Qed.
Lemma layout_name_dir n : In period (file_part n) -> dir_part (layout_name n) = dir_part n.
Proof.
  intros H. destruct (last_of_cases period (file_part n)) as [F|[a [e [E F]]]]; [destruct (F H)|].
  rewrite (layout_name_good n a e E F).
  assert (Ha : free slash (a ++ tx ".layout")).
  { assert (X := file_part_noslash n). rewrite E in X. apply free_app in X. destruct X as [X _].
    apply free_app. split; [exact X|]. intros Y. cbn in Y. repeat (destruct Y as [Y|Y]; [discriminate|]). exact Y. }
  destruct (file_part_join (dir_part n) _ Ha) as [_ ->].
  destruct (last_of_cases slash n) as [G|[c [d [-> G]]]].
  - rewrite (dir_part_free n) by exact G. reflexivity.
  - rewrite dir_part_app by exact G. change (c ++ [slash]) with (c ++ slash :: []). rewrite dir_part_app by (intros []). reflexivity.
Qed.

(** * Templates *)
Lemma find2_none a b s : free a s -> find2 a b s = None.
Proof.
  induction s as [|x s IH]; intros F; [reflexivity|]. apply free_cons in F. destruct F as [N F].
  cbn [find2]. destruct s as [|y s]; [reflexivity|].
  destruct (Ascii.eqb x a) eqn:E; [apply eqb_spec' in E; contradiction|]. cbn [andb]. rewrite IH by exact F. reflexivity.
Qed.
Lemma find2_template pre post k c : free pct pre -> free pct post -> k <> pct ->
  find2 pct c (pre ++ pct :: k :: post) = if Ascii.eqb k c then Some (length pre) else None.
Proof.
  intros F G N. induction pre as [|x pre IH].
  - cbn [app find2]. rewrite Ascii.eqb_refl. cbn [andb]. destruct (Ascii.eqb k c) eqn:E; [reflexivity|].
    change (match post with d :: _ => if Ascii.eqb k pct && Ascii.eqb d c then Some 0 else option_map S (find2 pct c post) | [] => None end)
      with (find2 pct c (k :: post)).
    rewrite find2_none; [reflexivity|]. apply free_cons. auto.
  - apply free_cons in F. destruct F as [Nx F]. specialize (IH F).
    assert (X : exists y r, pre ++ pct :: k :: post = y :: r) by (destruct pre; cbn; eauto).
    destruct X as [y [r X]]. cbn [app find2]. rewrite X in *.
    destruct (Ascii.eqb x pct) eqn:E; [apply eqb_spec' in E; contradiction|]. cbn [andb]. rewrite IH.
    destruct (Ascii.eqb k c); reflexivity.
Qed.
Lemma replace2_template pre post k by_ : replace2 (pre ++ pct :: k :: post) (length pre) by_ = pre ++ by_ ++ post.
Proof.
  unfold replace2. rewrite firstn_app_all. do 2 f_equal.
  replace (pre ++ pct :: k :: post) with ((pre ++ [pct; k]) ++ post) by (rewrite <- app_assoc; reflexivity).
  replace (length pre + 2) with (length (pre ++ [pct; k])) by (rewrite app_length; reflexivity). apply skipn_app_all.
Qed.
Lemma subst_n pre post bf bn : free pct pre -> free pct post ->
  subst_name (pre ++ pct :: "n"%char :: post) bf bn = Ok (pre ++ bn ++ post).
Proof.
  intros F G. unfold subst_name. rewrite !find2_template by (auto; discriminate).
  change (Ascii.eqb "n" "f") with false. change (Ascii.eqb "n" "n") with true. cbv iota. rewrite replace2_template. reflexivity.
Qed.
Lemma subst_f pre post bf bn : free pct pre -> free pct post ->
  subst_name (pre ++ pct :: "f"%char :: post) bf bn = Ok (pre ++ bf ++ post).
Proof.
  intros F G. unfold subst_name. rewrite !find2_template by (auto; discriminate).
  change (Ascii.eqb "f" "f") with true. cbv iota. rewrite replace2_template. reflexivity.
Qed.

(** * The tile table *)
Section prep.
  Variables (dir : text) (name : nat -> nat -> text) (outname : text) (out : nat -> nat -> text).
  Hypothesis Hout : forall y x, subst_name outname (e_basename (entry_at dir name y x)) (e_locname (entry_at dir name y x)) = Ok (out y x).

  Definition a_tile (y x : nat) : tile :=
    match name y x with [] => NullTile | _ => Tile (dir ++ name y x) (out y x) (Z.of_nat x) (Z.of_nat y) end.
  Definition a_name (y x : nat) : text := match name y x with [] => [] | _ => out y x end.

  Lemma prepare_step y x T b w : x <> 0 ->
    prepare_one outname (entry_at dir name y x) (T ++ [b], w) = Ok (T ++ [b ++ [a_tile y x]], addEntry (a_name y x) w).
  Proof.
    intros Nx. unfold prepare_one. assert (H := Hout y x).
    unfold entry_at in *. cbn [e_newrow e_null e_basename e_locname e_fullpath e_x e_y] in *.
    destruct (Nat.eqb_spec x 0); [contradiction|]. rewrite rev_unit, rev_involutive.
    unfold a_tile, a_name. destruct (name y x); [reflexivity|]. rewrite H. reflexivity.
  Qed.
  Lemma prepare_first y T w :
    prepare_one outname (entry_at dir name y 0) (T, w) = Ok (T ++ [[a_tile y 0]], addEntry (a_name y 0) (addRow w)).
  Proof.
    unfold prepare_one. assert (H := Hout y 0).
    unfold entry_at in *. cbn [e_newrow e_null e_basename e_locname e_fullpath e_x e_y Nat.eqb] in *.
    rewrite rev_unit, rev_involutive. cbn [app].
    unfold a_tile, a_name. destruct (name y 0); [reflexivity|]. rewrite H. reflexivity.
  Qed.
  Lemma prepare_tail y k : forall x T b w, x <> 0 ->
    forM (map (entry_at dir name y) (seq x k)) (prepare_one outname) (T ++ [b], w) =
    Ok (T ++ [b ++ map (a_tile y) (seq x k)], fold_left (fun w f => addEntry f w) (map (a_name y) (seq x k)) w).
  Proof.
    induction k as [|k IH]; intros x T b w Nx.
    - cbn [seq map forM fold_left]. rewrite app_nil_r. reflexivity.
    - cbn [seq map forM fold_left]. rewrite prepare_step by exact Nx. cbn [bind]. rewrite IH by lia.
      rewrite <- app_assoc. reflexivity.
  Qed.
  Lemma prepare_row y k T w :
    forM (map (entry_at dir name y) (seq 0 (S k))) (prepare_one outname) (T, w) =
    Ok (T ++ [map (a_tile y) (seq 0 (S k))], fold_left (fun w f => addEntry f w) (map (a_name y) (seq 0 (S k))) (addRow w)).
  Proof.
    cbn [seq map forM fold_left]. rewrite prepare_first. cbn [bind]. rewrite prepare_tail by lia. reflexivity.
  Qed.
  Lemma forM_app' {I S} (a b : list I) (f : I -> S -> res S) s : forM (a ++ b) f s = do s' <- forM a f s; forM b f s'.
  Proof.
    revert s; induction a as [|i a IH]; intros s; [reflexivity|]. cbn [app forM].
    destruct (f i s); cbn [bind]; auto.
  Qed.
  Lemma prepare_all k h : forall y0 T w,
    forM (flat_map (fun y => map (entry_at dir name y) (seq 0 (S k))) (seq y0 h)) (prepare_one outname) (T, w) =
    Ok (T ++ map (fun y => map (a_tile y) (seq 0 (S k))) (seq y0 h),
        fold_left (fun w r => fold_left (fun w f => addEntry f w) r (addRow w))
          (map (fun y => map (a_name y) (seq 0 (S k))) (seq y0 h)) w).
  Proof.
    induction h as [|h IH]; intros y0 T w.
    - cbn [seq flat_map map forM fold_left]. rewrite app_nil_r. reflexivity.
    - change (seq y0 (S h)) with (y0 :: seq (S y0) h). cbn [flat_map]. rewrite forM_app', prepare_row. cbn [bind]. rewrite IH.
      cbn [map fold_left]. rewrite <- app_assoc. reflexivity.
  Qed.
End prep.

Lemma text_eqb_false a b : a <> b -> text_eqb a b = false.
Proof. unfold text_eqb. destruct (list_eq_dec ascii_dec a b); [contradiction|reflexivity]. Qed.
Lemma text_eqb_refl a : text_eqb a a = true.
Proof. unfold text_eqb. destruct (list_eq_dec ascii_dec a a); [reflexivity|contradiction]. Qed.

Definition names_of (rows : list (list text)) (y x : nat) : text := field (nth y rows []) x.

Lemma prepare_ok fs input s rows outname lname out fuel :
  fs input = Some s -> layout_text rows s -> rows <> [] -> 0 < columns rows ->
  (forall r, In r rows -> columns rows <= count r + 1) ->
  subst_name outname (tx "layout") (tx "layout") = Ok lname -> layout_name lname <> input ->
  (forall y x, subst_name outname (GetBaseName (names_of rows y x)) (loc (Z.of_nat x) (Z.of_nat y)) = Ok (out y x)) ->
  columns rows * length rows < fuel ->
  prepare fs fuel input outname =
    Some (Ok (map (fun y => map (a_tile (dir_part input) (names_of rows) out y) (seq 0 (columns rows))) (seq 0 (length rows)),
      write_rows lname (map (fun y => map (a_name (names_of rows) out y) (seq 0 (columns rows))) (seq 0 (length rows))))).
Proof.
  intros E L N W H S X O F. unfold prepare. rewrite S. cbv zeta.
  rewrite (open_ok _ input s rows); auto.
  2:{ rewrite text_eqb_false; auto. }
  rewrite read_layout by auto. unfold entries.
  destruct (columns rows) as [|k] eqn:EC; [lia|].
  change (fun y x => field (nth y rows []) x) with (names_of rows).
  rewrite (prepare_all _ (names_of rows) outname out O k (length rows) 0 []). reflexivity.
Qed.
Lemma prepare_self fs fuel outname lname :
  subst_name outname (tx "layout") (tx "layout") = Ok lname ->
  prepare fs fuel (layout_name lname) outname = Some Undef.
Proof.
  intros S. unfold prepare. rewrite S. cbv zeta. unfold open_layout.
  change (wfile (open_writer lname)) with (layout_name lname). rewrite text_eqb_refl. reflexivity.
Qed.
