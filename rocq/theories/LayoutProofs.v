(** Facts about layout files. *)
From Coq Require Import Ascii String DecimalString.
From Verif Require Import Base Res LayoutModel LayoutSpec.
Open Scope nat_scope.

(** * Strings *)
Lemma eqb_spec' a b : Ascii.eqb a b = true <-> a = b.
Proof. apply Ascii.eqb_eq. Qed.

Lemma free_cons c a s : free c (a :: s) <-> a <> c /\ free c s.
Proof. unfold free. simpl. tauto. Qed.
Lemma free_app c a b : free c (a ++ b) <-> free c a /\ free c b.
Proof. unfold free. rewrite in_app_iff. tauto. Qed.

Lemma find_last_of_None c s : find_last_of c s = None <-> free c s.
Proof.
  induction s as [|a r IH]; simpl; [split; auto; intros _ []|].
  rewrite free_cons. destruct (find_last_of c r) as [k|].
  - split; [discriminate|]. intros [_ H]. apply IH in H. discriminate.
  - destruct (Ascii.eqb a c) eqn:E.
    + apply eqb_spec' in E. split; [discriminate|]. tauto.
    + assert (a <> c) by (intros ->; rewrite Ascii.eqb_refl in E; discriminate). tauto.
Qed.

Lemma find_last_of_app c a b : free c b -> find_last_of c (a ++ c :: b) = Some (length a).
Proof.
  intros Hb. induction a as [|x a IH]; simpl.
  - apply find_last_of_None in Hb. rewrite Hb, Ascii.eqb_refl. reflexivity.
  - rewrite IH. reflexivity.
Qed.

Lemma last_of_cases c s : free c s \/ exists a b, s = a ++ c :: b /\ free c b.
Proof.
  induction s as [|x s IH]; [left; intros []|].
  destruct IH as [F|[a [b [-> Hb]]]].
  - destruct (ascii_dec x c) as [->|N].
    + right. exists [], s. auto.
    + left. apply free_cons. auto.
  - right. exists (x :: a), b. auto.
Qed.

Lemma existsb_slash s : existsb (Ascii.eqb slash) s = true <-> In slash s.
Proof.
  rewrite existsb_exists. split.
  - intros [x [H E]]. apply eqb_spec' in E. subst. exact H.
  - intros H. exists slash. rewrite Ascii.eqb_refl. auto.
Qed.

Lemma file_part_free s : free slash s -> file_part s = s.
Proof.
  destruct s as [|a r]; [reflexivity|]. intros F. cbn [file_part].
  destruct (existsb (Ascii.eqb slash) (a :: r)) eqn:E; [|reflexivity].
  apply existsb_slash in E. destruct (F E).
Qed.
Lemma file_part_app a b : free slash b -> file_part (a ++ slash :: b) = b.
Proof.
  intros F. induction a as [|x a IH].
  - cbn [app file_part]. replace (existsb (Ascii.eqb slash) (slash :: b)) with true.
    + apply file_part_free. exact F.
    + symmetry. apply existsb_slash. left. reflexivity.
  - cbn [app file_part]. replace (existsb (Ascii.eqb slash) (x :: a ++ slash :: b)) with true.
    + exact IH.
    + symmetry. apply existsb_slash. right. apply in_or_app. right. left. reflexivity.
Qed.
Lemma dir_part_free s : free slash s -> dir_part s = [].
Proof. intros F. unfold dir_part. rewrite file_part_free by exact F. rewrite Nat.sub_diag. reflexivity. Qed.
Lemma firstn_app_all {A} (a b : list A) : firstn (length a) (a ++ b) = a.
Proof. rewrite firstn_app, Nat.sub_diag, firstn_all. simpl. apply app_nil_r. Qed.
Lemma skipn_app_all {A} (a b : list A) : skipn (length a) (a ++ b) = b.
Proof. rewrite skipn_app, Nat.sub_diag, skipn_all. reflexivity. Qed.
Lemma dir_part_app a b : free slash b -> dir_part (a ++ slash :: b) = a ++ [slash].
Proof.
  intros F. unfold dir_part. rewrite file_part_app by exact F.
  replace (length (a ++ slash :: b) - length b) with (length (a ++ [slash])) by (rewrite !app_length; simpl; lia).
  replace (a ++ slash :: b) with ((a ++ [slash]) ++ b) by (rewrite <- app_assoc; reflexivity).
  apply firstn_app_all.
Qed.
Lemma dir_file s : dir_part s ++ file_part s = s.
Proof.
  destruct (last_of_cases slash s) as [F|[a [b [-> F]]]].
  - rewrite dir_part_free, file_part_free by exact F. reflexivity.
  - rewrite dir_part_app, file_part_app by exact F. rewrite <- app_assoc. reflexivity.
Qed.
Lemma file_part_noslash s : free slash (file_part s).
Proof.
  destruct (last_of_cases slash s) as [F|[a [b [-> F]]]].
  - rewrite file_part_free by exact F. exact F.
  - rewrite file_part_app by exact F. exact F.
Qed.
Lemma file_part_join a b : free slash b -> file_part (a ++ b) = file_part a ++ b /\ dir_part (a ++ b) = dir_part a.
Proof.
  intros F. destruct (last_of_cases slash a) as [G|[c [d [-> G]]]].
  - rewrite !dir_part_free, !file_part_free; auto; apply free_app; auto.
  - rewrite <- app_assoc. cbn [app].
    rewrite !dir_part_app, !file_part_app; auto; apply free_app; auto.
Qed.
(** the code's own way of splitting at the last slash *)
Lemma path_eq s : match find_last_of slash s with Some k => firstn (k + 1) s | None => [] end = dir_part s.
Proof.
  destruct (last_of_cases slash s) as [F|[a [b [-> F]]]].
  - rewrite dir_part_free by exact F. apply find_last_of_None in F. rewrite F. reflexivity.
  - rewrite dir_part_app, find_last_of_app by exact F.
    replace (a ++ slash :: b) with ((a ++ [slash]) ++ b) by (rewrite <- app_assoc; reflexivity).
    replace (length a + 1) with (length (a ++ [slash])) by (rewrite app_length; reflexivity).
    apply firstn_app_all.
Qed.
Lemma strip_eq s : match find_last_of slash s with Some k => skipn (k + 1) s | None => s end = file_part s.
Proof.
  destruct (last_of_cases slash s) as [F|[a [b [-> F]]]].
  - rewrite file_part_free by exact F. apply find_last_of_None in F. rewrite F. reflexivity.
  - rewrite file_part_app, find_last_of_app by exact F.
    replace (a ++ slash :: b) with ((a ++ [slash]) ++ b) by (rewrite <- app_assoc; reflexivity).
    replace (length a + 1) with (length (a ++ [slash])) by (rewrite app_length; reflexivity).
    apply skipn_app_all.
Qed.

(** * Trimming *)
Lemma ltrim_first s : match find_first_not_of space s with Some k => ltrim s = skipn k s | None => ltrim s = [] end.
Proof.
  induction s as [|a r IH]; simpl; auto.
  destruct (Ascii.eqb a space) eqn:E; simpl; auto.
  destruct (find_first_not_of space r); simpl; auto.
Qed.
Lemma first_none_iff s : find_first_not_of space s = None <-> (forall a, In a s -> a = space).
Proof.
  induction s as [|a r IH]; simpl; [split; auto; intros _ x []|].
  destruct (Ascii.eqb a space) eqn:E.
  - apply eqb_spec' in E. subst a. destruct (find_first_not_of space r); simpl.
    + split; [discriminate|]. intros H. exfalso. assert (Some n = None) by (apply IH; auto). discriminate.
    + split; auto. intros _ x [<-|H]; auto. apply IH; auto.
  - split; [discriminate|]. intros H. specialize (H a (or_introl eq_refl)). subst. rewrite Ascii.eqb_refl in E. discriminate.
Qed.
Lemma last_not_spec s :
  (find_last_not_of space s = None /\ (forall a, In a s -> a = space)) \/
  (exists p a q, s = p ++ a :: q /\ a <> space /\ (forall b, In b q -> b = space) /\ find_last_not_of space s = Some (length p)).
Proof.
  induction s as [|x s IH]; [left; split; auto; intros a []|].
  cbn [find_last_not_of]. destruct IH as [[E H]|[p [a [q [-> [Ha [Hq E]]]]]]].
  - rewrite E. destruct (Ascii.eqb x space) eqn:X.
    + apply eqb_spec' in X. left. split; auto. intros a [<-|I]; auto.
    + right. exists [], x, s. split; auto. split; [|auto]. intros ->. rewrite Ascii.eqb_refl in X. discriminate.
  - rewrite E. right. exists (x :: p), a, q. auto.
Qed.
Lemma ltrim_spaces q s : (forall b, In b q -> b = space) -> ltrim (q ++ s) = ltrim s.
Proof.
  induction q as [|b q IH]; intros H; [reflexivity|]. cbn [app ltrim].
  rewrite (H b) by (left; reflexivity). rewrite Ascii.eqb_refl. apply IH. intros c Hc. apply H. right. exact Hc.
Qed.
Lemma first_not_split s k : find_first_not_of space s = Some k ->
  exists q a r, s = q ++ a :: r /\ a <> space /\ (forall b, In b q -> b = space) /\ length q = k.
Proof.
  revert k; induction s as [|x s IH]; intros k; simpl; [discriminate|].
  destruct (Ascii.eqb x space) eqn:X.
  - destruct (find_first_not_of space s) as [j|] eqn:E; simpl; [|discriminate]. intros [= <-].
    destruct (IH j eq_refl) as [q [a [r [-> [Ha [Hq L]]]]]].
    exists (x :: q), a, r. split; auto. split; auto. split; [|simpl; lia].
    intros b [<-|Hb]; auto. apply eqb_spec' in X. exact X.
  - intros [= <-]. exists [], x, s. split; auto. split; [|split; [intros b []|reflexivity]].
    intros ->. rewrite Ascii.eqb_refl in X. discriminate.
Qed.
Lemma ltrim_nonspace a r : a <> space -> ltrim (a :: r) = a :: r.
Proof. intros H. cbn [ltrim]. destruct (Ascii.eqb a space) eqn:E; [|reflexivity]. apply eqb_spec' in E. contradiction. Qed.

Lemma trimStr_trim s : trimStr s = trim s.
Proof.
  destruct s as [|x0 s0]; [reflexivity|]. set (s := x0 :: s0). change (trimStr s) with
    (let first := match find_first_not_of space s with Some k => k | None => length s end in
      match find_last_not_of space s with
      | Some last => substr s first (last - first + 1)
      | None => substr s first (length s)
      end). cbv zeta.
  destruct (last_not_spec s) as [[E H]|[p [a [q [Es [Ha [Hq E]]]]]]].
  - rewrite E. assert (F := proj2 (first_none_iff s) H). rewrite F.
    unfold substr. rewrite skipn_all, firstn_nil. unfold trim.
    rewrite <- (app_nil_r s). rewrite (ltrim_spaces s [] H). reflexivity.
  - rewrite E. destruct (find_first_not_of space s) as [k|] eqn:F.
    + destruct (first_not_split s k F) as [q1 [a1 [r1 [Es1 [Ha1 [Hq1 L]]]]]].
      unfold trim. rewrite Es1, (ltrim_spaces q1 _ Hq1), (ltrim_nonspace a1 r1 Ha1).
      unfold substr. rewrite <- L, skipn_app_all.
      (* s = q1 ++ a1 :: r1 = p ++ a :: q *)
      assert (Hle : length q1 <= length p).
      { destruct (le_lt_dec (length q1) (length p)) as [|Hlt]; auto. exfalso.
        assert (nth_error s (length p) = Some a) by (rewrite Es, nth_error_app2, Nat.sub_diag by lia; reflexivity).
        rewrite Es1, nth_error_app1 in H by lia. apply nth_error_In, Hq1 in H. contradiction. }
      assert (Hp : p = q1 ++ firstn (length p - length q1) (a1 :: r1)).
      { assert (X : firstn (length p) (p ++ a :: q) = firstn (length p) (q1 ++ a1 :: r1)) by congruence.
        rewrite firstn_app_all in X. rewrite X at 1. rewrite firstn_app.
        f_equal. apply firstn_all2. exact Hle. }
      assert (Hr : a1 :: r1 = firstn (length p - length q1) (a1 :: r1) ++ a :: q).
      { apply (app_inv_head q1). rewrite app_assoc, <- Hp. congruence. }
      set (m := firstn (length p - length q1) (a1 :: r1)) in *.
      assert (Lm : length m = length p - length q1).
      { rewrite Hp, app_length. lia. }
      rewrite Hr. rewrite rev_app_distr. cbn [rev]. rewrite <- app_assoc.
      rewrite ltrim_spaces by (intros b Hb; apply Hq; apply in_rev; exact Hb).
      cbn [app]. rewrite ltrim_nonspace by exact Ha. cbn [rev]. rewrite rev_involutive.
      replace (length p - length q1 + 1) with (length (m ++ [a])) by (rewrite app_length; simpl; lia).
      replace (m ++ a :: q) with ((m ++ [a]) ++ q) by (rewrite <- app_assoc; reflexivity).
      apply firstn_app_all.
    + exfalso. apply Ha. apply (proj1 (first_none_iff s) F). rewrite Es. apply in_or_app. right. left. reflexivity.
Qed.

(** a name that neither begins nor ends with a space is left alone *)
Lemma trim_id s : hd_error s <> Some space -> hd_error (rev s) <> Some space -> trim s = s.
Proof.
  intros H1 H2. unfold trim.
  assert (L : forall s, hd_error s <> Some space -> ltrim s = s).
  { intros [|a r] H; [reflexivity|]. apply ltrim_nonspace. intros ->. apply H. reflexivity. }
  rewrite (L s H1), (L _ H2). apply rev_involutive.
Qed.

(** * Splitting *)
Lemma upto_found d a r : free d a -> upto d (a ++ d :: r) = (a, Some r).
Proof.
  induction a as [|x a IH]; intros F; cbn [app upto].
  - rewrite Ascii.eqb_refl. reflexivity.
  - apply free_cons in F. destruct F as [N F]. destruct (Ascii.eqb x d) eqn:E.
    + apply eqb_spec' in E. contradiction.
    + rewrite IH by exact F. reflexivity.
Qed.
Lemma upto_none d a : free d a -> upto d a = (a, None).
Proof.
  induction a as [|x a IH]; intros F; cbn [upto]; [reflexivity|].
  apply free_cons in F. destruct F as [N F]. destruct (Ascii.eqb x d) eqn:E.
  - apply eqb_spec' in E. contradiction.
  - rewrite IH by exact F. reflexivity.
Qed.
Lemma getline_found d a r : free d a -> getline d (a ++ d :: r) = Some (a, r).
Proof.
  intros F. unfold getline. rewrite upto_found by exact F. destruct a; reflexivity.
Qed.
Lemma getline_end d a : free d a -> a <> [] -> getline d a = Some (a, []).
Proof. intros F N. unfold getline. rewrite upto_none by exact F. destruct a; [contradiction|reflexivity]. Qed.

Definition kept (fs : list text) : list text := match last fs [] with [] => removelast fs | _ => fs end.
Lemma read_items_nil n : read_items n [] = [].
Proof. destruct n; reflexivity. Qed.
Lemma read_items_join fs : fs <> [] -> Forall (free comma) fs ->
  forall n, length (join comma fs) <= n -> read_items n (join comma fs) = map trim (kept fs).
Proof.
  induction fs as [|f r IH]; intros N F n Hn; [contradiction|].
  apply Forall_cons_iff in F. destruct F as [F1 F2].
  destruct r as [|g r].
  - cbn [join] in *. unfold kept. cbn [last removelast].
    destruct f as [|a f]; [apply read_items_nil|].
    destruct n as [|n]; [cbn [length] in Hn; lia|]. cbn [read_items].
    rewrite getline_end by (auto; discriminate). rewrite read_items_nil, trimStr_trim. reflexivity.
  - change (join comma (f :: g :: r)) with (f ++ comma :: join comma (g :: r)) in *.
    rewrite app_length in Hn. cbn [length] in Hn.
    destruct n as [|n]; [lia|]. cbn [read_items]. rewrite getline_found by exact F1.
    rewrite IH by (auto; try discriminate; lia). rewrite trimStr_trim.
    unfold kept. change (last (f :: g :: r) []) with (last (g :: r) []).
    change (removelast (f :: g :: r)) with (f :: removelast (g :: r)).
    destruct (last (g :: r) []); reflexivity.
Qed.

Lemma read_rows_nil n : read_rows n [] = [].
Proof. destruct n; reflexivity. Qed.
Lemma read_rows_file lines s : file_of lines s ->
  forall n, length s <= n -> read_rows n s = map (fun l => read_items (length l) l) lines.
Proof.
  intros [F H].
  assert (G : forall ls tl, Forall (free nl) ls -> forall n, length (concat (map (fun l => l ++ [nl]) ls) ++ tl) <= n ->
            exists n', length tl <= n' /\ read_rows n (concat (map (fun l => l ++ [nl]) ls) ++ tl) =
              map (fun l => read_items (length l) l) ls ++ read_rows n' tl).
  { induction ls as [|l ls IH]; intros tl Fl n Hn.
    - exists n. split; [exact Hn|reflexivity].
    - apply Forall_cons_iff in Fl. destruct Fl as [F1 F2]. cbn [map concat] in *.
      rewrite <- !app_assoc in *. cbn [app] in *.
      rewrite app_length in Hn. cbn [length] in Hn.
      destruct n as [|n]; [lia|]. cbn [read_rows]. rewrite getline_found by exact F1.
      destruct (IH tl F2 n) as [n' [L E]]; [lia|]. exists n'. split; [exact L|]. rewrite E. reflexivity. }
  destruct H as [->|[ls [l [-> [Nl ->]]]]]; intros n Hn.
  - destruct (G lines [] F n) as [n' [_ E]]; [rewrite app_nil_r; exact Hn|].
    rewrite app_nil_r in E. rewrite E, read_rows_nil, app_nil_r. reflexivity.
  - apply Forall_app in F. destruct F as [F1 F2]. apply Forall_cons_iff in F2. destruct F2 as [F2 _].
    destruct (G ls l F1 n Hn) as [n' [L E]]. rewrite E, map_app. f_equal.
    destruct n' as [|n']; [destruct l; [contradiction|cbn [length] in L; lia]|].
    cbn [read_rows]. rewrite getline_end by auto. rewrite read_rows_nil. reflexivity.
Qed.

(** * The grid *)
Lemma kept_count fs : length (kept fs) = count fs.
Proof.
  unfold kept, count. destruct (last fs []); [|reflexivity].
  destruct fs as [|f r]; [reflexivity|].
  assert (H := @app_removelast_last text (f :: r) [] ltac:(discriminate)).
  apply (f_equal (@length _)) in H. rewrite app_length in H. simpl length in H at 2 3. simpl length. simpl in H. lia.
Qed.
Lemma kept_nth fs x : nth x (kept fs) [] = nth x fs [].
Proof.
  unfold kept. destruct (last fs []) eqn:E; [|reflexivity].
  destruct fs as [|f r]; [reflexivity|].
  assert (H := @app_removelast_last text (f :: r) [] ltac:(discriminate)). rewrite E in H.
  set (m := removelast (f :: r)) in *. rewrite H.
  destruct (le_lt_dec (length m) x).
  - rewrite nth_overflow by exact l. rewrite app_nth2 by exact l. destruct (x - length m) as [|[|k]]; reflexivity.
  - rewrite app_nth1 by exact l. reflexivity.
Qed.

Lemma columns_ge rows fs : In fs rows -> count fs <= columns rows.
Proof.
  unfold columns. induction rows as [|r rows IH]; intros H; [destruct H|]. cbn [map fold_right].
  destruct H as [->|H]; [lia|]. apply IH in H. lia.
Qed.
Lemma columns_attained rows : rows <> [] -> exists fs, In fs rows /\ count fs = columns rows.
Proof.
  unfold columns. induction rows as [|r rows IH]; intros N; [contradiction|]. cbn [map fold_right].
  destruct rows as [|r2 rows].
  - exists r. split; [left; reflexivity|]. cbn [map fold_right]. lia.
  - destruct IH as [fs [H E]]; [discriminate|]. destruct (le_lt_dec (count r) (count fs)).
    + exists fs. split; [right; exact H|]. lia.
    + exists r. split; [left; reflexivity|]. lia.
Qed.
Lemma fold_max rows k : fold_left (fun acc (row : list text) => Nat.max acc (length row)) (map (fun fs => map trim (kept fs)) rows) k
  = Nat.max k (columns rows).
Proof.
  unfold columns. revert k. induction rows as [|r rows IH]; intros k; cbn [map fold_left fold_right]; [lia|].
  rewrite IH, map_length, kept_count. lia.
Qed.

Definition grid_row (w : nat) (fs : list text) : list text := map (field fs) (seq 0 w).

Lemma row_exact fs w : count fs = w -> map trim (kept fs) = grid_row w fs.
Proof.
  intros <-. apply nth_ext with (d := trim []) (d' := field fs 0).
  - unfold grid_row. rewrite !map_length, seq_length, kept_count. reflexivity.
  - intros n Hn. rewrite map_length, kept_count in Hn. unfold grid_row. rewrite !map_nth, seq_nth by exact Hn.
    unfold field. rewrite kept_nth. reflexivity.
Qed.
Lemma row_short fs w : count fs + 1 = w -> map trim (kept fs) ++ [[]] = grid_row w fs.
Proof.
  intros <-. unfold grid_row. rewrite seq_app, map_app. fold (grid_row (count fs) fs). rewrite <- (row_exact fs) by reflexivity.
  f_equal. cbn [seq map Nat.add]. f_equal. unfold field. rewrite <- kept_nth, nth_overflow by (rewrite kept_count; lia). reflexivity.
Qed.

Lemma pad_row_ok w fs : count fs <= w -> w <= count fs + 1 -> pad_row w (map trim (kept fs)) = Ok (grid_row w fs).
Proof.
  intros H1 H2. unfold pad_row. rewrite map_length, kept_count.
  destruct (Nat.eqb_spec w 0) as [E|E]; cbn [negb andb].
  - destruct (Nat.ltb_spec (count fs) w); [lia|]. rewrite row_exact with (w := w) by lia. reflexivity.
  - destruct (Nat.eqb_spec (count fs) (w - 1)).
    + rewrite row_short with (w := w) by lia. reflexivity.
    + destruct (Nat.ltb_spec (count fs) w); [lia|]. rewrite row_exact with (w := w) by lia. reflexivity.
Qed.
Lemma pad_rows_ok w rows : (forall fs, In fs rows -> count fs <= w /\ w <= count fs + 1) ->
  pad_rows w (map (fun fs => map trim (kept fs)) rows) = Ok (map (grid_row w) rows).
Proof.
  induction rows as [|fs rows IH]; intros H; [reflexivity|]. cbn [map pad_rows].
  destruct (H fs (or_introl eq_refl)). rewrite pad_row_ok by auto. cbn [bind].
  rewrite IH by (intros f Hf; apply H; right; exact Hf). reflexivity.
Qed.
Lemma pad_rows_bad w rows fs : In fs rows -> count fs + 1 < w ->
  pad_rows w (map (fun fs => map trim (kept fs)) rows) = Thrown.
Proof.
  induction rows as [|f rows IH]; intros H Hw; [destruct H|]. cbn [map pad_rows].
  assert (P : forall r, (exists r', pad_row w r = Ok r') \/ pad_row w r = Thrown).
  { intros r. unfold pad_row. destruct (_ && _); eauto. destruct (Nat.ltb _ _); eauto. }
  destruct H as [->|H].
  - replace (pad_row w (map trim (kept fs))) with (@Thrown (list text)); [reflexivity|].
    unfold pad_row. rewrite map_length, kept_count.
    destruct (Nat.eqb_spec w 0); [lia|]. cbn [negb andb].
    destruct (Nat.eqb_spec (count fs) (w - 1)); [lia|]. destruct (Nat.ltb_spec (count fs) w); [reflexivity|lia].
  - rewrite IH by auto. destruct (P (map trim (kept f))) as [[r' ->]| ->]; reflexivity.
Qed.

Definition opened (rows : list (list text)) (name : text) : reader :=
  Reader (map (grid_row (columns rows)) rows) (-2) (-1) false [] [] (dir_part name).

Lemma open_rows fs name s rows : fs name = Some s -> layout_text rows s -> rows <> [] ->
  open_layout fs name =
    match pad_rows (columns rows) (map (fun fs => map trim (kept fs)) rows) with
    | Ok g => Ok (Reader g (-2) (-1) false [] [] (dir_part name))
    | Thrown => Thrown
    | Undef => Undef
    end.
Proof.
  intros E [F L] N. unfold open_layout. rewrite E, path_eq.
  rewrite (read_rows_file _ s L) by lia. rewrite map_map.
  rewrite (map_ext_in _ (fun fs => map trim (kept fs))).
  2:{ intros a Ha. rewrite Forall_forall in F. destruct (F a Ha). apply read_items_join; auto. }
  destruct rows as [|f rows]; [contradiction|]. cbn [map].
  change (map trim (kept f) :: map (fun fs0 => map trim (kept fs0)) rows) with (map (fun fs0 => map trim (kept fs0)) (f :: rows)).
  rewrite fold_max, map_length, kept_count.
  rewrite Nat.max_r by (apply columns_ge; left; reflexivity).
  destruct (pad_rows (columns (f :: rows)) (map (fun fs0 => map trim (kept fs0)) (f :: rows))); reflexivity.
Qed.

Lemma open_ok fs name s rows : fs name = Some s -> layout_text rows s -> rows <> [] ->
  (forall r, In r rows -> columns rows <= count r + 1) -> open_layout fs name = Ok (opened rows name).
Proof.
  intros E L N H. rewrite (open_rows fs name s rows E L N).
  rewrite pad_rows_ok; [reflexivity|]. intros r Hr. split; [apply columns_ge; exact Hr|apply H; exact Hr].
Qed.
Lemma open_bad fs name s rows r : fs name = Some s -> layout_text rows s -> In r rows ->
  count r + 1 < columns rows -> open_layout fs name = Thrown.
Proof.
  intros E L Hr H. rewrite (open_rows fs name s rows E L) by (intros ->; destruct Hr).
  rewrite (pad_rows_bad _ rows r Hr H). reflexivity.
Qed.

(** * The generator *)
Section gen.
  Variables (name : nat -> nat -> text) (w h : nat) (dir : text).
  Hypothesis (Hw : 0 < w) (Hh : 0 < h).
  Let G : list (list text) := map (fun y => map (name y) (seq 0 w)) (seq 0 h).

  Lemma G_row y : y < h -> rd G (Z.of_nat y) = Ok (map (name y) (seq 0 w)).
  Proof.
    intros H. apply rd_Ok. unfold ix. destruct (Z.ltb_spec (Z.of_nat y) 0); [lia|].
    rewrite Nat2Z.id. unfold G. rewrite nth_error_map, nth_error_nth' with (d := 0) by (rewrite seq_length; exact H).
    rewrite seq_nth by exact H. reflexivity.
  Qed.
  Lemma R_cell y x : x < w -> rd (map (name y) (seq 0 w)) (Z.of_nat x) = Ok (name y x).
  Proof.
    intros H. apply rd_Ok. unfold ix. destruct (Z.ltb_spec (Z.of_nat x) 0); [lia|].
    rewrite Nat2Z.id. rewrite nth_error_map, nth_error_nth' with (d := 0) by (rewrite seq_length; exact H).
    rewrite seq_nth by exact H. reflexivity.
  Qed.
  Lemma G_len : length G = h.
  Proof. unfold G. rewrite map_length, seq_length. reflexivity. Qed.

  Definition remaining (y x : nat) : list entry :=
    map (entry_at dir name y) (seq x (w - x)) ++ flat_map (fun y => map (entry_at dir name y) (seq 0 w)) (seq (y + 1) (h - y - 1)).

  Lemma row_head {B} (f : nat -> B) : map f (seq 0 w) = f 0 :: map f (seq 1 (w - 1)).
  Proof. destruct w; [lia|]. cbn [seq map]. rewrite Nat.sub_succ, Nat.sub_0_r. reflexivity. Qed.
  Lemma current_entry y x nr f b : b = GetBaseName (name y x) -> f = name y x -> nr = Nat.eqb x 0 ->
    current (Reader G (Z.of_nat x) (Z.of_nat y) nr f b dir) = entry_at dir name y x.
  Proof.
    intros -> -> ->. unfold current, entry_at. cbn [new_row filename basename rpath gridx gridy].
    destruct (name y x); reflexivity.
  Qed.

  Lemma read_from : forall n y x nr f b, 1 <= x <= w -> y < h -> (w - x) + (h - 1 - y) * w < n ->
    read_all n (Reader G (Z.of_nat x - 1) (Z.of_nat y) nr f b dir) = Some (Ok (remaining y x)).
  Proof.
    induction n as [|n IH]; intros y x nr f b Hx Hy Hn; [apply Nat.nlt_0_r in Hn; destruct Hn|].
    cbn [read_all]. unfold next. cbn [gridx gridy fgrid filename basename rpath].
    change 0%Z with (Z.of_nat 0). rewrite (G_row 0) by lia. cbn [bind]. rewrite map_length, seq_length, G_len.
    replace (Z.of_nat x - 1 + 1)%Z with (Z.of_nat x) by lia.
    destruct (Z.eqb_spec (Z.of_nat x) (-1)); [lia|]. cbn [orb].
    destruct (Z.eqb_spec (Z.of_nat x) (Z.of_nat w)) as [E|E].
    - assert (x = w) by lia. subst x. cbn [andb].
      destruct (Z.eqb_spec (Z.of_nat y + 1) (Z.of_nat h)).
      + assert (y + 1 = h) by lia. unfold remaining. rewrite Nat.sub_diag. replace (h - y - 1) with 0 by lia. reflexivity.
      + replace (Z.of_nat y + 1)%Z with (Z.of_nat (y + 1)) by lia.
        rewrite G_row by lia. cbn [bind]. rewrite R_cell by lia. cbn [bind].
        change (Z.of_nat 0) with (Z.of_nat 1 - 1)%Z.
        rewrite IH by nia. cbn [bind].
        change (Z.of_nat 1 - 1)%Z with (Z.of_nat 0). rewrite current_entry by reflexivity.
        do 2 f_equal. unfold remaining. rewrite Nat.sub_diag. cbn [seq map app].
        replace (h - y - 1) with (S (h - (y + 1) - 1)) by lia. cbn [seq flat_map].
        rewrite (row_head (entry_at dir name (y + 1))). cbn [app].
        rewrite (Nat.add_comm (y + 1) 1). reflexivity.
    - cbn [andb]. rewrite G_row by lia. cbn [bind]. rewrite R_cell by lia. cbn [bind].
      replace (Z.of_nat x) with (Z.of_nat (x + 1) - 1)%Z at 1 by lia.
      rewrite IH by lia. cbn [bind].
      rewrite current_entry; [|reflexivity|reflexivity|destruct (Nat.eqb_spec x 0); [lia|reflexivity]].
      do 2 f_equal. unfold remaining. replace (w - x) with (S (w - (x + 1))) by lia. cbn [seq map app].
      rewrite (Nat.add_comm x 1). reflexivity.
  Qed.

  Lemma read_start n f b : w * h < n -> read_all n (Reader G (-2) (-1) false f b dir) = Some (Ok (entries dir name w h)).
  Proof.
    intros Hn. destruct n as [|n]; [apply Nat.nlt_0_r in Hn; destruct Hn|]. cbn [read_all]. unfold next. cbn [gridx gridy fgrid filename basename rpath].
    change 0%Z with (Z.of_nat 0). rewrite (G_row 0) by lia. cbn [bind]. rewrite map_length, seq_length, G_len.
    change (-2 + 1)%Z with (-1)%Z. cbn [Z.eqb Pos.eqb orb andb]. change (-1 + 1)%Z with (Z.of_nat 0).
    destruct (Z.eqb_spec (Z.of_nat 0) (Z.of_nat h)); [lia|].
    rewrite G_row by lia. cbn [bind]. rewrite R_cell by lia. cbn [bind].
    change (Z.of_nat 0) with (Z.of_nat 1 - 1)%Z at 1.
    rewrite read_from by nia. cbn [bind].
    rewrite current_entry by reflexivity. do 2 f_equal.
    unfold remaining, entries. replace h with (S (h - 0 - 1)) at 2 by lia. cbn [seq flat_map].
    rewrite (row_head (entry_at dir name 0)). reflexivity.
  Qed.
End gen.

Lemma opened_grid rows w : map (grid_row w) rows =
  map (fun y => map ((fun y x => field (nth y rows []) x) y) (seq 0 w)) (seq 0 (length rows)).
Proof.
  unfold grid_row. apply nth_ext with (d := map (field []) (seq 0 w)) (d' := map (field (nth 0 rows [])) (seq 0 w)).
  - rewrite !map_length, seq_length. reflexivity.
  - intros n Hn. rewrite map_length in Hn.
    rewrite (map_nth (fun fs => map (field fs) (seq 0 w))).
    rewrite (map_nth (fun y => map (field (nth y rows [])) (seq 0 w))), seq_nth by exact Hn. reflexivity.
Qed.

Lemma read_layout rows name n : rows <> [] -> 0 < columns rows -> columns rows * length rows < n ->
  read_all n (opened rows name) =
    Some (Ok (entries (dir_part name) (fun y x => field (nth y rows []) x) (columns rows) (length rows))).
Proof.
  intros N W Hn. unfold opened. rewrite opened_grid. apply read_start; auto.
  destruct rows; [contradiction|cbn [length]; lia].
Qed.

Lemma next_no_columns rows name : rows <> [] -> columns rows = 0 -> next (opened rows name) = Undef.
Proof.
  intros N W. unfold next, opened. cbn [fgrid gridx gridy]. rewrite W.
  destruct rows as [|r rows]; [contradiction|]. cbn [map].
  change (rd (grid_row 0 r :: map (grid_row 0) rows) 0) with
    (rd (map (grid_row 0) (r :: rows)) 0).
  assert (E : rd (map (grid_row 0) (r :: rows)) 0 = Ok []) by (apply rd_Ok; reflexivity).
  rewrite E. cbn [bind length]. change (-2 + 1)%Z with (-1)%Z. cbn [Z.eqb Pos.eqb orb]. change (-1 + 1)%Z with 0%Z.
  rewrite map_length. destruct (Z.eqb_spec 0 (Z.of_nat (length (r :: rows)))); [cbn [length] in *; lia|].
  cbn [andb]. change (grid_row 0 r :: map (grid_row 0) rows) with (map (grid_row 0) (r :: rows)). rewrite E. reflexivity.
Qed.

Lemma next_after_end r r' : next r = Ok (false, r') -> next r' = Undef.
Proof.
  unfold next at 1. destruct (rd (fgrid r) 0) as [front| |] eqn:E; cbn [bind]; try discriminate.
  set (wrap := ((gridx r + 1 =? -1) || (gridx r + 1 =? Z.of_nat (length front)))%Z).
  destruct wrap eqn:Ew; cbn [andb].
  - destruct (Z.eqb_spec (gridy r + 1) (Z.of_nat (length (fgrid r)))) as [H|H].
    + intros [= <-]. unfold next. cbn [fgrid gridx gridy]. rewrite E. cbn [bind].
      change (0 + 1)%Z with 1%Z. destruct (Z.eqb_spec 1 (-1)); [lia|]. cbn [orb].
      destruct (Z.eqb_spec 1 (Z.of_nat (length front))); cbn [andb].
      * destruct (Z.eqb_spec (gridy r + 1 + 1) (Z.of_nat (length (fgrid r)))); [lia|].
        rewrite rd_out by lia. reflexivity.
      * rewrite rd_out by lia. reflexivity.
    + destruct (rd (fgrid r) (gridy r + 1)); cbn [bind]; try discriminate.
      destruct (rd a 0); cbn [bind]; discriminate.
  - destruct (rd (fgrid r) (gridy r)); cbn [bind]; try discriminate.
    destruct (rd a (gridx r + 1)); cbn [bind]; discriminate.
Qed.

(** * Writing *)
Definition row_text (r : list text) : text := join comma (map file_part r).

Lemma add_entries r : forall w, (0 < wx w)%Z ->
  fold_left (fun w f => addEntry f w) r w =
  Writer (wx w + Z.of_nat (length r)) (wy w) (wpath w) (wfile w)
    (wout w ++ concat (map (fun f => comma :: file_part f) r)).
Proof.
  induction r as [|f r IH]; intros w Hw.
  - cbn [fold_left length map concat]. rewrite app_nil_r, Z.add_0_r. destruct w; reflexivity.
  - cbn [fold_left]. rewrite IH; unfold addEntry; cbn [wx wy wpath wfile wout]; [|lia].
    rewrite strip_eq. destruct (Z.gtb_spec (wx w) 0); [|lia].
    cbn [length map concat]. f_equal; [lia|]. rewrite <- !app_assoc. reflexivity.
Qed.
Lemma join_concat f r : join comma (map file_part (f :: r)) = file_part f ++ concat (map (fun f => comma :: file_part f) r).
Proof.
  revert f; induction r as [|g r IH]; intros f.
  - cbn [map join concat]. rewrite app_nil_r. reflexivity.
  - change (join comma (map file_part (f :: g :: r))) with (file_part f ++ comma :: join comma (map file_part (g :: r))).
    rewrite IH. reflexivity.
Qed.
Lemma add_row r w : r <> [] -> wx w = 0%Z ->
  fold_left (fun w f => addEntry f w) r w =
  Writer (Z.of_nat (length r)) (wy w) (wpath w) (wfile w) (wout w ++ row_text r).
Proof.
  intros N E. destruct r as [|f r]; [contradiction|]. cbn [fold_left]. rewrite add_entries.
  - unfold addEntry. cbn [wx wy wpath wfile wout]. rewrite E, strip_eq. cbn [Z.gtb Z.compare app].
    unfold row_text. rewrite join_concat, <- app_assoc. f_equal. cbn [length]. lia.
  - unfold addEntry. cbn [wx]. lia.
Qed.
Lemma add_rows rows : Forall (fun r => r <> []) rows -> forall w, (wx w > 0)%Z ->
  exists x y, (x > 0)%Z /\ fold_left (fun w r => fold_left (fun w f => addEntry f w) r (addRow w)) rows w =
  Writer x y (wpath w) (wfile w) (wout w ++ concat (map (fun r => nl :: row_text r) rows)).
Proof.
  induction rows as [|r rows IH]; intros F w Hw.
  - exists (wx w), (wy w). split; [exact Hw|]. cbn [fold_left map concat]. rewrite app_nil_r. destruct w; reflexivity.
  - apply Forall_cons_iff in F. destruct F as [F1 F2]. cbn [fold_left].
    assert (A : addRow w = Writer 0 (wy w + 1) (wpath w) (wfile w) (wout w ++ [nl])).
    { unfold addRow. destruct (Z.eqb_spec (wx w) 0); [lia|reflexivity]. }
    rewrite A. rewrite add_row by auto. cbn [wy wpath wfile wout].
    destruct (IH F2 (Writer (Z.of_nat (length r)) (wy w + 1) (wpath w) (wfile w) ((wout w ++ [nl]) ++ row_text r))) as [x [y [Hx E]]].
    { destruct r; [contradiction|]. cbn [wx length]. lia. }
    exists x, y. split; [exact Hx|]. rewrite E. cbn [wpath wfile wout map concat].
    rewrite <- !app_assoc. reflexivity.
Qed.
Lemma shift_nl rows r : (row_text r ++ concat (map (fun r => nl :: row_text r) rows)) ++ [nl] =
  concat (map (fun l => l ++ [nl]) (map row_text (r :: rows))).
Proof.
  revert r; induction rows as [|q rows IH]; intros r; cbn [map concat].
  - rewrite !app_nil_r. reflexivity.
  - rewrite <- app_assoc. cbn [app]. rewrite IH. cbn [map concat]. rewrite <- !app_assoc. reflexivity.
Qed.
Definition layout_name (n : text) : text := wfile (open_writer n).
Lemma write_rows_eq name rows : rows <> [] -> Forall (fun r => r <> []) rows ->
  write_rows name rows = (layout_name name, concat (map (fun l => l ++ [nl]) (map row_text rows))).
Proof.
  intros N F. destruct rows as [|r rows]; [contradiction|]. apply Forall_cons_iff in F. destruct F as [F1 F2].
  unfold write_rows. cbn [fold_left].
  assert (A : addRow (open_writer name) = open_writer name) by reflexivity. rewrite A.
  rewrite add_row by auto.
  destruct (add_rows rows F2 (Writer (Z.of_nat (length r)) (wy (open_writer name)) (wpath (open_writer name)) (wfile (open_writer name))
              (wout (open_writer name) ++ row_text r))) as [x [y [Hx E]]].
  { destruct r; [contradiction|]. cbn [wx length]. lia. }
  rewrite E. unfold close_writer. cbn [wfile wout open_writer app]. f_equal. apply shift_nl.
Qed.

(** the text that has been written is a layout with the names' file parts as fields *)
Lemma join_free c d fs : c <> d -> Forall (free c) fs -> free c (join d fs).
Proof.
  intros N. induction fs as [|f r IH]; intros F; [intros []|].
  apply Forall_cons_iff in F. destruct F as [F1 F2]. destruct r as [|g r]; [exact F1|].
  change (join d (f :: g :: r)) with (f ++ d :: join d (g :: r)).
  apply free_app. split; auto. apply free_cons. split; auto.
Qed.
Lemma written_layout rows : Forall (fun r => r <> []) rows ->
  Forall (Forall (fun f => free comma (file_part f) /\ free nl (file_part f))) rows ->
  layout_text (map (map file_part) rows) (concat (map (fun l => l ++ [nl]) (map row_text rows))).
Proof.
  intros N F. split.
  - apply Forall_map. rewrite Forall_forall in *. intros r Hr. split.
    + specialize (N r Hr). destruct r; [contradiction|discriminate].
    + apply Forall_map. specialize (F r Hr). rewrite Forall_forall in *. intros f Hf. apply F. exact Hf.
  - split.
    + rewrite map_map. apply Forall_map. rewrite Forall_forall in *. intros r Hr.
      apply join_free; [discriminate|]. apply Forall_map. specialize (F r Hr). rewrite Forall_forall in *.
      intros f Hf. apply F. exact Hf.
    + left. rewrite !map_map. reflexivity.
Qed.

Lemma count_full (r : list text) w : length r = w -> last r [] <> [] -> count r = w.
Proof. intros H N. unfold count. destruct (last r []); [contradiction|exact H]. Qed.
Lemma count_blank (r : list text) w : length r = w -> last r [] = [] -> count r = w - 1.
Proof. intros H N. unfold count. rewrite N, H. reflexivity. Qed.
Lemma columns_full (rows : list (list text)) w : Forall (fun r : list text => length r = w) rows -> Exists (fun r => last r [] <> []) rows -> columns rows = w.
Proof.
  intros F E. apply Exists_exists in E. destruct E as [r [Hr Nr]]. rewrite Forall_forall in F.
  assert (columns rows >= w) by (rewrite <- (count_full r w (F r Hr) Nr); apply columns_ge; exact Hr).
  destruct (columns_attained rows) as [q [Hq Eq]]; [intros ->; destruct Hr|].
  assert (count q <= w). { specialize (F q Hq). cbv beta in F. unfold count. destruct (last q []); lia. } lia.
Qed.
Lemma columns_blank (rows : list (list text)) w : Forall (fun r : list text => length r = w) rows -> rows <> [] -> Forall (fun r => last r [] = []) rows -> columns rows = w - 1.
Proof.
  intros F N B. destruct (columns_attained rows N) as [q [Hq Eq]]. rewrite <- Eq.
  rewrite Forall_forall in *. apply count_blank; auto.
Qed.
Lemma columns_near (rows : list (list text)) w : Forall (fun r : list text => length r = w) rows -> forall r, In r rows -> columns rows <= count r + 1.
Proof.
  intros F r Hr. destruct (columns_attained rows) as [q [Hq Eq]]; [intros ->; destruct Hr|]. rewrite <- Eq.
  rewrite Forall_forall in F. assert (L1 := F r Hr). assert (L2 := F q Hq). cbv beta in L1, L2.
  unfold count. destruct (last q []), (last r []); lia.
Qed.
