(** C72-C75: layout files of tiled datasets. *)
From Coq Require Import Ascii String.
From Verif Require Import Base Res LayoutModel LayoutSpec LayoutProofs LayoutProofs2.
Open Scope nat_scope.

(** * C72: what a reader delivers *)
Theorem C72_reads_the_grid : forall fs name s rows fuel,
  fs name = Some s -> layout_text rows s -> rows <> [] -> columns rows > 0 ->
  (forall r, In r rows -> columns rows <= count r + 1) ->
  columns rows * length rows < fuel ->
  exists r, open_layout fs name = Ok r /\
    read_all fuel r =
      Some (Ok (entries (dir_part name) (fun y x => field (nth y rows []) x) (columns rows) (length rows))).
Proof.
  intros fs name s rows fuel E L N W H F. exists (opened rows name). split.
  - apply (open_ok fs name s rows E L N H).
  - apply read_layout; auto.
Qed.
Print Assumptions C72_reads_the_grid.

(** rejected: files that cannot be opened, and files in which some row is more than one field short *)
Theorem C72_rejects : forall fs name,
  (fs name = None -> open_layout fs name = Thrown) /\
  (forall s rows r, fs name = Some s -> layout_text rows s -> In r rows -> count r + 1 < columns rows ->
     open_layout fs name = Thrown).
Proof.
  intros fs name. split.
  - intros E. unfold open_layout. rewrite E. reflexivity.
  - intros s rows r E L Hr H. exact (open_bad fs name s rows r E L Hr H).
Qed.
Print Assumptions C72_rejects.

(** undefined behaviour: an empty file; a file in which no row has a field; and next() after it has returned false *)
Theorem C72_undefined_refuted : forall fs name,
  (fs name = Some [] -> open_layout fs name = Undef) /\
  (forall s rows, fs name = Some s -> layout_text rows s -> rows <> [] -> columns rows = 0 ->
     exists r, open_layout fs name = Ok r /\ next r = Undef) /\
  (forall r r', next r = Ok (false, r') -> next r' = Undef).
Proof.
  intros fs name. split; [|split].
  - intros E. unfold open_layout. rewrite E. reflexivity.
  - intros s rows E L N W. exists (opened rows name). split.
    + apply (open_ok fs name s rows E L N). intros r Hr. rewrite W. lia.
    + apply next_no_columns; auto.
  - exact next_after_end.
Qed.
Print Assumptions C72_undefined_refuted.

(** every non-empty text is a layout text for some rows, so that the theorems above cover every file *)
Lemma fields_exist : forall l, exists fs, fs <> [] /\ Forall (free comma) fs /\ join comma fs = l.
Proof.
  induction l as [|a l [fs [N [F E]]]].
  - exists [[]]. split; [discriminate|]. split; [constructor; [intros []|constructor]|reflexivity].
  - destruct (ascii_dec a comma) as [->|Na].
    + exists ([] :: fs). split; [discriminate|]. split; [constructor; [intros []|exact F]|].
      destruct fs as [|f fs]; [contradiction|]. change (join comma ([] :: f :: fs)) with (comma :: join comma (f :: fs)). rewrite E. reflexivity.
    + destruct fs as [|f fs]; [contradiction|]. exists ((a :: f) :: fs). split; [discriminate|].
      apply Forall_cons_iff in F. destruct F as [F1 F2]. split; [constructor; [apply free_cons; auto|exact F2]|].
      rewrite <- E. destruct fs; reflexivity.
Qed.
Lemma lines_exist : forall s, s <> [] -> exists ls, ls <> [] /\ file_of ls s.
Proof.
  induction s as [|a s IH]; intros NE; [contradiction|].
  destruct (ascii_dec a nl) as [->|Na].
  - destruct s as [|b s].
    + exists [[]]. split; [discriminate|]. split; [constructor; [intros []|constructor]|left; reflexivity].
    + destruct IH as [ls [N [F H]]]; [discriminate|]. exists ([] :: ls). split; [discriminate|].
      split; [constructor; [intros []|exact F]|]. destruct H as [H|[ls0 [l [E [Nl H]]]]].
      * left. cbn [map concat app]. rewrite <- H. reflexivity.
      * right. exists ([] :: ls0), l. subst ls. split; [reflexivity|]. split; [exact Nl|]. cbn [map concat app]. rewrite <- H. reflexivity.
  - destruct s as [|b s].
    + exists [[a]]. split; [discriminate|]. split; [constructor; [apply free_cons; split; [exact Na|intros []]|constructor]|].
      right. exists [], [a]. split; [reflexivity|]. split; [discriminate|reflexivity].
    + destruct IH as [ls [N [F H]]]; [discriminate|]. destruct ls as [|l ls]; [contradiction|].
      apply Forall_cons_iff in F. destruct F as [F1 F2].
      exists ((a :: l) :: ls). split; [discriminate|]. split; [constructor; [apply free_cons; auto|exact F2]|].
      destruct H as [H|[ls0 [m [E [Nl H]]]]].
      * left. cbn [map concat app] in *. rewrite H. reflexivity.
      * destruct ls0 as [|l0 ls0].
        -- injection E as -> ->. right. exists [], (a :: m). split; [reflexivity|]. split; [discriminate|]. cbn [map concat app] in *. rewrite H. reflexivity.
        -- injection E as -> ->. right. exists ((a :: l0) :: ls0), m. split; [reflexivity|]. split; [exact Nl|].
           cbn [map concat app] in *. rewrite H. reflexivity.
Qed.
Theorem C72_every_text : forall s, s <> [] -> exists rows, rows <> [] /\ layout_text rows s.
Proof.
  intros s N. destruct (lines_exist s N) as [ls [NL F]].
  assert (X : exists rows, map (join comma) rows = ls /\ Forall (fun fs => fs <> [] /\ Forall (free comma) fs) rows).
  { clear. induction ls as [|l ls [rows [E G]]]; [exists []; split; [reflexivity|constructor]|].
    destruct (fields_exist l) as [fs [N [Fc J]]]. exists (fs :: rows). split; [cbn [map]; congruence|constructor; auto]. }
  destruct X as [rows [E G]]. exists rows. split; [intros ->; cbn in E; congruence|]. split; [exact G|]. rewrite E. exact F.
Qed.
Print Assumptions C72_every_text.

(** the example of the file format's description: three rows, four columns, blanks where nothing is written *)
Definition doc_rows : list (list text) :=
  [ [tx "file1.tif"; tx " file2.tif"; tx " file3.tif"; []];
    [tx "file4.tif"; tx " file5.tif"; tx " file6.tif"; tx " file7.tif"];
    [tx "         "; tx " file8.tif"; tx "          "; []] ].
Definition doc_text : text := concat (map (fun l => l ++ [nl]) (map (join comma) doc_rows)).
Definition doc_fs (f : text) : option text := if text_eqb f (tx "d/t.layout") then Some doc_text else None.
Ltac chars := let X := fresh in intros X; cbn in X; repeat (destruct X as [X|X]; [discriminate X|]); exact X.
Lemma doc_layout : layout_text doc_rows doc_text.
Proof.
  split.
  - repeat constructor; try discriminate; chars.
  - split; [|left; reflexivity]. repeat constructor; chars.
Qed.
Example C72_not_vacuous :
  (forall r, In r doc_rows -> columns doc_rows <= count r + 1) /\ columns doc_rows = 4 /\
  exists r es, open_layout doc_fs (tx "d/t.layout") = Ok r /\ read_all 13 r = Some (Ok es) /\
    map (fun e => (e_newrow e, e_fullpath e, e_basename e, e_null e)) (firstn 4 es) =
      [ (true, tx "d/file1.tif", tx "file1", false); (false, tx "d/file2.tif", tx "file2", false);
        (false, tx "d/file3.tif", tx "file3", false); (false, tx "d/", [], true) ] /\
    map e_locname (skipn 8 es) = [tx "0_2"; tx "1_2"; tx "2_2"; tx "3_2"] /\ map e_null (skipn 8 es) = [true; false; true; true].
Proof.
  split; [|split; [reflexivity|]].
  - intros r H. cbn in H. repeat (destruct H as [<-|H]; [cbn; lia|]). destruct H.
  - let v := eval vm_compute in (open_layout doc_fs (tx "d/t.layout")) in
    match v with
    | Ok ?r => exists r; let u := eval vm_compute in (read_all 13 r) in match u with Some (Ok ?e) => exists e end
    end.
    split; [vm_compute; reflexivity|]. split; [vm_compute; reflexivity|].
    split; [vm_compute; reflexivity|split; vm_compute; reflexivity].
Qed.

(** * C73: writing a layout and reading it back *)
Definition good_name (f : text) : Prop := free comma (file_part f) /\ free nl (file_part f).
Definition written (rows : list (list text)) (y x : nat) : text := trim (file_part (nth x (nth y rows []) [])).

Lemma field_written rows y x : field (nth y (map (map file_part) rows) []) x = written rows y x.
Proof.
  unfold field, written. f_equal.
  assert (E : nth y (map (map file_part) rows) [] = map file_part (nth y rows [])) by exact (map_nth (map file_part) rows [] y).
  rewrite E. exact (map_nth file_part (nth y rows []) [] x).
Qed.
Lemma entries_ext dir n1 n2 w h : (forall y x, n1 y x = n2 y x) -> entries dir n1 w h = entries dir n2 w h.
Proof.
  intros H. unfold entries. induction (seq 0 h) as [|y l IH]; [reflexivity|]. cbn [flat_map]. f_equal; [|exact IH].
  apply map_ext. intros x. unfold entry_at. rewrite H. reflexivity.
Qed.
Lemma last_map {A B} (f : A -> B) l d : last (map f l) (f d) = f (last l d).
Proof. induction l as [|a [|b l] IH]; [reflexivity|reflexivity|]. exact IH. Qed.

Lemma rows_nonempty (rows : list (list text)) (w : nat) : w > 0 -> Forall (fun r : list text => length r = w) rows ->
  Forall (fun r : list text => r <> []) rows.
Proof. intros Hw Hlen. rewrite Forall_forall in *. intros r Hr ->. specialize (Hlen [] Hr). cbn in Hlen. lia. Qed.
Lemma s_layout (rows : list (list text)) (w : nat) (name s : text) : rows <> [] -> w > 0 ->
  Forall (fun r : list text => length r = w) rows -> Forall (Forall good_name) rows ->
  write_rows name rows = (layout_name name, s) -> layout_text (map (map file_part) rows) s.
Proof.
  intros Hne Hw Hlen Hgood Hs.
  assert (E := write_rows_eq name rows Hne (rows_nonempty rows w Hw Hlen)). rewrite Hs in E. injection E as E. rewrite E.
  apply written_layout; [exact (rows_nonempty rows w Hw Hlen)|exact Hgood].
Qed.
Lemma fp_len (rows : list (list text)) (w : nat) : Forall (fun r : list text => length r = w) rows ->
  Forall (fun r : list text => length r = w) (map (map file_part) rows).
Proof. intros Hlen. apply Forall_map. rewrite Forall_forall in *. intros r Hr. rewrite map_length. apply Hlen, Hr. Qed.
Lemma fp_ne (rows : list (list text)) : rows <> [] -> map (map file_part) rows <> [].
Proof. destruct rows; [contradiction|discriminate]. Qed.

Theorem C73_round_trip : forall rows w name fs' lay s fuel,
  write_rows name rows = (lay, s) -> fs' lay = Some s ->
  rows <> [] -> w > 0 -> Forall (fun r : list text => length r = w) rows -> Forall (Forall good_name) rows ->
  Exists (fun r => file_part (last r []) <> []) rows ->
  w * length rows < fuel ->
  exists r, open_layout fs' lay = Ok r /\
    read_all fuel r = Some (Ok (entries (dir_part lay) (written rows) w (length rows))).
Proof.
  intros rows w name fs' lay s fuel Hwr Hfs N W HL HG HE F.
  assert (lay = layout_name name).
  { rewrite (write_rows_eq name rows N (rows_nonempty rows w W HL)) in Hwr. congruence. } subst lay.
  assert (L := s_layout rows w name s N W HL HG Hwr).
  assert (C : columns (map (map file_part) rows) = w).
  { apply columns_full; [exact (fp_len rows w HL)|]. apply Exists_exists in HE. destruct HE as [r [Hr Er]].
    apply Exists_exists. exists (map file_part r). split; [apply in_map; exact Hr|].
    assert (E : last (map file_part r) [] = file_part (last r [])) by apply (last_map file_part r []). intros Z; apply Er; etransitivity; [symmetry; exact E|exact Z]. }
  destruct (C72_reads_the_grid fs' (layout_name name) s (map (map file_part) rows) fuel Hfs L (fp_ne rows N)) as [r [O R]].
  - lia.
  - intros r Hr. apply (columns_near _ w (fp_len rows w HL) r Hr).
  - rewrite C, map_length. exact F.
  - exists r. split; [exact O|]. rewrite R, C, map_length. do 2 f_equal. apply entries_ext. intros y x. apply field_written.
Qed.
Print Assumptions C73_round_trip.

(** without any name in the last column the last column disappears; a single such column is not read back at all *)
Theorem C73_blank_last_column_refuted : forall rows w name fs' lay s fuel,
  write_rows name rows = (lay, s) -> fs' lay = Some s ->
  rows <> [] -> w > 0 -> Forall (fun r : list text => length r = w) rows -> Forall (Forall good_name) rows ->
  Forall (fun r => file_part (last r []) = []) rows ->
  w * length rows < fuel ->
  exists r, open_layout fs' lay = Ok r /\
    (w > 1 -> read_all fuel r = Some (Ok (entries (dir_part lay) (written rows) (w - 1) (length rows)))) /\
    (w = 1 -> next r = Undef).
Proof.
  intros rows w name fs' lay s fuel Hwr Hfs N W HL HG HE F.
  assert (lay = layout_name name).
  { rewrite (write_rows_eq name rows N (rows_nonempty rows w W HL)) in Hwr. congruence. } subst lay.
  assert (L := s_layout rows w name s N W HL HG Hwr).
  assert (C : columns (map (map file_part) rows) = w - 1).
  { apply columns_blank; [exact (fp_len rows w HL)|exact (fp_ne rows N)|]. apply Forall_map.
    rewrite Forall_forall in *. intros r Hr.
    assert (E : last (map file_part r) [] = file_part (last r [])) by apply (last_map file_part r []). etransitivity; [exact E|auto]. }
  exists (opened (map (map file_part) rows) (layout_name name)). split; [|split].
  - apply (open_ok _ _ s); auto; [exact (fp_ne rows N)|]. intros r Hr. apply (columns_near _ w (fp_len rows w HL) r Hr).
  - intros W1. rewrite read_layout; [|exact (fp_ne rows N)|lia|].
    + rewrite C, map_length. do 2 f_equal. apply entries_ext. intros y x. apply field_written.
    + rewrite C, map_length. nia.
  - intros ->. apply next_no_columns; [exact (fp_ne rows N)|]. rewrite C. reflexivity.
Qed.
Print Assumptions C73_blank_last_column_refuted.

(** names that do not begin or end with a space come back unchanged *)
Theorem C73_names_unchanged : forall rows y x,
  let f := file_part (nth x (nth y rows []) []) in
  hd_error f <> Some space -> hd_error (rev f) <> Some space -> written rows y x = f.
Proof. intros rows y x f H1 H2. unfold written. apply trim_id; assumption. Qed.
Print Assumptions C73_names_unchanged.

Example C73_not_vacuous :
  let rows := [[tx "out/a.tif"; []]; [[]; tx "out/b.tif"]] in
  Forall (Forall good_name) rows /\ Exists (fun r => file_part (last r []) <> []) rows /\
  write_rows (tx "out/t.tif") rows = (tx "out/t.layout", tx "a.tif," ++ [nl] ++ tx ",b.tif" ++ [nl]).
Proof.
  split; [|split; [|reflexivity]].
  - repeat constructor; chars.
  - right. left. discriminate.
Qed.
Example C73_blank_not_vacuous :
  let rows := [[tx "a.tif"; []]; [tx "b.tif"; []]] in
  Forall (Forall good_name) rows /\ Forall (fun r => file_part (last r []) = []) rows /\
  write_rows (tx "t.tif") rows = (tx "t.layout", tx "a.tif," ++ [nl] ++ tx "b.tif," ++ [nl]).
Proof.
  split; [|split; [|reflexivity]].
  - repeat constructor; chars.
  - repeat constructor.
Qed.

(** * C74: file names *)
(** [b] is [f] without its extension, where the extension begins at the last period *)
Definition stem (f b : text) : Prop :=
  (exists e, f = b ++ period :: e /\ free period e) \/ (free period f /\ b = f).

Theorem C74_base_name : forall s b, stem (file_part s) b -> In period (file_part s) \/ free period (dir_part s) ->
  GetBaseName s = b.
Proof.
  intros s b [[e [E F]]|[F ->]] H.
  - exact (base_good s b e E F).
  - destruct H as [H|H]; [destruct (F H)|]. apply base_plain. rewrite <- (dir_file s). apply free_app. auto.
Qed.
Print Assumptions C74_base_name.

(** a file without an extension, in a directory with a period in its name, has the empty base name *)
Theorem C74_base_name_refuted : forall s, In period (dir_part s) -> free period (file_part s) -> GetBaseName s = [].
Proof. exact base_lost. Qed.
Print Assumptions C74_base_name_refuted.

(** the file a writer creates: the extension becomes "layout", in the same directory *)
Theorem C74_layout_name : forall n b, stem (file_part n) b ->
  (In period (file_part n) -> layout_name n = dir_part n ++ b ++ tx ".layout") /\
  (free period n -> layout_name n = n).
Proof.
  intros n b H. split.
  - destruct H as [[e [E F]]|[F _]]; intros P; [exact (layout_name_good n b e E F)|destruct (F P)].
  - apply layout_name_plain.
Qed.
Print Assumptions C74_layout_name.

(** without an extension and in a directory with a period in its name, another file is created, next to that directory *)
Theorem C74_layout_name_refuted : forall n a b, dir_part n = a ++ period :: b -> free period b -> free period (file_part n) ->
  layout_name n = a ++ tx ".layout".
Proof. exact layout_name_lost. Qed.
Print Assumptions C74_layout_name_refuted.

Example C74_not_vacuous :
  stem (file_part (tx "p.1/to/file.x.ext")) (tx "file.x") /\ In period (file_part (tx "p.1/to/file.x.ext")) /\
  In period (dir_part (tx "v1.0/tile7")) /\ free period (file_part (tx "v1.0/tile7")) /\
  GetBaseName (tx "v1.0/tile7") = [] /\ layout_name (tx "v1.0/tiles") = tx "v1.layout".
Proof.
  split; [|split; [|split; [|split; [|split; reflexivity]]]].
  - left. exists (tx "ext"). split; [reflexivity|chars].
  - vm_compute. tauto.
  - vm_compute. tauto.
  - chars.
Qed.

(** * C75: the tiled programs' output layout *)
(** where the tile in column [x] of row [y] is written, for the output name [pre]%n[post] *)
Definition output_n (pre post : text) (x y : nat) : text :=
  pre ++ (to_string (Z.of_nat x) ++ tx "_" ++ to_string (Z.of_nat y)) ++ post.

Definition table (dir : text) (name : nat -> nat -> text) (out : nat -> nat -> text) (w h : nat) : list (list tile) :=
  map (fun y => map (fun x => match name y x with
                              | [] => NullTile
                              | _ => Tile (dir ++ name y x) (out x y) (Z.of_nat x) (Z.of_nat y)
                              end) (seq 0 w)) (seq 0 h).

Lemma map_seq_nth {B} (f : nat -> B) d w n : n < w -> nth n (map f (seq 0 w)) d = f n.
Proof.
  intros H. rewrite nth_indep with (d' := f 0) by (rewrite map_length, seq_length; exact H).
  rewrite map_nth, seq_nth by exact H. reflexivity.
Qed.
Lemma entries_ext_in dir n1 n2 w h : (forall y x, y < h -> x < w -> n1 y x = n2 y x) -> entries dir n1 w h = entries dir n2 w h.
Proof.
  intros H. unfold entries.
  assert (G : forall l, (forall y, In y l -> y < h) ->
    flat_map (fun y => map (entry_at dir n1 y) (seq 0 w)) l = flat_map (fun y => map (entry_at dir n2 y) (seq 0 w)) l).
  { induction l as [|y l IH]; intros Hl; [reflexivity|]. cbn [flat_map]. f_equal.
    - apply map_ext_in. intros x Hx. apply in_seq in Hx. unfold entry_at. rewrite H; [reflexivity| |lia].
      apply Hl. left. reflexivity.
    - apply IH. intros z Hz. apply Hl. right. exact Hz. }
  apply G. intros y Hy. apply in_seq in Hy. lia.
Qed.

Theorem C75_output_layout : forall fs input s rows pre post fuel lay txt t,
  let w := columns rows in let h := length rows in
  let name := fun y x => field (nth y rows []) x in
  fs input = Some s -> layout_text rows s -> rows <> [] -> w > 0 ->
  (forall r, In r rows -> w <= count r + 1) -> w * h < fuel ->
  free pct pre -> free pct post -> free slash post -> In period (file_part pre ++ post) ->
  free comma (file_part pre ++ post) -> free nl (file_part pre ++ post) ->
  hd_error (file_part pre) <> Some space -> hd_error (rev post) <> Some space ->
  layout_name (pre ++ tx "layout" ++ post) <> input ->
  (exists y, y < h /\ name y (w - 1) <> []) ->
  prepare fs fuel input (pre ++ pct :: "n"%char :: post) = Some (Ok (t, (lay, txt))) ->
  (* the tile table: each tile with its own input and output file and position *)
  t = table (dir_part input) name (output_n pre post) w h /\
  (* the new layout is in the directory of the tiles, and reading it gives the same arrangement of the new files *)
  (forall fs', fs' lay = Some txt ->
    exists r es, open_layout fs' lay = Ok r /\ read_all fuel r = Some (Ok es) /\
      es = entries (dir_part lay) (fun y x => match name y x with [] => [] | _ => file_part (output_n pre post x y) end) w h /\
      forall y x, y < h -> x < w -> name y x <> [] -> dir_part lay ++ file_part (output_n pre post x y) = output_n pre post x y).
Proof.
  intros fs input s rows pre post fuel lay txt t w h name E L N W Hn F Fp Fq Fs Hper Fc Fnl Hsp1 Hsp2 Hdiff Hlast HP.
  assert (PO := prepare_ok fs input s rows (pre ++ pct :: "n"%char :: post) (pre ++ tx "layout" ++ post)
    (fun y x => output_n pre post x y) fuel E L N W Hn (subst_n pre post _ _ Fp Fq) Hdiff
    (fun y x => subst_n pre post _ _ Fp Fq) F).
  rewrite PO in HP.
  apply (f_equal (fun o => match o with Some (Ok p) => p | _ => (t, (lay, txt)) end)) in HP. cbv beta iota in HP.
  assert (HT := f_equal fst HP). assert (HW := f_equal snd HP). cbn [fst snd] in HT, HW. clear HP.
  assert (Ofile : forall x y, file_part (output_n pre post x y) = file_part pre ++ loc (Z.of_nat x) (Z.of_nat y) ++ post /\
                              dir_part (output_n pre post x y) = dir_part pre).
  { intros x y. unfold output_n. apply file_part_join. apply free_app. split; [|exact Fs].
    apply (loc_free slash (Z.of_nat x) (Z.of_nat y)). reflexivity. }
  apply free_app in Fc. destruct Fc as [Fc1 Fc2]. apply free_app in Fnl. destruct Fnl as [Fn1 Fn2].
  assert (One : forall x y, file_part (output_n pre post x y) <> []).
  { intros x y H. rewrite (proj1 (Ofile x y)) in H. apply app_eq_nil in H. destruct H as [_ H].
    apply app_eq_nil in H. destruct H as [H _]. exact (loc_nonempty _ _ H). }
  split.
  { rewrite <- HT. reflexivity. }
  intros fs' Hfs.
  set (R := map (fun y => map (a_name (names_of rows) (fun y x => output_n pre post x y) y) (seq 0 (columns rows))) (seq 0 (length rows))) in *.
  assert (Rlen : Forall (fun r : list text => length r = w) R).
  { apply Forall_map. apply Forall_forall. intros y _. rewrite map_length, seq_length. reflexivity. }
  assert (RN : length R = h) by (unfold R; rewrite map_length, seq_length; reflexivity).
  assert (Hh : h > 0) by (unfold h; destruct rows; [contradiction|cbn [length]; lia]).
  assert (Rnth : forall y x, y < h -> x < w -> nth x (nth y R []) [] = a_name name (fun y x => output_n pre post x y) y x).
  { intros y x Hy Hx. unfold R. rewrite map_seq_nth by exact Hy. rewrite map_seq_nth by exact Hx. reflexivity. }
  assert (AN : forall y x, file_part (a_name name (fun y x => output_n pre post x y) y x) =
     match name y x with [] => [] | _ => file_part (output_n pre post x y) end).
  { intros y x. unfold a_name. destruct (name y x); reflexivity. }
  destruct (C73_round_trip R w (pre ++ tx "layout" ++ post) fs' lay txt fuel HW Hfs) as [r [O RA]].
  - intros X. rewrite X in RN. cbn in RN. lia.
  - exact W.
  - exact Rlen.
  - apply Forall_map. apply Forall_forall. intros y _. apply Forall_map. apply Forall_forall. intros x _.
    unfold good_name. change (names_of rows) with name. rewrite AN. destruct (name y x); [split; intros []|].
    rewrite (proj1 (Ofile x y)). split; apply free_app; (split; [assumption|]); apply free_app; (split; [|assumption]);
      apply loc_free; reflexivity.
  - destruct Hlast as [y [Hy Hl]]. apply Exists_exists. exists (nth y R []). split.
    + apply nth_In. rewrite RN. exact Hy.
    + assert (Ly : length (nth y R []) = w).
      { rewrite Forall_forall in Rlen. apply Rlen. apply nth_In. rewrite RN. exact Hy. }
      assert (X : last (nth y R []) [] = nth (w - 1) (nth y R []) []).
      { rewrite <- Ly. generalize (nth y R []). clear. induction l as [|a [|b l] IH]; [reflexivity|reflexivity|].
        change (last (a :: b :: l) []) with (last (b :: l) []). rewrite IH. cbn [length]. rewrite !Nat.sub_succ, !Nat.sub_0_r. reflexivity. }
      assert (Y : last (nth y R []) [] = a_name name (fun y x => output_n pre post x y) y (w - 1)).
      { etransitivity; [exact X|]. apply Rnth; lia. }
      intros Z. assert (Z2 : file_part (a_name name (fun y x => output_n pre post x y) y (w - 1)) = []).
      { etransitivity; [|exact Z]. symmetry. exact (f_equal file_part Y). }
      rewrite AN in Z2. destruct (name y (w - 1)); [contradiction|]. exact (One _ _ Z2).
  - rewrite RN. exact F.
  - exists r. eexists. split; [exact O|]. split; [exact RA|]. rewrite RN. split.
    + apply entries_ext_in. intros y x Hy Hx. unfold written. rewrite Rnth, AN by assumption.
      destruct (name y x); [reflexivity|]. rewrite (proj1 (Ofile x y)). set (l := loc (Z.of_nat x) (Z.of_nat y)).
      assert (Ls : free space l) by (apply loc_free; reflexivity).
      assert (Ln : l <> []) by apply loc_nonempty.
      apply trim_id.
      * destruct (file_part pre) as [|c p]; [|exact Hsp1]. cbn [app]. destruct l as [|c p]; [contradiction|].
        cbn [app hd_error]. intros [= ->]. apply Ls. left. reflexivity.
      * rewrite !rev_app_distr. destruct (rev post) as [|c p]; [|exact Hsp2]. cbn [app].
        destruct (rev l) as [|c p] eqn:El.
        { exfalso. apply Ln. rewrite <- (rev_involutive l), El. reflexivity. }
        cbn [app hd_error]. intros [= ->]. apply Ls. apply in_rev. rewrite El. left. reflexivity.
    + intros y x Hy Hx _.
      assert (D : dir_part lay = dir_part pre).
      { assert (lay = layout_name (pre ++ tx "layout" ++ post)).
        { unfold write_rows, close_writer in HW. injection HW as HW _. rewrite <- HW. unfold layout_name.
          assert (G : forall l w, wfile (fold_left (fun w f => addEntry f w) l w) = wfile w).
          { induction l as [|f l IH]; intros w'; [reflexivity|]. cbn [fold_left]. rewrite IH. reflexivity. }
          assert (G2 : forall l w, wfile (fold_left (fun w r => fold_left (fun w f => addEntry f w) r (addRow w)) l w) = wfile w).
          { induction l as [|f l IH]; intros w'; [reflexivity|]. cbn [fold_left]. rewrite IH, G. unfold addRow.
            destruct (_ && _); reflexivity. }
          apply G2. }
        subst lay.
        assert (Fl : free slash (tx "layout" ++ post)) by (apply free_app; split; [chars|exact Fs]).
        destruct (file_part_join pre _ Fl) as [X1 X2].
        rewrite layout_name_dir; [exact X2|]. rewrite X1. apply in_app_or in Hper. apply in_or_app.
        destruct Hper as [Hp|Hp]; [left; exact Hp|right; apply in_or_app; right; exact Hp]. }
      rewrite D, <- (proj2 (Ofile x y)). apply dir_file.
Qed.
Print Assumptions C75_output_layout.

(** the preparation does succeed under those hypotheses on the input *)
Theorem C75_succeeds : forall fs input s rows pre post fuel,
  fs input = Some s -> layout_text rows s -> rows <> [] -> columns rows > 0 ->
  (forall r, In r rows -> columns rows <= count r + 1) -> columns rows * length rows < fuel ->
  free pct pre -> free pct post -> layout_name (pre ++ tx "layout" ++ post) <> input ->
  exists t lay txt, prepare fs fuel input (pre ++ pct :: "n"%char :: post) = Some (Ok (t, (lay, txt))).
Proof.
  intros fs input s rows pre post fuel E L N W Hn F Fp Fq Hdiff.
  rewrite (prepare_ok fs input s rows (pre ++ pct :: "n"%char :: post) (pre ++ tx "layout" ++ post)
    (fun y x => output_n pre post x y) fuel E L N W Hn (subst_n pre post _ _ Fp Fq) Hdiff
    (fun y x => subst_n pre post _ _ Fp Fq) F).
  unfold write_rows, close_writer. eauto.
Qed.
Print Assumptions C75_succeeds.

(** with %n no two tiles share an output file *)
Theorem C75_outputs_distinct : forall pre post x y x' y', output_n pre post x y = output_n pre post x' y' -> x = x' /\ y = y'.
Proof.
  intros pre post x y x' y' H. unfold output_n in H. apply app_inv_head in H. apply app_inv_tail in H.
  apply loc_inj in H. lia.
Qed.
Print Assumptions C75_outputs_distinct.

Ltac evaluate e k := let v := eval vm_compute in e in match v with Some (Ok (?t, (?l, ?x))) => k t l x end.

(** with %f tiles of the same base name share one output file: the later one overwrites the earlier one *)
Theorem C75_percent_f_refuted :
  exists fs input fuel t lay txt a b o, prepare fs fuel input (tx "out/%f.tif") = Some (Ok (t, (lay, txt))) /\
    t = [[Tile a o 0 0; Tile b o 1 0]] /\ a <> b.
Proof.
  exists (fun f => if text_eqb f (tx "in/t.layout") then Some (tx "1/x.tif,2/x.tif") else None), (tx "in/t.layout"), 5.
  evaluate (prepare (fun f => if text_eqb f (tx "in/t.layout") then Some (tx "1/x.tif,2/x.tif") else None) 5 (tx "in/t.layout") (tx "out/%f.tif"))
    ltac:(fun t l x => exists t, l, x; match t with [[Tile ?a ?o _ _; Tile ?b _ _ _]] => exists a, b, o end).
  split; [vm_compute; reflexivity|]. split; [reflexivity|discriminate].
Qed.
Print Assumptions C75_percent_f_refuted.

(** with a slash after %n the new layout names one and the same file for every tile *)
Theorem C75_subdirectories_refuted :
  exists fs input fuel t txt lay, prepare fs fuel input (tx "out/%n/flow.tif") = Some (Ok (t, (lay, txt))) /\
    map (map (fun t => match t with Tile _ o _ _ => o | NullTile => [] end)) t = [[tx "out/0_0/flow.tif"; tx "out/1_0/flow.tif"]] /\
    lay = tx "out/layout/flow.layout" /\ txt = tx "flow.tif,flow.tif" ++ [nl].
Proof.
  exists (fun f => if text_eqb f (tx "in/t.layout") then Some (tx "a.tif,b.tif") else None), (tx "in/t.layout"), 5.
  evaluate (prepare (fun f => if text_eqb f (tx "in/t.layout") then Some (tx "a.tif,b.tif") else None) 5 (tx "in/t.layout") (tx "out/%n/flow.tif"))
    ltac:(fun t l x => exists t, x, l).
  split; [vm_compute; reflexivity|]. split; [vm_compute; reflexivity|]. split; vm_compute; reflexivity.
Qed.
Print Assumptions C75_subdirectories_refuted.

(** when the input layout has the name of the output layout, it is emptied before it is read, which is undefined *)
Theorem C75_same_layout_refuted : forall fs fuel pre post, free pct pre -> free pct post ->
  prepare fs fuel (layout_name (pre ++ tx "layout" ++ post)) (pre ++ pct :: "n"%char :: post) = Some Undef.
Proof. intros fs fuel pre post Fp Fq. apply prepare_self. apply subst_n; assumption. Qed.
Print Assumptions C75_same_layout_refuted.

Example C75_not_vacuous :
  let pre := tx "out/f-" in let post := tx ".tif" in
  free pct pre /\ free pct post /\ free slash post /\ In period (file_part pre ++ post) /\
  free comma (file_part pre ++ post) /\ free nl (file_part pre ++ post) /\
  hd_error (file_part pre) <> Some space /\ hd_error (rev post) <> Some space /\
  layout_name (pre ++ tx "layout" ++ post) = tx "out/f-layout.layout" /\
  (exists y, y < 3 /\ field (nth y doc_rows []) 3 <> []) /\
  exists t, prepare doc_fs 13 (tx "d/t.layout") (pre ++ pct :: "n"%char :: post) =
    Some (Ok (t, (tx "out/f-layout.layout",
      tx "f-0_0.tif,f-1_0.tif,f-2_0.tif," ++ [nl] ++ tx "f-0_1.tif,f-1_1.tif,f-2_1.tif,f-3_1.tif" ++ [nl] ++ tx ",f-1_2.tif,," ++ [nl]))).
Proof.
  cbv zeta. repeat (split; [solve [chars | discriminate | reflexivity | vm_compute; tauto]|]).
  split; [exists 1; split; [lia|discriminate]|].
  evaluate (prepare doc_fs 13 (tx "d/t.layout") (tx "out/f-" ++ pct :: "n"%char :: tx ".tif")) ltac:(fun t l x => exists t).
  vm_compute. reflexivity.
Qed.
