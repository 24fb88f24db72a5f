(** C94: rd_layout_check.py. *)
From Coq Require Import Ascii String ZArith List Lia Bool.
From Verif Require Import Base Res LayoutModel LayoutSpec LayoutProofs LayoutProofs2 PropertiesLayout PyLayoutModel PyLayoutProofs PropertiesPyLayout.
Open Scope Z_scope.
Open Scope list_scope.

Lemma pcount_free s : free comma s -> pcount comma s = 0.
Proof.
  unfold pcount. induction s as [|a s IH]; intros F; [reflexivity|]. apply free_cons in F. destruct F as [Na F]. cbn [filter].
  destruct (Ascii.eqb comma a) eqn:E; [apply Ascii.eqb_eq in E; congruence|]. apply IH. exact F.
Qed.
Lemma pcount_app s t : pcount comma (s ++ t) = pcount comma s + pcount comma t.
Proof. unfold pcount. rewrite filter_app, app_length. lia. Qed.
Lemma pcount_join fs : fs <> [] -> Forall (free comma) fs -> pcount comma (join comma fs) + 1 = Z.of_nat (List.length fs).
Proof.
  induction fs as [|f r IH]; [contradiction|]. intros _ F. apply Forall_cons_iff in F. destruct F as [F1 F2]. destruct r as [|g r].
  - cbn [join List.length]. rewrite pcount_free by exact F1. reflexivity.
  - change (join comma (f :: g :: r)) with (f ++ [comma] ++ join comma (g :: r)). rewrite !pcount_app, (pcount_free f) by exact F1. specialize (IH ltac:(discriminate) F2).
    change (pcount comma [comma]) with 1. cbn [List.length] in *. lia.
Qed.
Lemma pcount_line fs l' : fs <> [] -> Forall (free comma) fs -> line_of (join comma fs) l' -> pcount comma l' + 1 = Z.of_nat (List.length fs).
Proof. intros N F [->| ->]; [rewrite pcount_app; change (pcount comma [nl]) with 0; rewrite <- pcount_join by assumption; lia|apply pcount_join; assumption]. Qed.
Lemma join_app_last fs t : fs <> [] -> Forall (free comma) fs -> free comma t ->
  exists fs', fs' <> [] /\ Forall (free comma) fs' /\ join comma fs' = join comma fs ++ t /\ Forall2 (fun f f' => f' = f \/ f' = f ++ t) fs fs'.
Proof.
  intros N F Ft. induction fs as [|f r IH]; [contradiction|]. apply Forall_cons_iff in F. destruct F as [F1 F2]. destruct r as [|g r].
  - exists [f ++ t]. split; [discriminate|]. split; [constructor; [apply free_app; auto|constructor]|]. split; [reflexivity|]. constructor; [right; reflexivity|constructor].
  - destruct IH as (fs' & N' & F' & E & P); [discriminate|exact F2|]. exists (f :: fs'). split; [discriminate|]. split; [constructor; assumption|]. split.
    + destruct fs' as [|g' r']; [contradiction|]. change (join comma (f :: g' :: r')) with (f ++ comma :: join comma (g' :: r')). rewrite E.
      change (join comma (f :: g :: r)) with (f ++ comma :: join comma (g :: r)). rewrite <- app_assoc. reflexivity.
    + constructor; [left; reflexivity|exact P].
Qed.
Lemma split_line fs l' : fs <> [] -> Forall (free comma) fs -> line_of (join comma fs) l' -> map strip (split comma l') = map strip fs.
Proof.
  intros N F [->| ->]; [|rewrite split_join by assumption; reflexivity].
  destruct (join_app_last fs [nl] N F) as (fs' & N' & F' & E & P); [chars|]. rewrite <- E. rewrite split_join by assumption.
  clear -P. induction P as [|f f' l l' H _ IH]; [reflexivity|]. cbn [map]. f_equal; [|exact IH]. destruct H as [->| ->]; [reflexivity|]. apply (strip_pad [] f [nl]); [constructor|repeat constructor].
Qed.

Definition names (rows : list (list text)) : list text := map strip (concat rows).
Definition named (n : text) : bool := negb (Nat.eqb (List.length n) 0).
Lemma named_iff n : named n = true <-> n <> [].
Proof. unfold named. destruct n; cbn; split; congruence. Qed.

Lemma nodup_length {T} (dec : forall a b : T, {a = b} + {a <> b}) l : List.length (nodup dec l) = List.length l <-> NoDup l.
Proof.
  split.
  - intros H. induction l as [|a l IH]; [constructor|]. cbn [nodup] in H. destruct (in_dec dec a l) as [I|I].
    + exfalso. pose proof (NoDup_incl_length (NoDup_nodup dec l) (fun x Hx => proj1 (nodup_In dec l x) Hx)). cbn [List.length] in H. lia.
    + cbn [List.length] in H. constructor; [exact I|apply IH; lia].
  - intros H. rewrite nodup_fixed_point by exact H. reflexivity.
Qed.
Lemma dup_filter (l : list text) : ~ NoDup (filter named l) <-> exists p q n, p <> q /\ nth_error l p = Some n /\ nth_error l q = Some n /\ n <> [].
Proof.
  split.
  - intros H. induction l as [|a l IH]; [exfalso; apply H; constructor|]. cbn [filter] in H. destruct (named a) eqn:Ea.
    + destruct (in_dec (list_eq_dec ascii_dec) a (filter named l)) as [I|I].
      * apply filter_In in I. destruct I as [I _]. apply In_nth_error in I. destruct I as (k & Ek). exists 0%nat, (S k), a. split; [discriminate|]. split; [reflexivity|]. split; [exact Ek|apply named_iff; exact Ea].
      * destruct IH as (p & q & n & N & P & Q & M); [intros X; apply H; constructor; assumption|]. exists (S p), (S q), n. split; [congruence|]. auto.
    + destruct (IH H) as (p & q & n & N & P & Q & M). exists (S p), (S q), n. split; [congruence|]. auto.
  - intros (p & q & n & N & P & Q & M) D. revert p q N P Q. induction l as [|a l IH]; intros p q N P Q; [destruct p; discriminate|]. cbn [filter] in D.
    assert (Mn : named n = true) by (apply named_iff; exact M).
    assert (Tail : forall k, nth_error l k = Some n -> In n (filter named l)) by (intros k Ek; apply filter_In; split; [eapply nth_error_In; exact Ek|exact Mn]).
    destruct p as [|p], q as [|q]; cbn [nth_error] in P, Q; [congruence| | |].
    + injection P as ->. rewrite Mn in D. inversion D; subst. apply H1. eapply Tail. exact Q.
    + injection Q as ->. rewrite Mn in D. inversion D; subst. apply H1. eapply Tail. exact P.
    + apply (IH ltac:(destruct (named a); [inversion D; assumption|exact D]) p q); congruence.
Qed.

(** C94. What the script reports about a layout file, in terms of its fields. *)
Theorem C94_report : forall fs exists_ arg s rows, fs arg = Some s -> layout_text rows (univ false s) -> rows <> [] ->
  exists r, check_layout fs exists_ arg = Ok r /\
    c_height r = Z.of_nat (List.length rows) /\ c_width r = Z.of_nat (List.length (hd [] rows)) /\
    (forall i n, In (i, n) (c_widths r) <-> exists k row, i = Z.of_nat k /\ nth_error rows k = Some row /\ n = Z.of_nat (List.length row) /\ n <> c_width r) /\
    c_total r = Z.of_nat (List.length (concat rows)) /\ c_data r = Z.of_nat (List.length (filter named (names rows))) /\ c_null r = c_total r - c_data r /\
    (c_dup r = true <-> exists p q n, p <> q /\ nth_error (names rows) p = Some n /\ nth_error (names rows) q = Some n /\ n <> []) /\
    (forall n, In n (c_missing r) <-> In n (names rows) /\ n <> [] /\ exists_ (os_join (os_dir arg) n) = false).
Proof.
  intros fs exists_ arg s rows Hs [F L] N. apply readlines_file in L. unfold check_layout. rewrite Hs. cbv zeta. remember (readlines (univ false s)) as ls eqn:E. clear E Hs s.
  assert (L' : Forall2 (fun fs l' => fs <> [] /\ Forall (free comma) fs /\ line_of (join comma fs) l') rows ls).
  { clear -F L. revert ls L. induction rows as [|r rows IH]; intros ls L; inversion L; subst; [constructor|]. apply Forall_cons_iff in F. destruct F as [[F1 F2] F]. constructor; [auto|apply IH; assumption]. }
  clear F L. assert (Ln : List.length ls = List.length rows) by (symmetry; eapply F2_length; exact L').
  assert (W : map (fun l => pcount comma l + 1) ls = map (fun r => Z.of_nat (List.length r)) rows).
  { clear -L'. induction L' as [|r l rs ls (A & B & C) _ IH]; [reflexivity|]. cbn [map]. f_equal; [apply pcount_line; assumption|exact IH]. }
  assert (NM : concat (map (fun row => map strip (split comma row)) ls) = names rows).
  { unfold names. clear -L'. induction L' as [|r l rs ls (A & B & C) _ IH]; [reflexivity|]. cbn [map concat]. rewrite map_app, IH. f_equal. apply split_line; assumption. }
  destruct ls as [|l0 ls0] eqn:El; [destruct rows; [contradiction|discriminate]|]. rewrite <- El in *.
  rewrite NM. eexists. split; [reflexivity|]. cbn [c_height c_width c_widths c_total c_null c_data c_path c_dup c_missing]. change (fun x : list ascii => negb (Nat.eqb (List.length x) 0)) with named.
  assert (W0 : pcount comma l0 + 1 = Z.of_nat (List.length (hd [] rows))). { destruct rows as [|r rs]; [contradiction|]. rewrite El in W. cbn [map] in W. injection W as W _. exact W. }
  split; [rewrite Ln; reflexivity|]. split; [exact W0|]. split; [|split; [|split; [|split; [|split]]]].
  - assert (NW : forall k, option_map (fun l => pcount comma l + 1) (nth_error ls k) = option_map (fun r : list text => Z.of_nat (List.length r)) (nth_error rows k)) by (intros k; rewrite <- !nth_error_map, W; reflexivity).
    assert (CB : forall (m : list text) a k l, In (k, l) (combine (seq a (List.length m)) m) <-> (a <= k)%nat /\ nth_error m (k - a) = Some l).
    { clear. induction m as [|b m IH]; intros a k l; cbn [List.length seq combine]; [split; [intros []|intros [_ X]; destruct (k - a)%nat; discriminate]|]. cbn [In]. rewrite IH. split.
      - intros [X|[X Y]]; [injection X as -> ->; split; [lia|]; replace (k - k)%nat with 0%nat by lia; reflexivity|split; [lia|]]. replace (k - a)%nat with (S (k - S a)) by lia. exact Y.
      - intros [X Y]. destruct (Nat.eq_dec k a) as [->|Nk]; [left; replace (a - a)%nat with 0%nat in Y by lia; injection Y as ->; reflexivity|right]. split; [lia|]. replace (k - a)%nat with (S (k - S a)) in Y by lia. exact Y. }
    intros i n. rewrite in_map_iff. split.
    + intros ([k l] & E & I). apply filter_In in I. destruct I as [I B]. apply CB in I. destruct I as [_ I]. rewrite Nat.sub_0_r in I. cbn [fst snd] in E, B. specialize (NW k). rewrite I in NW. cbn [option_map] in NW.
      destruct (nth_error rows k) as [row|] eqn:Er; [|discriminate]. cbn [option_map] in NW. injection NW as NW. injection E as <- <-. exists k, row. split; [reflexivity|]. split; [exact Er|]. split; [exact NW|].
      apply negb_true_iff in B. apply Z.eqb_neq in B. lia.
    + intros (k & row & -> & Er & -> & B). specialize (NW k). rewrite Er in NW. destruct (nth_error ls k) as [l|] eqn:Ek; [|discriminate]. cbn [option_map] in NW. injection NW as NW.
      exists (k, l). cbn [fst snd]. split; [rewrite NW; reflexivity|]. apply filter_In. split; [apply CB; split; [lia|rewrite Nat.sub_0_r; exact Ek]|]. cbn [snd]. apply negb_true_iff. apply Z.eqb_neq. lia.
  - unfold names. rewrite map_length. reflexivity.
  - reflexivity.
  - reflexivity.
  - rewrite <- dup_filter, <- nodup_length with (dec := list_eq_dec ascii_dec). rewrite negb_true_iff, Z.eqb_neq. split; intros X Y; apply X; [exact (f_equal Z.of_nat Y)|apply Nat2Z.inj; exact Y].
  - intros n. rewrite filter_In, filter_In, named_iff, negb_true_iff. tauto.
Qed.
Print Assumptions C94_report.

(** C94. A file without "\r" for which no row width is reported is accepted by the layout reader, which delivers as many rows as reported, and the fields of the file. *)
Lemma univ_id s : ~ In cr s -> univ false s = s.
Proof.
  induction s as [|a s IH]; intros H; [reflexivity|]. cbn [univ]. destruct (Ascii.eqb a cr) eqn:E; [apply Ascii.eqb_eq in E; exfalso; apply H; left; exact E|]. rewrite andb_false_r.
  f_equal. apply IH. intros X. apply H. right. exact X.
Qed.
Theorem C94_accepted : forall fs exists_ arg s rows r fuel, fs arg = Some s -> ~ In cr s -> layout_text rows s -> rows <> [] -> columns rows <> 0%nat ->
  check_layout fs exists_ arg = Ok r -> c_widths r = [] -> (columns rows * List.length rows < fuel)%nat ->
  (Z.of_nat (columns rows) = c_width r \/ Z.of_nat (columns rows) = c_width r - 1) /\
  exists rd, open_layout fs arg = Ok rd /\ read_all fuel rd = Some (Ok (entries (dir_part arg) (fun y x => field (nth y rows []) x) (columns rows) (List.length rows))).
Proof.
  intros fs exists_ arg s rows r fuel Hs Nc Hl N Hc Hr Hw Hf.
  destruct (C94_report fs exists_ arg s rows Hs) as (r' & E & _ & R2 & R3 & _); [rewrite univ_id by exact Nc; exact Hl|exact N|]. rewrite E in Hr. injection Hr as ->.
  assert (W : Forall (fun q : list text => List.length q = List.length (hd [] rows)) rows).
  { apply Forall_forall. intros q Hq. apply In_nth_error in Hq. destruct Hq as (k & Ek). destruct (Z.eq_dec (Z.of_nat (List.length q)) (c_width r)) as [X|X]; [lia|]. exfalso.
    assert (I : In (Z.of_nat k, Z.of_nat (List.length q)) (c_widths r)) by (apply R3; exists k, q; auto). rewrite Hw in I. destruct I. }
  split.
  - destruct (Exists_dec (fun q : list text => last q [] <> []) rows) as [X|X].
    + intros q. destruct (list_eq_dec ascii_dec (last q []) []); [right|left]; tauto.
    + left. rewrite (columns_full rows _ W X). lia.
    + right. rewrite (columns_blank rows _ W N). 2:{ apply Forall_forall. intros q Hq. destruct (list_eq_dec ascii_dec (last q []) []) as [Y|Y]; [exact Y|]. exfalso. apply X. apply Exists_exists. exists q. auto. }
      destruct Hl as [Fl _]. destruct rows as [|q qs]; [contradiction|]. apply Forall_inv in Fl. cbn [hd] in *. destruct q; [destruct Fl; contradiction|]. cbn [List.length] in *. lia.
  - destruct (C72_reads_the_grid fs arg s rows fuel Hs Hl N) as (rd & O1 & O2); [lia| |exact Hf|exists rd; auto]. intros q Hq. apply (columns_near rows _ W). exact Hq.
Qed.
Print Assumptions C94_accepted.

(** C94. The files it looks for are those the reader names, if the tile names are relative and the layout file is named without needless slashes. *)
Theorem C94_paths : forall arg n, n <> [] -> hd_error n <> Some slash ->
  (dir_part arg = [] \/ dir_part arg = [slash] \/ exists d a, dir_part arg = d ++ [a; slash] /\ a <> slash) -> os_join (os_dir arg) n = dir_part arg ++ n.
Proof.
  intros arg n Nn Hn D. unfold os_dir. rewrite path_eq.
  assert (J : forall d, os_join d n = match rev d with [] => n | c :: _ => if Ascii.eqb c slash then d ++ n else d ++ slash :: n end).
  { intros d. unfold os_join. destruct n as [|c n]; [contradiction|]. destruct (Ascii.eqb c slash) eqn:E; [apply Ascii.eqb_eq in E; subst; exfalso; apply Hn; reflexivity|reflexivity]. }
  destruct D as [->|[->|(d & a & -> & Na)]].
  - cbn. rewrite J. reflexivity.
  - cbn. rewrite J. reflexivity.
  - assert (Fb : forallb (Ascii.eqb slash) (d ++ [a; slash]) = false).
    { rewrite forallb_app. cbn [forallb]. destruct (Ascii.eqb slash a) eqn:E; [apply Ascii.eqb_eq in E; congruence|]. rewrite andb_false_r. reflexivity. }
    rewrite Fb, rev_app_distr. cbn [rev app drop_slashes]. rewrite Ascii.eqb_refl. cbn [drop_slashes]. destruct (Ascii.eqb a slash) eqn:E; [apply Ascii.eqb_eq in E; contradiction|].
    cbn [rev]. rewrite rev_involutive, J, rev_app_distr. cbn [rev app]. rewrite E, <- !app_assoc. reflexivity.
Qed.
Print Assumptions C94_paths.
(** "... whatever the names" is false: an absolute tile name is looked up as it is, whereas the reader puts the directory of the layout before it. *)
Theorem C94_absolute_refuted : forall arg n, hd_error n = Some slash -> dir_part arg <> [] -> os_join (os_dir arg) n = n /\ dir_part arg ++ n <> n.
Proof.
  intros arg n Hn D. split.
  - unfold os_join. destruct n as [|c n]; [discriminate|]. injection Hn as ->. rewrite Ascii.eqb_refl. reflexivity.
  - intros E. apply D. apply (f_equal (@List.length ascii)) in E. rewrite app_length in E. destruct (dir_part arg); [reflexivity|cbn in E; lia].
Qed.
Print Assumptions C94_absolute_refuted.

(** "A layout that passes the check is read as checked" is false for files with Windows line ends: whatever the rows, the script reports what it would without the "\r", but the reader delivers the
    last name of every row with a "\r" at its end - also where there is no tile. *)
Definition crlf (rows : list (list text)) : text := concat (map (fun l => l ++ [cr; nl]) (map (join comma) rows)).
Definition lf (rows : list (list text)) : text := concat (map (fun l => l ++ [nl]) (map (join comma) rows)).
Lemma univ_crlf rows : Forall (Forall (free cr)) rows -> univ false (crlf rows) = lf rows.
Proof.
  unfold crlf, lf. induction 1 as [|r rows F _ IH]; [reflexivity|]. cbn [map concat]. rewrite <- !app_assoc.
  assert (J : free cr (join comma r)) by (apply join_free; [discriminate|exact F]). revert J. generalize (join comma r) as l. induction l as [|a l IHl]; intros J.
  - cbn [app]. change (univ false (cr :: nl :: ?t)) with (nl :: univ false t). f_equal. exact IH.
  - apply free_cons in J. destruct J as [Na J]. cbn [app univ]. destruct (Ascii.eqb a cr) eqn:E; [apply Ascii.eqb_eq in E; contradiction|]. rewrite andb_false_r. f_equal. apply IHl. exact J.
Qed.
Fixpoint addcr (r : list text) : list text := match r with [] => [] | f :: q => match q with [] => [f ++ [cr]] | _ => f :: addcr q end end.
Lemma join_addcr r : r <> [] -> join comma (addcr r) = join comma r ++ [cr].
Proof.
  induction r as [|f q IH]; [contradiction|]. intros _. destruct q as [|g q]; [reflexivity|]. specialize (IH ltac:(discriminate)). change (addcr (f :: g :: q)) with (f :: addcr (g :: q)).
  change (join comma (f :: g :: q)) with (f ++ comma :: join comma (g :: q)). rewrite <- app_assoc. cbn [app]. rewrite <- IH. destruct (addcr (g :: q)) eqn:E; [destruct q; discriminate|reflexivity].
Qed.
Lemma addcr_length r : List.length (addcr r) = List.length r.
Proof. induction r as [|f [|g q] IH]; [reflexivity|reflexivity|]. change (addcr (f :: g :: q)) with (f :: addcr (g :: q)). cbn [List.length] in *. rewrite IH. reflexivity. Qed.
Lemma addcr_last r : r <> [] -> last (addcr r) [] = last r [] ++ [cr].
Proof.
  induction r as [|f q IH]; [contradiction|]. intros _. destruct q as [|g q]; [reflexivity|]. specialize (IH ltac:(discriminate)). change (addcr (f :: g :: q)) with (f :: addcr (g :: q)).
  change (last (f :: g :: q) []) with (last (g :: q) []). rewrite <- IH. destruct (addcr (g :: q)) eqn:E; [destruct q; discriminate|reflexivity].
Qed.
Lemma addcr_free c r : c <> cr -> Forall (free c) r -> Forall (free c) (addcr r).
Proof.
  intros N. induction r as [|f q IH]; intros F; [constructor|]. apply Forall_cons_iff in F. destruct F as [F1 F2]. destruct q as [|g q].
  - constructor; [|constructor]. apply free_app. split; [exact F1|]. intros [X|[]]. congruence.
  - change (addcr (f :: g :: q)) with (f :: addcr (g :: q)). constructor; auto.
Qed.
Theorem C94_crlf_refuted : forall fs fs' exists_ arg rows w fuel, layout_text rows (lf rows) -> Forall (Forall (free cr)) rows -> rows <> [] -> Forall (fun r => List.length r = w) rows ->
  fs arg = Some (crlf rows) -> fs' arg = Some (lf rows) -> (w * List.length rows < fuel)%nat ->
  check_layout fs exists_ arg = check_layout fs' exists_ arg /\
  exists rd name, open_layout fs arg = Ok rd /\ read_all fuel rd = Some (Ok (entries (dir_part arg) name w (List.length rows))) /\
    forall y, (y < List.length rows)%nat -> exists n, name y (w - 1)%nat = n ++ [cr].
Proof.
  intros fs fs' exists_ arg rows w fuel Hl Fc N Hw Hs Hs' Hf.
  assert (Nc : ~ In cr (lf rows)).
  { unfold lf. intros X. apply in_concat in X. destruct X as (l & Il & X). apply in_map_iff in Il. destruct Il as (t & <- & It). apply in_map_iff in It. destruct It as (r & <- & Ir).
    apply in_app_or in X. destruct X as [X|[X|[]]]; [|discriminate]. revert X. apply join_free; [discriminate|]. rewrite Forall_forall in Fc. apply Fc. exact Ir. }
  split.
  - unfold check_layout. rewrite Hs, Hs', univ_crlf, univ_id by assumption. reflexivity.
  - destruct (layout_fields _ _ Hl) as [F1 F2].
    assert (NE : Forall (fun r : list text => r <> []) rows) by (destruct Hl as [H _]; eapply Forall_impl; [|exact H]; cbn; tauto).
    assert (Hl' : layout_text (map addcr rows) (crlf rows)).
    { split; [|split].
      - apply Forall_map. apply Forall_forall. intros r Hr. rewrite Forall_forall in NE, F1. specialize (NE r Hr). split; [|apply addcr_free; [discriminate|apply F1; exact Hr]].
        intros X. apply (f_equal (@List.length text)) in X. rewrite addcr_length in X. destruct r; [contradiction|discriminate].
      - apply Forall_map, Forall_map. apply Forall_forall. intros r Hr. rewrite Forall_forall in F2. apply join_free; [discriminate|]. apply addcr_free; [discriminate|apply F2; exact Hr].
      - left. unfold crlf. rewrite !map_map. f_equal. apply map_ext_in. intros r Hr. rewrite Forall_forall in NE. rewrite join_addcr by (apply NE; exact Hr). rewrite <- app_assoc. reflexivity. }
    assert (Hw' : Forall (fun r : list text => List.length r = w) (map addcr rows)) by (apply Forall_map; eapply Forall_impl; [|exact Hw]; cbn; intros r E; rewrite addcr_length; exact E).
    assert (LC : forall r, In r rows -> last (addcr r) [] = last r [] ++ [cr]) by (intros r Hr; rewrite Forall_forall in NE; apply addcr_last; apply NE; exact Hr).
    assert (N' : map addcr rows <> []) by (destruct rows; [contradiction|discriminate]).
    assert (CT : columns (map addcr rows) = w).
    { apply columns_full; [exact Hw'|]. destruct rows as [|r rs]; [contradiction|]. left. rewrite LC by (left; reflexivity). destruct (last r []); discriminate. }
    assert (Wp : (0 < w)%nat). { destruct rows as [|r rs]; [contradiction|]. apply Forall_inv in NE. apply Forall_inv in Hw. destruct r; [contradiction|]. cbn [List.length] in Hw. lia. }
    destruct (C72_reads_the_grid fs arg (crlf rows) (map addcr rows) fuel Hs Hl' N') as (rd & O1 & O2).
    + lia.
    + intros q Hq. apply (columns_near _ w); assumption.
    + rewrite CT, map_length. exact Hf.
    + rewrite CT, map_length in O2. exists rd. eexists. split; [exact O1|]. split; [exact O2|]. intros y Hy. cbv beta.
      destruct (nth_error (map addcr rows) y) as [q|] eqn:Eq; [|apply nth_error_None in Eq; rewrite map_length in Eq; lia]. rewrite (nth_error_nth _ _ [] Eq).
      rewrite nth_error_map in Eq. destruct (nth_error rows y) as [r|] eqn:Er; [|discriminate]. injection Eq as <-. apply nth_error_In in Er. specialize (LC r Er).
      assert (Lr : List.length (addcr r) = w) by (rewrite addcr_length; rewrite Forall_forall in Hw; apply Hw; exact Er).
      unfold field. replace (nth (w - 1) (addcr r) []) with (last (addcr r) []).
      * rewrite LC. unfold trim. set (f := last r []). exists (ltrim f).
        assert (LT : ltrim (f ++ [cr]) = ltrim f ++ [cr]). { clear. induction f as [|a f IH]; [reflexivity|]. cbn [app ltrim]. destruct (Ascii.eqb a space); [exact IH|reflexivity]. }
        rewrite LT, rev_app_distr. cbn [rev app ltrim]. change (Ascii.eqb cr space) with false. cbn iota. cbn [rev]. rewrite rev_involutive. reflexivity.
      * rewrite <- Lr. clear. generalize (addcr r) as q. intros q. induction q as [|a [|b q] IH]; [reflexivity|reflexivity|]. change (last (a :: b :: q) []) with (last (b :: q) []). rewrite IH. cbn [List.length].
        replace (S (S (List.length q)) - 1)%nat with (S (S (List.length q) - 1)) by lia. reflexivity.
Qed.
Print Assumptions C94_crlf_refuted.

Example C94_not_vacuous : layout_text ex_rows (lf ex_rows) /\ ex_rows <> [] /\ Forall (fun r => List.length r = 3%nat) ex_rows /\ columns ex_rows = 3%nat /\
  exists r, check_layout (fun _ => Some (crlf ex_rows)) (fun _ => true) (tx "d/t.layout") = Ok r /\ c_widths r = [] /\ c_total r = 9 /\ c_null r = 2 /\ c_dup r = false /\ c_missing r = [] /\
    os_join (c_path r) (tx "a") = tx "d/a".
Proof.
  destruct C93_not_vacuous as [(s & Hs & Hl & _) _]. split; [|split; [discriminate|]; split; [repeat constructor|]; split; [reflexivity|]].
  - unfold ex_fs in Hs. change (text_eqb (tx "t.layout") (tx "t.layout")) with true in Hs. injection Hs as <-. exact Hl.
  - eexists. split; [vm_compute; reflexivity|]. vm_compute. repeat split; reflexivity.
Qed.
