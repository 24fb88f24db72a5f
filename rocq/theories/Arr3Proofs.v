From Coq Require Import ZArith List Lia Bool.
From Verif Require Import Base Res ArrModel ArrProofs Arr3Model Arr3Spec.
Open Scope Z_scope.

Lemma w64_id z : 0 <= z < 2 ^ 64 -> w64 z = z.
Proof. intros H. apply Z.mod_small; exact H. Qed.

Lemma slot_range {A} (r : raster3 A) x y n : has r x y n -> 0 <= 9 * (y * r_w r + x) + n < 9 * (r_w r * r_h r).
Proof. intros [Hx [Hy Hn]]. pose proof (idx_range _ _ _ _ Hx Hy). lia. Qed.

Lemma slot_inj {A} (r : raster3 A) x y n x' y' n' : has r x y n -> has r x' y' n' ->
  9 * (y * r_w r + x) + n = 9 * (y' * r_w r + x') + n' -> x = x' /\ y = y' /\ n = n'.
Proof.
  intros [Hx [Hy Hn]] [Hx' [Hy' Hn']] E.
  assert (E1 : y * r_w r + x = y' * r_w r + x') by lia.
  destruct (idx_inj _ _ _ _ _ Hx Hx' E1). lia.
Qed.

Lemma split_i {A} (r : raster3 A) i n : 0 <= r_w r -> 0 <= i < r_w r * r_h r -> 0 <= n < 9 ->
  has r (i mod r_w r) (i / r_w r) n /\ i = i / r_w r * r_w r + i mod r_w r.
Proof.
  intros Hw Hi Hn. destruct (idx_split _ _ _ Hi Hw) as [x [y [Hx [Hy E]]]].
  assert (E1 : i mod r_w r = x) by (rewrite E, Z.add_comm, Z.mod_add by lia; apply Z.mod_small; lia).
  assert (E2 : i / r_w r = y) by (rewrite E, Z.add_comm, Z.div_add by lia; rewrite Z.div_small by lia; lia).
  rewrite E1, E2. split; [split; [|split]; assumption|exact E].
Qed.

Lemma addr {A} (a : arr3 A) r x y n : holds a r -> has r x y n -> xyToI3 a x y n = 9 * (y * r_w r + x) + n.
Proof.
  intros [Ew Eh _ [Fw [Fh F]] _ _] H. pose proof (slot_range _ _ _ _ H). destruct H as [Hx [Hy Hn]].
  assert (2 ^ 31 = 2147483648) by reflexivity. assert (2 ^ 64 = 18446744073709551616) by reflexivity.
  unfold xyToI3. rewrite Ew. rewrite (w64_id y), (w64_id (r_w r)), (w64_id x) by lia.
  rewrite w64_id by lia. lia.
Qed.

Lemma slot_rd {A} (a : arr3 A) r x y n : holds a r -> has r x y n ->
  rd (b_data a) (9 * (y * r_w r + x) + n) = Ok (r_val r x y n).
Proof.
  intros Hh H. apply rd_Ok. unfold ix. pose proof (slot_range _ _ _ _ H).
  destruct (Z.ltb_spec (9 * (y * r_w r + x) + n) 0); [lia|]. apply (h_val _ _ Hh); auto.
Qed.

Lemma slot_wr {A} (a : arr3 A) r x y n v : holds a r -> has r x y n ->
  exists l, wr (b_data a) (9 * (y * r_w r + x) + n) v = Ok l /\
    holds (with_data3 a l) (mkR3 (r_w r) (r_h r) (r_nd r) (put_at (r_val r) x y n v)).
Proof.
  intros Hh H. pose proof (slot_range _ _ _ _ H) as Hr. pose proof (h_len _ _ Hh) as HL.
  destruct (wr_in (b_data a) (9 * (y * r_w r + x) + n) v) as [l [W [L X]]]; [lia|].
  exists l. split; [exact W|]. destruct Hh as [Ew Eh End Ef _ Ev].
  constructor; cbn [b_w b_h b_nodata b_data with_data3 r_w r_h r_nd r_val]; auto.
  - rewrite L. exact HL.
  - intros x' y' n' H'. unfold has in H'; cbn [r_w r_h] in H'. fold (has r x' y' n') in H'.
    pose proof (slot_range _ _ _ _ H') as Hr'. specialize (X (9 * (y' * r_w r + x') + n')). unfold ix in X.
    destruct (Z.ltb_spec (9 * (y' * r_w r + x') + n') 0); [lia|]. rewrite X.
    unfold put_at. destruct (Z.eqb_spec (9 * (y' * r_w r + x') + n') (9 * (y * r_w r + x) + n)) as [E|E].
    + destruct (slot_inj r _ _ _ _ _ _ H' H E) as [-> [-> ->]]. rewrite !Z.eqb_refl. reflexivity.
    + destruct (Z.eqb_spec x' x) as [->|]; cbn [andb]; [|apply Ev; auto].
      destruct (Z.eqb_spec y' y) as [->|]; cbn [andb]; [|apply Ev; auto].
      destruct (Z.eqb_spec n' n) as [->|]; [congruence|apply Ev; auto].
Qed.

Lemma setAll_repeat {A} (l : list A) v : forM (zrange 0 (length l)) (fun i l => wr l i v) l = Ok (repeat v (length l)).
Proof.
  destruct (forM_writes (fun i : Z => i) v (zrange 0 (length l)) l) as [l' [E [L X]]].
  { intros i Hi. apply zrange_In in Hi. lia. }
  rewrite E. f_equal. apply ix_ext; [rewrite repeat_length; exact L|].
  intros i Hi. rewrite L in Hi. rewrite X.
  assert (M : existsb (fun i0 => i0 =? i) (zrange 0 (length l)) = true).
  { apply existsb_exists. exists i. split; [apply zrange_In; lia|apply Z.eqb_refl]. }
  rewrite M. unfold ix. destruct (Z.ltb_spec i 0); [lia|]. symmetry.
  apply nth_error_repeat. lia.
Qed.

Lemma holds_all {A} (w h : Z) nd ndc owned (l : list A) v : fits w h -> Z.of_nat (length l) = 9 * (w * h) ->
  exists b, setAll3 (mk3 w h nd ndc owned l) v = Ok b /\ b_ndc b = ndc /\ b_owned b = owned /\
    b_data b = repeat v (length l) /\ holds b (mkR3 w h nd (fun _ _ _ => v)).
Proof.
  intros F HL. unfold setAll3. cbn [b_data]. rewrite setAll_repeat. cbn [bind]. eexists. split; [reflexivity|].
  cbn [with_data3 b_ndc b_owned b_data b_w b_h b_nodata]. split; [reflexivity|]. split; [reflexivity|]. split; [reflexivity|].
  constructor; cbn [with_data3 b_w b_h b_nodata b_data r_w r_h r_nd r_val]; auto.
  - rewrite repeat_length. exact HL.
  - intros x y n H. apply nth_error_repeat. pose proof (slot_range _ _ _ _ H) as HR. cbn [r_w r_h] in HR. lia.
Qed.

Lemma resize_ok {A} (junk : nat -> list A) (a : arr3 A) w h v : (forall n, length (junk n) = n) -> fits w h ->
  b_owned a = true \/ Z.of_nat (length (b_data a)) = 9 * (w * h) ->
  exists b, resize3 junk a w h v = Ok b /\ b_ndc b = b_ndc a /\ b_owned b = b_owned a /\
    holds b (mkR3 w h (b_nodata a) (fun _ _ _ => v)).
Proof.
  intros HJ F Ho. unfold resize3. destruct F as [Fw [Fh F]].
  assert (2 ^ 31 = 2147483648) by reflexivity. assert (2 ^ 64 = 18446744073709551616) by reflexivity.
  assert (0 <= w * h) by nia.
  rewrite (w64_id w), (w64_id h) by lia. rewrite w64_id by lia.
  unfold mv_resize. destruct (Z.eqb_spec (Z.of_nat (length (b_data a))) (9 * w * h)) as [E|E]; cbn [bind].
  - destruct (holds_all w h (b_nodata a) (b_ndc a) (b_owned a) (b_data a) v) as [b [X1 [X2 [X3 [_ X4]]]]];
      [split; [|split]; assumption|lia|]. exists b. auto.
  - destruct Ho as [Ho|Ho]; [|lia]. rewrite Ho. cbn [bind].
    destruct (holds_all w h (b_nodata a) (b_ndc a) true (junk (Z.to_nat (9 * w * h))) v) as [b [X1 [X2 [X3 [_ X4]]]]];
      [split; [|split]; assumption|rewrite HJ; lia|]. exists b. auto.
Qed.

Lemma resize_wrapped {A} (junk : nat -> list A) (a : arr3 A) w h v : fits w h -> b_owned a = false ->
  Z.of_nat (length (b_data a)) <> 9 * (w * h) -> resize3 junk a w h v = Thrown.
Proof.
  intros [Fw [Fh F]] Ho Hn. unfold resize3.
  assert (2 ^ 31 = 2147483648) by reflexivity. assert (2 ^ 64 = 18446744073709551616) by reflexivity.
  assert (0 <= w * h) by nia.
  rewrite (w64_id w), (w64_id h) by lia. rewrite w64_id by lia.
  unfold mv_resize. destruct (Z.eqb_spec (Z.of_nat (length (b_data a))) (9 * w * h)) as [E|E]; [lia|].
  rewrite Ho. reflexivity.
Qed.

Lemma size_val {A} (a : arr3 A) r : holds a r -> size3 a = Ok (r_w r * r_h r).
Proof.
  intros [Ew Eh _ [Fw [Fh F]] _ _]. unfold size3. rewrite Ew, Eh.
  assert (2 ^ 31 = 2147483648) by reflexivity. assert (2 ^ 64 = 18446744073709551616) by reflexivity.
  assert (0 <= r_w r * r_h r) by nia.
  destruct (Z.leb_spec (- 2 ^ 31) (r_w r * r_h r)); [|lia]. destruct (Z.ltb_spec (r_w r * r_h r) (2 ^ 31)); [|lia].
  cbn [andb]. rewrite w64_id by lia. reflexivity.
Qed.

Lemma addr_i {A} (a : arr3 A) r i n : holds a r -> 0 <= i < r_w r * r_h r -> 0 <= n < 9 ->
  has r (i mod r_w r) (i / r_w r) n /\
  w64 (9 * i + n) = 9 * (i / r_w r * r_w r + i mod r_w r) + n.
Proof.
  intros Hh Hi Hn. destruct (h_fits _ _ Hh) as [Fw [Fh F]].
  assert (2 ^ 31 = 2147483648) by reflexivity. assert (2 ^ 64 = 18446744073709551616) by reflexivity.
  destruct (split_i r i n) as [X1 X2]; [lia|auto|auto|]. split; [exact X1|]. rewrite w64_id by lia. lia.
Qed.

Lemma call_ok {A} (eqb : A -> A -> bool) (junk : nat -> list A) c (a : arr3 A) r :
  (forall n, length (junk n) = n) -> holds a r -> legal (b_owned a) c r ->
  exists b, call eqb junk c a = Ok (fst (step eqb c r), b) /\ holds b (snd (step eqb c r)) /\
    b_owned b = b_owned a /\ b_ndc b = b_ndc a.
Proof.
  intros HJ Hh Hl. destruct c; cbn [call step legal fst snd] in *.
  - unfold get3. rewrite (addr _ _ _ _ _ Hh Hl), (slot_rd _ _ _ _ _ Hh Hl). cbn [bind]. eauto.
  - destruct Hl as [Hi Hn]. destruct (addr_i _ _ _ _ Hh Hi Hn) as [H1 H2].
    unfold getIN. rewrite H2, (slot_rd _ _ _ _ _ Hh H1). cbn [bind]. eauto.
  - unfold set3. rewrite (addr _ _ _ _ _ Hh Hl). destruct (slot_wr _ _ _ _ _ v Hh Hl) as [l [W H]].
    rewrite W. cbn [bind]. eexists; split; [reflexivity|]. auto.
  - destruct Hl as [Hi Hn]. destruct (addr_i _ _ _ _ Hh Hi Hn) as [H1 H2].
    unfold setIN. rewrite H2. destruct (slot_wr _ _ _ _ _ v Hh H1) as [l [W H]].
    rewrite W. cbn [bind]. eexists; split; [reflexivity|]. auto.
  - destruct Hl as [H1 H2]. unfold isNoData3, get3. rewrite (addr _ _ _ _ _ Hh H1), (slot_rd _ _ _ _ _ Hh H1). cbn [bind].
    unfold nodata3. rewrite (h_nd _ _ Hh). destruct (r_nd r) as [nd|]; [|congruence]. cbn [bind]. eauto.
  - destruct Hl as [H1 H2]. destruct (addr_i a r i 0 Hh H1 ltac:(lia)) as [H3 H4].
    unfold isNoData3_i, getIN. rewrite H4, (slot_rd _ _ _ _ _ Hh H3). cbn [bind].
    unfold nodata3. rewrite (h_nd _ _ Hh). destruct (r_nd r) as [nd|]; [|congruence]. cbn [bind]. eauto.
  - eexists; split; [reflexivity|]. destruct Hh. split; [|auto].
    constructor; cbn [setNoData3 b_w b_h b_nodata b_data r_w r_h r_nd r_val]; auto.
  - destruct a as [w h nd ndc ow l]. destruct Hh as [Ew Eh End Ef EL Ev]. cbn [b_w b_h b_nodata b_data] in *. subst.
    destruct (holds_all (r_w r) (r_h r) (r_nd r) ndc ow l v Ef EL) as [b [X1 [X2 [X3 [_ X4]]]]].
    rewrite X1. cbn [bind]. exists b. auto.
  - destruct Hl as [F Ho]. destruct (resize_ok junk a w h v HJ F) as [b [X1 [X2 [X3 X4]]]].
    { destruct Ho as [Ho|Ho]; auto. right. rewrite (h_len _ _ Hh). lia. }
    rewrite X1. cbn [bind]. exists b. rewrite <- (h_nd _ _ Hh). auto.
  - rewrite (size_val _ _ Hh). cbn [bind]. eauto.
Qed.

Lemma calls_ok {A} (eqb : A -> A -> bool) (junk : nat -> list A) cs : forall (a : arr3 A) r,
  (forall n, length (junk n) = n) -> holds a r -> all_legal eqb (b_owned a) cs r ->
  exists b, calls eqb junk cs a = Ok (fst (steps eqb cs r), b) /\ holds b (snd (steps eqb cs r)) /\ b_ndc b = b_ndc a.
Proof.
  induction cs as [|c cs IH]; intros a r HJ Hh Hl; cbn [calls steps all_legal] in *; [eexists; split; [reflexivity|auto]|].
  destruct Hl as [H1 H2]. destruct (call_ok eqb junk c a r HJ Hh H1) as [b [E [Hb [Ho Hn]]]]. rewrite E. cbn [bind fst snd].
  destruct (IH b (snd (step eqb c r)) HJ Hb) as [b2 [E2 [Hb2 Hn2]]]; [rewrite Ho; exact H2|].
  rewrite E2. cbn [bind fst snd]. destruct (step eqb c r) as [o r1]. cbn [fst snd] in *.
  destruct (steps eqb cs r1) as [os r2]. cbn [fst snd] in *. exists b2. rewrite Hn2. auto.
Qed.
Lemma calls_wrong_resize {A} (eqb : A -> A -> bool) (junk : nat -> list A) (a : arr3 A) r w h v :
  holds a r -> b_owned a = false -> fits w h -> w * h <> r_w r * r_h r -> call eqb junk (Resize w h v) a = Thrown.
Proof.
  intros Hh Ho F Hn. cbn [call]. rewrite resize_wrapped; auto. rewrite (h_len _ _ Hh). lia.
Qed.

(** operator== *)
Lemma eq_loop_ok {A} (eqb : A -> A -> bool) (l o : list A) k : forall i, length l = length o -> Z.of_nat (length o) < 2 ^ 32 ->
  0 <= i -> i + Z.of_nat k = Z.of_nat (length o) ->
  eq_loop eqb l o (S k) i = Some (Ok (forallb (fun p => eqb (fst p) (snd p)) (skipn (Z.to_nat i) (combine l o)))).
Proof.
  induction k as [|k IH]; intros i HL H32 Hi Hk; cbn [eq_loop].
  - destruct (Z.ltb_spec i (Z.of_nat (length o))); [lia|].
    rewrite skipn_all2; [reflexivity|]. rewrite combine_length. lia.
  - destruct (Z.ltb_spec i (Z.of_nat (length o))); [|lia].
    destruct (rd_in l i) as [x [Rx Ix]]; [lia|]. destruct (rd_in o i) as [y [Ry Iy]]; [lia|]. rewrite Rx, Ry.
    assert (C : skipn (Z.to_nat i) (combine l o) = (x, y) :: skipn (Z.to_nat (i + 1)) (combine l o)).
    { clear - Ix Iy Hi. unfold ix in *. destruct (Z.ltb_spec i 0); [lia|]. replace (Z.to_nat (i + 1)) with (S (Z.to_nat i)) by lia.
      revert l o Ix Iy. generalize (Z.to_nat i) as m. induction m as [|m IHm]; intros [|a l] [|b o] Ix Iy; try discriminate;
        cbn [nth_error combine skipn] in *; [congruence|]. rewrite (IHm l o Ix Iy). destruct (combine l o); reflexivity. }
    rewrite C. cbn [forallb fst snd]. destruct (eqb x y); cbn [negb andb]; [|reflexivity].
    rewrite w32_id by lia. apply IH; lia.
Qed.

Lemma eq_loop_mono {A} (eqb : A -> A -> bool) (l o : list A) f : forall i r, eq_loop eqb l o f i = Some r ->
  forall f', (f <= f')%nat -> eq_loop eqb l o f' i = Some r.
Proof.
  induction f as [|f IH]; intros i r H [|f'] Hf; try lia; try discriminate. cbn [eq_loop] in *.
  destruct (i <? Z.of_nat (length o)); auto. destruct (rd l i); auto. destruct (rd o i); auto.
  destruct (negb (eqb a a0)); auto. apply IH; auto. lia.
Qed.

Lemma combine_eq {A} (eqb : A -> A -> bool) (Heq : forall x y, eqb x y = true <-> x = y) (l o : list A) :
  length l = length o -> forallb (fun p => eqb (fst p) (snd p)) (combine l o) = true <-> l = o.
Proof.
  revert o; induction l as [|a l IH]; intros [|b o] HL; try discriminate; cbn [combine forallb fst snd]; [tauto|].
  rewrite andb_true_iff, Heq, IH by (cbn in HL; lia). split; [intros [-> ->]; auto|intros E; inversion E; auto].
Qed.

Lemma eq_loop_diverges {A} (eqb : A -> A -> bool) (l : list A) : (forall x, eqb x x = true) -> 2 ^ 32 <= Z.of_nat (length l) ->
  forall f i, 0 <= i < 2 ^ 32 -> eq_loop eqb l l f i = None.
Proof.
  intros Hr HL f. induction f as [|f IH]; intros i Hi; cbn [eq_loop]; auto.
  destruct (Z.ltb_spec i (Z.of_nat (length l))); [|lia]. destruct (rd_in l i) as [x [Rx _]]; [lia|]. rewrite Rx, Hr.
  cbn [negb]. apply IH. apply Z.mod_pos_bound. lia.
Qed.

(** countDataCells *)
Lemma filter_le {A} (f : A -> bool) l : (length (filter f l) <= length l)%nat.
Proof. induction l as [|a l IH]; cbn; [lia|]. destruct (f a); cbn; lia. Qed.
Lemma count_prefix {A} (eqb : A -> A -> bool) (l : list A) nd k : Z.of_nat k <= Z.of_nat (length l) -> Z.of_nat k < 2 ^ 31 ->
  forM (zrange 0 k) (fun i c => do d <- rd l i; Ok (if negb (eqb d nd) then w64 (c + 1) else c)) 0 =
  Ok (Z.of_nat (length (filter (fun d => negb (eqb d nd)) (firstn k l)))).
Proof.
  intros HL HB. assert (2 ^ 31 = 2147483648) by reflexivity. assert (2 ^ 64 = 18446744073709551616) by reflexivity.
  induction k as [|k IH]; [reflexivity|].
  replace (zrange 0 (S k)) with (zrange 0 k ++ [Z.of_nat k]).
  2: { replace (S k) with (k + 1)%nat by lia. rewrite zrange_app. reflexivity. }
  rewrite forM_app, IH by lia. cbn [bind forM].
  destruct (rd_in l (Z.of_nat k)) as [d [R I]]; [lia|]. rewrite R. cbn [bind].
  unfold ix in I. destruct (Z.ltb_spec (Z.of_nat k) 0); [lia|]. rewrite Nat2Z.id in I.
  assert (F : firstn (S k) l = firstn k l ++ [d]).
  { clear - I. revert l I. induction k as [|k IH]; intros [|a l] I; try discriminate; cbn [firstn nth_error app] in *; [congruence|].
    f_equal. apply IH; auto. }
  rewrite F, filter_app, app_length. cbn [filter]. destruct (negb (eqb d nd)); cbn [length].
  - pose proof (filter_le (fun d => negb (eqb d nd)) (firstn k l)). pose proof (firstn_le_length k l).
    rewrite w64_id by lia. f_equal. lia.
  - f_equal. lia.
Qed.
