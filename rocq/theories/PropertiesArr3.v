(** C79: rasters with nine values per cell (Array3D). *)
From Coq Require Import ZArith List Lia Bool.
From Verif Require Import Base Res ArrModel ArrProofs Arr3Model Arr3Spec Arr3Proofs.
Open Scope Z_scope.

(** A new array, whatever memory it gets, and then any legal sequence of calls: every call returns what
    the raster of the specification returns, and the memory holds that raster. *)
Theorem C79_array3d_is_raster {A} (eqb : A -> A -> bool) (junk : nat -> list A) w h v cs :
  (forall n, length (junk n) = n) -> fits w h ->
  let r := mkR3 w h None (fun _ _ _ => v) in
  all_legal eqb true cs r ->
  exists a b, new3 junk w h v = Ok a /\ holds a r /\
    calls eqb junk cs a = Ok (fst (steps eqb cs r), b) /\ holds b (snd (steps eqb cs r)).
Proof.
  intros HJ F r HL. destruct (resize_ok junk (@empty3 A) w h v HJ F) as [a [E [_ [Ho Hh]]]]; [left; reflexivity|].
  cbn [empty3 b_nodata b_owned] in *. exists a.
  destruct (calls_ok eqb junk cs a r HJ Hh) as [b [E2 [Hb _]]]; [rewrite Ho; exact HL|].
  exists b. split; [exact E|]. auto.
Qed.
Print Assumptions C79_array3d_is_raster.

Definition ex_calls : list (call3 Z) :=
  [Put 1 0 8 5; Put 2 1 0 7; PutI 2 3 6; Get 1 0 8; GetI 1 8; Get 2 0 3; GetI 5 0; Get 0 0 0; PutND 7; IsND 2 1; IsNDI 4;
   Size; Resize 2 2 1; Get 1 1 8].
Example C79_raster_not_vacuous :
  fits 3 2 /\ all_legal Z.eqb true ex_calls (mkR3 3 2 None (fun _ _ _ => 0)) /\
  fst (steps Z.eqb ex_calls (mkR3 3 2 None (fun _ _ _ => 0))) =
  [Done; Done; Done; Val 5; Val 5; Val 6; Val 7; Val 0; Done; Flag true; Flag false; Num 6; Done; Val 1].
Proof.
  split; [unfold fits; lia|]. split; [|vm_compute; reflexivity].
  vm_compute. repeat split; try discriminate. left; reflexivity.
Qed.

(** The two addressing schemes name the same values; different (x,y,n) are different places. *)
Theorem C79_addressing {A} (a : arr3 A) r : holds a r ->
  (forall x y n, has r x y n -> get3 a x y n = getIN a (y * r_w r + x) n /\ get3 a x y n = Ok (r_val r x y n)) /\
  (forall x y n x' y' n', has r x y n -> has r x' y' n' -> xyToI3 a x y n = xyToI3 a x' y' n' -> x = x' /\ y = y' /\ n = n') /\
  (forall x y n, has r x y n -> 0 <= xyToI3 a x y n < Z.of_nat (length (b_data a))).
Proof.
  intros Hh. split; [|split].
  - intros x y n H. unfold get3, getIN. rewrite (addr _ _ _ _ _ Hh H). rewrite w64_id.
    + split; [reflexivity|]. apply slot_rd; auto.
    + pose proof (slot_range _ _ _ _ H). destruct (h_fits _ _ Hh) as [_ [_ F]].
      assert (2 ^ 31 = 2147483648) by reflexivity. assert (2 ^ 64 = 18446744073709551616) by reflexivity. lia.
  - intros x y n x' y' n' H H' E. rewrite (addr _ _ _ _ _ Hh H), (addr _ _ _ _ _ Hh H') in E. eapply slot_inj; eauto.
  - intros x y n H. rewrite (addr _ _ _ _ _ Hh H), (h_len _ _ Hh). apply slot_range; auto.
Qed.
Print Assumptions C79_addressing.

(** Wrapped memory is used in place: the caller's values are the array's, legal calls behave the same,
    and a resize to another number of cells is refused. *)
Theorem C79_wrapped_memory {A} (eqb : A -> A -> bool) (junk : nat -> list A) (l : list A) w h f cs :
  (forall n, length (junk n) = n) -> 0 <= w -> 0 <= h -> w < 2 ^ 31 -> h < 2 ^ 31 -> 9 * w < 2 ^ 31 -> 9 * w * h < 2 ^ 31 ->
  Z.of_nat (length l) = 9 * (w * h) ->
  (forall x y n, 0 <= x < w -> 0 <= y < h -> 0 <= n < 9 -> nth_error l (Z.to_nat (9 * (y * w + x) + n)) = Some (f x y n)) ->
  let r := mkR3 w h None f in
  exists a, wrap3 l w h = Ok a /\ b_data a = l /\ holds a r /\
    (all_legal eqb false cs r -> exists b, calls eqb junk cs a = Ok (fst (steps eqb cs r), b) /\ holds b (snd (steps eqb cs r))) /\
    (forall w' h' v, fits w' h' -> w' * h' <> w * h -> call eqb junk (Resize w' h' v) a = Thrown).
Proof.
  intros HJ Hw Hh Hw1 Hh1 Hw2 Hs HL Hf r. exists (mk3 w h None NO_I3 false l).
  assert (P : 2 ^ 31 = 2147483648) by reflexivity. assert (0 <= w * h) by nia.
  assert (HH : holds (mk3 w h None NO_I3 false l) r).
  { constructor; cbn [b_w b_h b_nodata b_data r_w r_h r_nd r_val r]; auto.
    - split; [lia|]. split; [lia|]. lia.
    - intros x y n [X [Y N]]. apply Hf; auto. }
  split. { unfold wrap3. destruct (Z.leb_spec (- 2 ^ 31) (9 * w)); [|lia]. destruct (Z.ltb_spec (9 * w) (2 ^ 31)); [|lia].
    destruct (Z.leb_spec (- 2 ^ 31) (9 * w * h)); [|lia]. destruct (Z.ltb_spec (9 * w * h) (2 ^ 31)); [|lia]. reflexivity. }
  split; [reflexivity|]. split; [exact HH|]. split.
  - intros Hl. destruct (calls_ok eqb junk cs _ r HJ HH Hl) as [b [E [Hb _]]]. eauto.
  - intros w' h' v F Hn. eapply calls_wrong_resize; eauto.
Qed.
Print Assumptions C79_wrapped_memory.
Example C79_wrapped_not_vacuous :
  exists a, wrap3 (zrange 0 18) 2 1 = Ok a /\ holds a (mkR3 2 1 None (fun x y n => 9 * (y * 2 + x) + n)) /\
    all_legal Z.eqb false [Get 1 0 4; Resize 1 2 0] (mkR3 2 1 None (fun x y n => 9 * (y * 2 + x) + n)) /\
    call Z.eqb (fun n => repeat 0 n) (Resize 3 1 0) a = Thrown.
Proof.
  eexists. split; [vm_compute; reflexivity|]. split; [|split; [|vm_compute; reflexivity]].
  - constructor; cbn [b_w b_h b_nodata b_data r_w r_h r_nd r_val]; auto; [unfold fits; lia|].
    intros x y n [X [Y N]]. cbn [r_w r_h] in *. assert (y = 0) by lia. subst y.
    assert (C : forall k, 0 <= k < 18 -> nth_error (zrange 0 18) (Z.to_nat k) = Some k).
    { intros k Hk. assert (G : (Z.to_nat k < 18)%nat) by lia. rewrite <- (Z2Nat.id k) at 2 by lia. revert G.
      generalize (Z.to_nat k). intros m G. do 18 (destruct m as [|m]; [reflexivity|]). lia. }
    apply C. lia.
  - unfold all_legal, legal, step, has, fits. cbn [r_w r_h snd]. repeat split; auto; lia.
Qed.

(** ** operator== *)

(** The result for arrays whose memory has fewer than 2^32 values: equal dimensions and equal values. *)
Theorem C79_equality {A} (eqb : A -> A -> bool) (a b : arr3 A) ra rb :
  (forall x y, eqb x y = true <-> x = y) -> holds a ra -> holds b rb -> 9 * (r_w rb * r_h rb) < 2 ^ 32 ->
  exists res, (exists f0, forall f, (f0 <= f)%nat -> eq3 eqb a b f = Some (Ok res)) /\
    (res = true <-> r_w ra = r_w rb /\ r_h ra = r_h rb /\ forall x y n, has ra x y n -> r_val ra x y n = r_val rb x y n).
Proof.
  intros He Ha Hb Hs. unfold eq3.
  pose proof (h_w _ _ Ha) as Wa. pose proof (h_w _ _ Hb) as Wb. pose proof (h_h _ _ Ha) as Ya. pose proof (h_h _ _ Hb) as Yb.
  rewrite Wa, Wb, Ya, Yb. destruct (Z.eqb_spec (r_w ra) (r_w rb)) as [E1|E1]; cbn [negb orb].
  2: { exists false. split; [exists O; auto|]. split; [discriminate|intros [? _]; contradiction]. }
  destruct (Z.eqb_spec (r_h ra) (r_h rb)) as [E2|E2]; cbn [negb orb].
  2: { exists false. split; [exists O; auto|]. split; [discriminate|intros [_ [? _]]; contradiction]. }
  pose proof (h_len _ _ Ha) as La. pose proof (h_len _ _ Hb) as Lb.
  assert (HL : length (b_data a) = length (b_data b)) by (rewrite <- E1, <- E2 in Lb; lia).
  eexists. split.
  - exists (S (length (b_data b))). intros f Hf. eapply eq_loop_mono; [|exact Hf]. apply eq_loop_ok; auto; lia.
  - cbn [skipn Z.to_nat]. rewrite combine_eq by auto. split.
    + intros E. split; [auto|]. split; [auto|]. intros x y n H.
      assert (H' : has rb x y n) by (unfold has in *; rewrite <- E1, <- E2; exact H).
      pose proof (h_val _ _ Ha _ _ _ H) as Va. pose proof (h_val _ _ Hb _ _ _ H') as Vb. rewrite E, E1 in Va. congruence.
    + intros [_ [_ HV]]. apply ix_ext; auto. intros i Hi. rewrite La in Hi.
      assert (Hd : i = 9 * (i / 9) + i mod 9) by (apply Z_div_mod_eq_full).
      pose proof (Z.mod_pos_bound i 9 ltac:(lia)) as Hm.
      assert (HC : 0 <= i / 9 < r_w ra * r_h ra) by lia.
      destruct (h_fits _ _ Ha) as [Fw _].
      destruct (split_i ra (i / 9) (i mod 9) ltac:(lia) HC Hm) as [HH HS].
      assert (H' : has rb (i / 9 mod r_w ra) (i / 9 / r_w ra) (i mod 9)) by (unfold has in *; rewrite <- E1, <- E2; exact HH).
      pose proof (h_val _ _ Ha _ _ _ HH) as Va. pose proof (h_val _ _ Hb _ _ _ H') as Vb.
      rewrite <- HS in Va. rewrite <- E1, <- HS in Vb. rewrite <- Hd in Va, Vb.
      unfold ix. destruct (Z.ltb_spec i 0); [reflexivity|]. rewrite Va, Vb, HV; auto.
Qed.
Print Assumptions C79_equality.

(** The documentation says that the NoData value is compared too: it is not. *)
Theorem C79_equality_ignores_nodata_refuted :
  ~ (forall (a b : arr3 Z) ra rb f, holds a ra -> holds b rb -> eq3 Z.eqb a b f = Some (Ok true) -> r_nd ra = r_nd rb).
Proof.
  intros H.
  assert (X : Some 1 = Some 2).
  { apply (H (mk3 0 0 (Some 1) NO_I3 true []) (mk3 0 0 (Some 2) NO_I3 true [])
             (mkR3 0 0 (Some 1) (fun _ _ _ => 0)) (mkR3 0 0 (Some 2) (fun _ _ _ => 0)) 1%nat);
      [| |reflexivity];
      (constructor; cbn [b_w b_h b_nodata b_data r_w r_h r_nd r_val]; auto; [unfold fits; lia|unfold has; cbn [r_w]; lia]). }
  discriminate.
Qed.
Print Assumptions C79_equality_ignores_nodata_refuted.

(** From 2^32 stored values on (477 218 589 cells), comparing an array with an equal one never ends. *)
Theorem C79_equality_endless {A} (eqb : A -> A -> bool) (a : arr3 A) r :
  (forall x, eqb x x = true) -> holds a r -> 2 ^ 32 <= 9 * (r_w r * r_h r) -> forall fuel, eq3 eqb a a fuel = None.
Proof.
  intros He Ha Hs fuel. unfold eq3. rewrite !Z.eqb_refl. cbn [negb orb]. apply eq_loop_diverges; auto; [|lia].
  rewrite (h_len _ _ Ha). exact Hs.
Qed.
Print Assumptions C79_equality_endless.
Example C79_endless_not_vacuous : exists a r, @holds Z a r /\ 2 ^ 32 <= 9 * (r_w r * r_h r).
Proof.
  destruct (resize_ok (fun n => repeat 0 n) (@empty3 Z) 32768 16384 0) as [b [_ [_ [_ H]]]];
    [intros n; apply repeat_length|unfold fits; lia|left; reflexivity|].
  exists b, (mkR3 32768 16384 None (fun _ _ _ => 0)). split; [exact H|]. cbn [r_w r_h]. lia.
Qed.

(** ** numDataCells *)

(** The first answer counts, among the first width*height stored values (those of the first ninth of
    the cells, all nine neighbours), the ones that differ from NoData. *)
Theorem C79_numDataCells {A} (eqb : A -> A -> bool) (a : arr3 A) r nd : holds a r -> b_ndc a = NO_I3 -> r_nd r = Some nd ->
  let c := Z.of_nat (length (filter (fun d => negb (eqb d nd)) (firstn (Z.to_nat (r_w r * r_h r)) (b_data a)))) in
  exists b, numDataCells3 eqb a = Ok (c, b) /\ holds b r /\
  (* and every later answer is this one, whatever is stored or resized in between *)
  forall junk cs, (forall n, length (junk n) = n) -> all_legal eqb (b_owned a) cs r ->
    exists b' os, calls eqb junk cs b = Ok (os, b') /\ numDataCells3 eqb b' = Ok (c, b').
Proof.
  intros Ha Hn Hnd c. destruct (h_fits _ _ Ha) as [Fw [Fh F]]. pose proof (h_len _ _ Ha) as HL.
  assert (0 <= r_w r * r_h r) by nia.
  assert (2 ^ 31 = 2147483648) by reflexivity. assert (2 ^ 64 = 18446744073709551616) by reflexivity.
  assert (HC : countDataCells3 eqb a = Ok c).
  { unfold countDataCells3. rewrite (size_val _ _ Ha). cbn [bind]. unfold nodata3. rewrite (h_nd _ _ Ha), Hnd. cbn [bind].
    apply count_prefix; lia. }
  assert (Hc : c <> NO_I3).
  { unfold c, NO_I3. pose proof (filter_le (fun d => negb (eqb d nd)) (firstn (Z.to_nat (r_w r * r_h r)) (b_data a))).
    rewrite firstn_length in H2. lia. }
  unfold numDataCells3 at 1. rewrite Hn, Z.eqb_refl, HC. cbn [bind]. eexists. split; [reflexivity|].
  assert (Hb : holds (mk3 (b_w a) (b_h a) (b_nodata a) c (b_owned a) (b_data a)) r) by (destruct Ha; constructor; auto).
  split; [exact Hb|]. intros junk cs HJ Hl.
  destruct (calls_ok eqb junk cs _ r HJ Hb Hl) as [b' [E [_ En]]]. exists b', (fst (steps eqb cs r)). split; [exact E|].
  unfold numDataCells3. rewrite En. cbn [b_ndc]. destruct (Z.eqb_spec c NO_I3); [contradiction|reflexivity].
Qed.
Print Assumptions C79_numDataCells.

(** "the number of cells which are not NoData": refuted, already for the first call *)
Theorem C79_numDataCells_refuted :
  ~ (forall (a : arr3 Z) r nd c b, holds a r -> b_ndc a = NO_I3 -> r_nd r = Some nd -> numDataCells3 Z.eqb a = Ok (c, b) ->
       c = Z.of_nat (length (filter (fun p => negb (r_val r (fst p) (snd p) 0 =? nd)) (cells (r_w r) (r_h r))))).
Proof.
  intros H.
  set (f := fun x y n : Z => if (x =? 0) && (n =? 1) then 7 else 5).
  assert (X : 1 = Z.of_nat (length (filter (fun p => negb (f (fst p) (snd p) 0 =? 5)) (cells 9 1)))).
  { eapply (H (mk3 9 1 (Some 5) NO_I3 true (5 :: 7 :: repeat 5 79)) (mkR3 9 1 (Some 5) f) 5); cbn [r_nd r_w r_h r_val]; auto.
    2: { vm_compute. reflexivity. }
    constructor; cbn [b_w b_h b_nodata b_data r_w r_h r_nd r_val]; auto; [unfold fits; lia|].
    intros x y n [X [Y N]]. cbn [r_w r_h] in *. assert (y = 0) by lia. subst y. unfold f.
    replace (9 * (0 * 9 + x) + n) with (9 * x + n) by lia.
    assert (C : 9 * x + n = 0 \/ 9 * x + n = 1 \/ 2 <= 9 * x + n) by lia.
    destruct (Z.eqb_spec x 0) as [Hx|Hx]; destruct (Z.eqb_spec n 1) as [Hn|Hn]; cbn [andb].
    1: { subst. reflexivity. }
    all: destruct (Z.to_nat (9 * x + n)) as [|[|m]] eqn:E; [reflexivity|lia|]; cbn [nth_error]; apply nth_error_repeat; lia. }
  vm_compute in X. discriminate.
Qed.
Print Assumptions C79_numDataCells_refuted.

(** ** Uninitialised and cleared arrays *)

(** Until setNoData is called, isNoData reads an uninitialised member, also when the array was made
    from another raster, whose NoData value is not taken over. *)
Theorem C79_nodata_uninitialised {A B} (eqb : A -> A -> bool) (junk : nat -> list A) (e : arr B) v x y :
  (forall n, length (junk n) = n) -> fits (a_w e) (a_h e) -> 0 <= x < a_w e -> 0 <= y < a_h e ->
  exists a, like2 junk e v = Ok a /\ holds a (mkR3 (a_w e) (a_h e) None (fun _ _ _ => v)) /\
    isNoData3 eqb a x y = Undef /\ isNoData3 eqb (setNoData3 a v) x y = Ok (eqb v v).
Proof.
  intros HJ F Hx Hy. unfold like2. destruct (resize_ok junk (mk3 (a_w e) (a_h e) None NO_I3 true []) (a_w e) (a_h e) v HJ F)
    as [a [E [_ [_ Hh]]]]; [left; reflexivity|]. cbn [b_nodata] in Hh.
  exists a. split; [exact E|]. split; [exact Hh|].
  assert (H : has (mkR3 (a_w e) (a_h e) None (fun _ _ _ : Z => v)) x y 0) by (unfold has; cbn [r_w r_h]; lia).
  assert (G : get3 a x y 0 = Ok v) by (unfold get3; rewrite (addr _ _ _ _ _ Hh H); apply (slot_rd _ _ _ _ _ Hh H)).
  split.
  - unfold isNoData3, nodata3. rewrite G, (h_nd _ _ Hh). reflexivity.
  - unfold isNoData3, nodata3. change (get3 (setNoData3 a v) x y 0) with (get3 a x y 0). rewrite G. reflexivity.
Qed.
Print Assumptions C79_nodata_uninitialised.
Example C79_uninitialised_not_vacuous : fits (a_w (wrap_arr 0 [1;2;3;4] 2 2)) (a_h (wrap_arr 0 [1;2;3;4] 2 2)).
Proof. unfold fits; cbn; lia. Qed.

(** clear() keeps the dimensions: every access afterwards is out of bounds, and two arrays of the same
    dimensions compare equal when the right one is cleared and are undefined when the left one is. *)
Theorem C79_cleared {A} (eqb : A -> A -> bool) (a c : arr3 A) r : holds a r -> 0 < r_w r -> 0 < r_h r -> clear3 a = Ok c ->
  b_w c = r_w r /\ b_h c = r_h r /\ (forall x y n, get3 c x y n = Undef) /\
  (forall f, (0 < f)%nat -> eq3 eqb a c f = Some (Ok true) /\ eq3 eqb c a f = Some Undef).
Proof.
  intros Ha Hw Hh E. unfold clear3 in E. destruct (b_owned a); inversion E; subst c; clear E.
  cbn [b_w b_h]. rewrite (h_w _ _ Ha), (h_h _ _ Ha). split; [auto|]. split; [auto|]. split.
  - intros x y n. unfold get3. apply rd_out. cbn [b_data length]. lia.
  - intros f Hf. unfold eq3. cbn [b_w b_h b_data]. rewrite (h_w _ _ Ha), (h_h _ _ Ha), !Z.eqb_refl. cbn [negb orb].
    destruct f as [|f]; [lia|]. cbn [eq_loop length]. split; [reflexivity|].
    pose proof (h_len _ _ Ha). destruct (Z.ltb_spec 0 (Z.of_nat (length (b_data a)))); [|nia].
    rewrite rd_out by (cbn; lia). reflexivity.
Qed.
Print Assumptions C79_cleared.
Example C79_cleared_not_vacuous : exists a c r, @holds Z a r /\ 0 < r_w r /\ 0 < r_h r /\ clear3 a = Ok c.
Proof.
  destruct (resize_ok (fun n => repeat 0 n) (@empty3 Z) 2 3 0) as [b [_ [_ [Ho H]]]];
    [intros n; apply repeat_length|unfold fits; lia|left; reflexivity|].
  exists b. eexists. exists (mkR3 2 3 None (fun _ _ _ => 0)). split; [exact H|]. cbn [r_w r_h]. split; [lia|]. split; [lia|].
  unfold clear3. rewrite Ho. reflexivity.
Qed.
