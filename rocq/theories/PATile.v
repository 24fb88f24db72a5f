(** What a consumer of parallel_d8_accum computes for its tile. *)
From Coq Require Import ZArith List Lia Bool Permutation.
From Verif Require Import Base Res Kahn RasterSpec RasterFacts FlowModel FlowSpec FlowProofs PAKahn PPFModel PAModel.
Open Scope Z_scope.

(** ** Sums *)
Definition zsum {B} (f : B -> Z) (l : list B) : Z := asum Z.add 0 (map f l).
Lemma zsum_cons {B} (f : B -> Z) b l : zsum f (b :: l) = f b + zsum f l.
Proof. reflexivity. Qed.
Lemma zsum_app {B} (f : B -> Z) l l' : zsum f (l ++ l') = zsum f l + zsum f l'.
Proof. induction l as [|b l IH]; cbn [app]; [reflexivity|]. rewrite !zsum_cons, IH. lia. Qed.
Lemma zsum_ext {B} (f g : B -> Z) l : (forall b, In b l -> f b = g b) -> zsum f l = zsum g l.
Proof.
  induction l as [|b l IH]; intros H; [reflexivity|]. rewrite !zsum_cons, (H b (or_introl eq_refl)), IH; [reflexivity|]. intros; apply H; right; auto.
Qed.
Lemma zsum_add {B} (f g : B -> Z) l : zsum (fun b => f b + g b) l = zsum f l + zsum g l.
Proof. induction l as [|b l IH]; [reflexivity|]. rewrite !zsum_cons, IH. lia. Qed.
Lemma zsum_mul {B} (f : B -> Z) k l : zsum (fun b => f b * k) l = zsum f l * k.
Proof. induction l as [|b l IH]; [reflexivity|]. rewrite !zsum_cons, IH. lia. Qed.
Lemma zsum_zero {B} (f : B -> Z) l : (forall b, In b l -> f b = 0) -> zsum f l = 0.
Proof. intros H. induction l as [|b l IH]; [reflexivity|]. rewrite zsum_cons, (H b (or_introl eq_refl)), IH; [reflexivity|]. intros; apply H; right; auto. Qed.
Lemma zsum_swap {B C} (f : B -> C -> Z) l l' : zsum (fun b => zsum (f b) l') l = zsum (fun c => zsum (fun b => f b c) l) l'.
Proof.
  induction l as [|b l IH]; [symmetry; apply zsum_zero; reflexivity|]. rewrite zsum_cons, IH, <- zsum_add. reflexivity.
Qed.
Lemma zsum_perm {B} (f : B -> Z) l l' : Permutation l l' -> zsum f l = zsum f l'.
Proof. intros P. apply (asum_perm Z.add 0 Z.add_comm Z.add_assoc), Permutation_map, P. Qed.
(** only one element counts *)
Lemma zsum_one {B} (f : B -> Z) l b : NoDup l -> In b l -> (forall b', In b' l -> b' <> b -> f b' = 0) -> zsum f l = f b.
Proof.
  intros ND I Z0. apply in_split in I. destruct I as [l1 [l2 ->]]. apply NoDup_remove in ND. destruct ND as [_ NI].
  rewrite zsum_app, zsum_cons, !zsum_zero; [lia| |]; intros b' Hb; (apply Z0; [apply in_app_iff; cbn; auto|intros ->; apply NI, in_app_iff; auto]).
Qed.
(** sums with the same terms *)
Lemma zsum_bij {B C} (f : B -> Z) (g : C -> Z) (l : list B) (l' : list C) (R : B -> C -> Prop) :
  NoDup l -> NoDup l' ->
  (forall b, In b l -> f b <> 0 -> exists c, In c l' /\ R b c) ->
  (forall c, In c l' -> g c <> 0 -> exists b, In b l /\ R b c) ->
  (forall b c, In b l -> In c l' -> R b c -> f b = g c) ->
  (forall b c c', In b l -> In c l' -> In c' l' -> R b c -> R b c' -> c = c') ->
  (forall b b' c, In b l -> In b' l -> In c l' -> R b c -> R b' c -> b = b') ->
  zsum f l = zsum g l'.
Proof.
  revert l'. induction l as [|b l IH]; intros l' N1 N2 F G E U1 U2.
  - symmetry. apply zsum_zero. intros c Hc. destruct (Z.eq_dec (g c) 0) as [|Z0]; [auto|]. destruct (G c Hc Z0) as [b [[] _]].
  - inversion N1 as [|? ? NI N1']; subst. rewrite zsum_cons. destruct (Z.eq_dec (f b) 0) as [Z0|Z0].
    + assert (D : forall c, In c l' -> R b c -> g c = 0) by (intros c Hc HR; rewrite <- (E b c (or_introl eq_refl) Hc HR); exact Z0).
      rewrite Z0, Z.add_0_l. apply IH; auto.
      * intros b' Hb. apply F. right; auto.
      * intros c Hc Gc. destruct (G c Hc Gc) as [b' [[<-|Hb] HR]]; [exfalso; apply Gc, D; auto|exists b'; auto].
      * intros b' c Hb. apply E. right; auto.
      * intros b' c c' Hb. apply U1. right; auto.
      * intros b' b'' c Hb Hb'. apply U2; right; auto.
    + destruct (F b (or_introl eq_refl) Z0) as [c [Hc HR]]. pose proof Hc as Hc0. apply in_split in Hc. destruct Hc as [l1 [l2 ->]].
      pose proof N2 as N2'. apply NoDup_remove in N2'. destruct N2' as [N3 NI'].
      assert (SUB : forall c', In c' (l1 ++ l2) -> In c' (l1 ++ c :: l2)) by (intros c' I; apply in_app_iff; apply in_app_iff in I; cbn; tauto).
      rewrite zsum_app, zsum_cons, (E b c (or_introl eq_refl) Hc0 HR). rewrite (IH (l1 ++ l2)); auto.
      * rewrite zsum_app. lia.
      * intros b' Hb Z'. destruct (F b' (or_intror Hb) Z') as [c' [Hc' HR']]. exists c'. split; [|auto]. apply in_app_iff. apply in_app_iff in Hc'. cbn [In] in Hc'.
        destruct Hc' as [?|[<-|?]]; auto. exfalso. apply NI. rewrite (U2 b b' c); auto; [left; auto|right; auto].
      * intros c' Hc' Gc. destruct (G c' (SUB _ Hc') Gc) as [b' [[<-|Hb] HR']]; [|exists b'; auto].
        exfalso. apply NI'. rewrite (U1 b c c'); auto. left; auto.
      * intros b' c' Hb Hc'. apply E; [right; auto|auto].
      * intros b' c' c'' Hb Hc' Hc''. apply U1; auto. right; auto.
      * intros b' b'' c' Hb Hb' Hc'. apply U2; auto; right; auto.
Qed.

(** ** The numbering of the perimeter *)
Section Perim.
  Variables w h : Z.
  Hypothesis Hw : 1 <= w.
  Hypothesis Hh : 2 <= h.
  Definition ser (c : cellt) : Z :=
    let '(x, y) := c in
    if y =? 0 then x else if x =? w - 1 then (w - 1) + y else if y =? h - 1 then (w - 1) + h + x else 2 * (w - 1) + (h - 1) + y.
  Definition pos (s : Z) : cellt :=
    if s <? w then (s, 0) else if s <? (w - 1) + h then (w - 1, s - (w - 1))
    else if s <? 2 * (w - 1) + h then (s - (w - 1) - (h - 1) - 1, h - 1) else (0, s - 2 * (w - 1) - (h - 1)).
  Definition plen : Z := 2 * w + 2 * (h - 2).
  (** the perimeter *)
  Definition rim (c : cellt) : Prop := in_raster w h (fst c) (snd c) /\ (fst c = 0 \/ fst c = w - 1 \/ snd c = 0 \/ snd c = h - 1).

  Lemma on_perim_iff c : on_perim w h c = true <-> rim c.
  Proof.
    unfold on_perim, rim, in_raster. rewrite !andb_true_iff, !orb_true_iff, !Z.eqb_eq, !Z.leb_le, !Z.ltb_lt. lia.
  Qed.
  Lemma ser_ok c : rim c -> xyToSerial w h c = Ok (ser c).
  Proof. intros R. destruct c as [x y]. unfold xyToSerial. apply on_perim_iff in R. rewrite R. reflexivity. Qed.
  Lemma ser_range c : rim c -> 0 <= ser c < plen.
  Proof.
    destruct c as [x y]. unfold rim, in_raster, ser, plen. cbn [fst snd]. intros R.
    destruct (Z.eqb_spec y 0); [lia|]. destruct (Z.eqb_spec x (w - 1)); [lia|]. destruct (Z.eqb_spec y (h - 1)); lia.
  Qed.
  Lemma pos_ser c : rim c -> pos (ser c) = c.
  Proof.
    destruct c as [x y]. unfold rim, in_raster, ser, pos. cbn [fst snd]. intros R.
    destruct (Z.eqb_spec y 0); [|destruct (Z.eqb_spec x (w - 1)); [|destruct (Z.eqb_spec y (h - 1))]];
      repeat match goal with |- context[?a <? ?b] => destruct (Z.ltb_spec a b); try lia end; f_equal; lia.
  Qed.
  Lemma pos_rim s : 0 <= s < plen -> rim (pos s).
  Proof.
    unfold plen, pos, rim, in_raster. intros R.
    repeat match goal with |- context[?a <? ?b] => destruct (Z.ltb_spec a b) end; cbn [fst snd]; lia.
  Qed.
  Lemma pos_ok s : 0 <= s < plen -> serialToXY w h s = Ok (pos s).
  Proof.
    intros R. apply pos_rim in R. apply on_perim_iff in R. change (serialToXY w h s) with (if negb (on_perim w h (pos s)) then Undef else Ok (pos s)). rewrite R. reflexivity.
  Qed.
  Lemma ser_pos s : 0 <= s < plen -> 2 <= w -> ser (pos s) = s.
  Proof.
    unfold plen, pos, ser. intros R W2.
    repeat match goal with |- context[?a <? ?b] => destruct (Z.ltb_spec a b) end;
      repeat match goal with |- context[?a =? ?b] => destruct (Z.eqb_spec a b); try lia end.
  Qed.
  Lemma ser_inj c d : rim c -> rim d -> ser c = ser d -> c = d.
  Proof. intros C D E. rewrite <- (pos_ser c C), <- (pos_ser d D), E. reflexivity. Qed.

  Lemma ix_zmap (f : Z -> Z) a n k : 0 <= k < Z.of_nat n -> nth_error (map f (zrange a n)) (Z.to_nat k) = Some (f (a + k)).
  Proof.
    revert a k. induction n as [|n IH]; intros a k Hk; [lia|]. cbn [zrange map]. destruct (Z.eq_dec k 0) as [->|].
    - cbn [Z.to_nat nth_error]. f_equal. f_equal. lia.
    - replace (Z.to_nat k) with (S (Z.to_nat (k - 1))) by lia. cbn [nth_error]. rewrite IH by lia. f_equal. f_equal. lia.
  Qed.
  Lemma nth_app {A} (l l' : list A) k : 0 <= k -> nth_error (l ++ l') (Z.to_nat k) = if k <? Z.of_nat (length l) then nth_error l (Z.to_nat k) else nth_error l' (Z.to_nat (k - Z.of_nat (length l))).
  Proof.
    intros Hk. destruct (Z.ltb_spec k (Z.of_nat (length l))); [apply nth_error_app1; lia|]. rewrite nth_error_app2 by lia. f_equal. lia.
  Qed.
  Lemma perim_ok (g : cellt -> Z) : exists l, GridPerimToArray w h g = Ok l /\ Z.of_nat (length l) = plen /\ forall s, 0 <= s < plen -> ix l s = Some (g (pos s)).
  Proof.
    unfold GridPerimToArray. destruct (Z.leb_spec h 1); [lia|]. eexists. split; [reflexivity|]. split.
    - rewrite !app_length, !map_length, !zrange_length. unfold plen. lia.
    - intros s Hs. unfold ix. destruct (Z.ltb_spec s 0); [lia|]. unfold plen, pos in *. rewrite nth_app by lia. rewrite map_length, zrange_length. rewrite Z2Nat.id by lia. destruct (Z.ltb_spec s w); [apply (ix_zmap (fun x => g (x, 0))); lia|].
      rewrite nth_app by lia. rewrite map_length, zrange_length. rewrite Z2Nat.id by lia.
      destruct (Z.ltb_spec (s - w) (h - 1)), (Z.ltb_spec s (w - 1 + h)); try lia; [rewrite (ix_zmap (fun y => g (w - 1, y))) by lia; f_equal; f_equal; f_equal; lia|].
      rewrite nth_app by lia. rewrite map_length, zrange_length. rewrite Z2Nat.id by lia.
      destruct (Z.ltb_spec (s - w - (h - 1)) (w - 1)), (Z.ltb_spec s (2 * (w - 1) + h)); try lia; [rewrite (ix_zmap (fun x => g (x, h - 1))) by lia; f_equal; f_equal; f_equal; lia|].
      rewrite (ix_zmap (fun y => g (0, y))) by lia. f_equal. f_equal. f_equal. lia.
  Qed.
End Perim.
