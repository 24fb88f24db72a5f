(** Windows, conversions of NoData values and metadata of GDALModel.v. *)
From Coq Require Import ZArith List Lia Bool String QArith Qcanon Reals Lra.
From Flocq Require Import Core BinarySingleNaN.
From Verif Require Import Base Res FAFModel FAFNum PyModel PyIntModel PyNumModel PyProofs3 PropertiesPyNum PropertiesEpsInt GDALModel.
Open Scope Z_scope.
Open Scope list_scope.

Lemma window_length cell xo yo w h : 0 <= w -> 0 <= h -> Z.of_nat (length (window cell xo yo w h)) = w * h.
Proof. intros. unfold window. destruct (list_of_gen (fun x y => cell (xo + x) (yo + y)) (Z.to_nat w) (Z.to_nat h) 0) as [L _]. rewrite L. nia. Qed.
Lemma window_at cell xo yo w h x y : 0 <= x < w -> 0 <= y < h -> cell_at w (window cell xo yo w h) x y = cell (xo + x) (yo + y).
Proof.
  intros Hx Hy. unfold window, cell_at. destruct (list_of_gen (fun x y => cell (xo + x) (yo + y)) (Z.to_nat w) (Z.to_nat h) 0) as [_ G].
  specialize (G (Z.to_nat y) (Z.to_nat x) ltac:(lia) ltac:(lia)). replace (Z.to_nat (y * w + x)) with (Z.to_nat y * Z.to_nat w + Z.to_nat x)%nat by nia.
  erewrite nth_error_nth by exact G. f_equal; lia.
Qed.
Lemma window_id w h l : 0 <= w -> 0 <= h -> Z.of_nat (length l) = w * h -> window (cell_at w l) 0 0 w h = l.
Proof.
  intros Hw Hh HL. apply nth_ext with (d := VI 0) (d' := VI 0).
  - pose proof (window_length (cell_at w l) 0 0 w h Hw Hh). lia.
  - intros n Hn. pose proof (window_length (cell_at w l) 0 0 w h Hw Hh) as L. assert (Hn' : Z.of_nat n < w * h) by lia.
    assert (0 < w) by nia. pose proof (Z.mod_pos_bound (Z.of_nat n) w ltac:(lia)) as M. pose proof (Z.div_mod (Z.of_nat n) w ltac:(lia)) as D.
    assert (Hq : 0 <= Z.of_nat n / w < h) by (split; [apply Z.div_pos; lia|apply Z.div_lt_upper_bound; lia]).
    pose proof (window_at (cell_at w l) 0 0 w h (Z.of_nat n mod w) (Z.of_nat n / w) M Hq) as A. unfold cell_at in A at 1.
    replace (Z.to_nat (Z.of_nat n / w * w + Z.of_nat n mod w)) with n in A by lia. rewrite A. unfold cell_at. f_equal. lia.
Qed.
Lemma map_conv_id (f : val -> val) l : (forall v, f v = v) -> map f l = l.
Proof. intros H. rewrite (map_ext _ _ H). apply map_id. Qed.

Lemma get_meta ds : ProcessMetadata (GetMetadata ds) = Ok [].
Proof. unfold GetMetadata, ProcessMetadata. destruct (ds_meta ds); reflexivity. Qed.

Lemma dtype_eqb_refl d : dtype_eqb d d = true. Proof. destruct d; reflexivity. Qed.
Lemma dtype_eqb_eq d d' : dtype_eqb d d' = true <-> d = d'.
Proof. split; [destruct d, d'; cbn; congruence|intros ->; apply dtype_eqb_refl]. Qed.

(** values of a type *)
Definition typed (d : dtype) (v : val) : Prop :=
  match d, v with
  | Float32, VF _ | Float64, VD _ => True
  | (Int8 | Int16 | Int32 | Int64 | Uint8 | Uint16 | Uint32 | Uint64), VI z => dmin d <= z <= dmax d
  | _, _ => False
  end.

Lemma f32_f64_f32 (f : float32) : f32_of_f64 (f64_of_f32 f) = f.
Proof.
  destruct f as [s|s| |s m e Hb] eqn:Ef; try reflexivity.
  assert (Ff : is_finite (B754_finite s m e Hb : float32) = true) by reflexivity.
  destruct (f64_of_f32_ok _ Ff) as [E1 E2]. set (f' := (B754_finite s m e Hb : float32)) in *.
  assert (N : nearest32 (B2R (f64_of_f32 f')) = B2R f') by (rewrite E1; unfold nearest32; apply round_generic; [apply valid_rnd_N|apply f32_format]).
  destruct (f32_of_f64_spec (f64_of_f32 f') E2) as [A _]. rewrite N in A. destruct (A (f32_bound f')) as [B1 B2].
  apply B2R_inj; [|reflexivity|exact B1].
  destruct (f32_of_f64 (f64_of_f32 f')) as [s'|s'| |s' m' e' Hb'] eqn:EE; try discriminate; [|reflexivity].
  exfalso. cbn [B2R] in B1. symmetry in B1. subst f'. cbn [B2R] in B1. apply eq_0_F2R in B1. cbn in B1. destruct s; discriminate.
Qed.
Lemma f64_trunc z : Z.abs z <= 2 ^ 53 -> is_finite (f64_of_Z z) = true /\ Btrunc (f64_of_Z z) = z.
Proof.
  intros Hz. destruct (f64_int z Hz) as (E1 & E2 & _). split; [exact E2|].
  pose proof (Btrunc_correct 53 1024 emax1024 (f64_of_Z z)) as T. rewrite E1 in T.
  rewrite round_generic in T; [|apply valid_rnd_ZR|].
  - apply eq_IZR in T. exact T.
  - replace (IZR z) with (F2R (Float radix2 z 0)) by (unfold F2R; cbn; ring). apply generic_format_FIX. exists (Float radix2 z 0); reflexivity.
Qed.
Lemma of_to_double d v : has_gdal_type d = true -> typed d v -> of_double d (to_double v) = Ok v.
Proof.
  pose proof f64_trunc as I.
  assert (J : forall z, Z.abs z <= 2 ^ 53 -> dmin d <= z <= dmax d -> (is_finite (f64_of_Z z) && (dmin d <=? Btrunc (f64_of_Z z)) && (Btrunc (f64_of_Z z) <=? dmax d) = true) /\ Btrunc (f64_of_Z z) = z).
  { intros z Hz Hd. destruct (I z Hz) as [I1 I2]. rewrite I2, I1. split; [|reflexivity]. rewrite !andb_true_iff. split; [split|]; [reflexivity|apply Z.leb_le; lia|apply Z.leb_le; lia]. }
  intros HG HT. destruct d; try discriminate; destruct v as [z|f|x]; cbn in HT; try contradiction; cbn [of_double to_double];
    try (destruct (J z) as [J1 J2]; [cbn in HT; lia|exact HT|]; rewrite J1, J2; reflexivity).
  - rewrite f32_f64_f32. reflexivity.
  - reflexivity.
Qed.

Lemma mget_mset k v m : mget k (mset k v m) = Some v.
Proof.
  induction m as [|[k' v'] m IH]; cbn; [rewrite String.eqb_refl; reflexivity|].
  destruct (String.eqb k k') eqn:E; cbn; [rewrite String.eqb_refl; reflexivity|rewrite E; exact IH].
Qed.
Lemma mget_mset_other k k' v m : k <> k' -> mget k (mset k' v m) = mget k m.
Proof.
  intros N. induction m as [|[k2 v2] m IH]; cbn.
  - destruct (String.eqb_spec k k'); congruence.
  - destruct (String.eqb_spec k' k2) as [->|N2]; cbn.
    + destruct (String.eqb_spec k k2); congruence.
    + destruct (String.eqb k k2); auto.
Qed.
(** the keys of a map are distinct *)
Definition mkeys (m : list (string * string)) : Prop := NoDup (map fst m).
Lemma mget_none k m : ~ In k (map fst m) -> mget k m = None.
Proof. induction m as [|[k' v'] m IH]; cbn; auto. intros H. destruct (String.eqb_spec k k'); [subst; tauto|]. apply IH. tauto. Qed.
Lemma set_items_get items : forall m k, mkeys items -> mget k (set_items items m) = match mget k items with Some v => Some v | None => mget k m end.
Proof.
  induction items as [|[k' v'] items IH]; intros m k ND; cbn; [reflexivity|]. inversion ND as [|? ? N1 N2]; subst. unfold set_items in IH. rewrite IH by exact N2.
  destruct (String.eqb_spec k k') as [->|N].
  - rewrite mget_none by exact N1. apply mget_mset.
  - rewrite mget_mset_other by exact N. reflexivity.
Qed.
Lemma mset_keys k v m : forall j, In j (map fst (mset k v m)) <-> j = k \/ In j (map fst m).
Proof.
  induction m as [|[k' v'] m IH]; intros j; cbn; [intuition|]. destruct (String.eqb_spec k k') as [->|N]; cbn; [intuition|]. rewrite IH. intuition.
Qed.
Lemma mset_nodup k v m : mkeys m -> mkeys (mset k v m).
Proof.
  unfold mkeys. induction m as [|[k' v'] m IH]; intros ND; cbn; [constructor; [intros []|constructor]|]. inversion ND as [|? ? N1 N2]; subst.
  destruct (String.eqb_spec k k') as [->|N]; cbn; [exact ND|]. constructor; [|apply IH; exact N2]. rewrite mset_keys. intros [E|E]; [congruence|tauto].
Qed.
Lemma mset_length k v m : length (mset k v m) <> 0%nat.
Proof. destruct m as [|[k' v'] m]; cbn; [lia|]. destruct (String.eqb k k'); cbn; lia. Qed.
