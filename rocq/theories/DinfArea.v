(** D-infinity upslope area. *)
From Coq Require Import ZArith Reals List Bool Permutation Lra Lia Psatz.
From Verif Require Import Base Res Kahn PAKahn RasterSpec RasterFacts FlowModel FlowSpec FlowProofs TAModel TAProofs DinfModel DinfSpec DinfProofs DinfProofs2 DinfProofs3.
Import ListNotations.
Open Scope R_scope.

(** * Where a cell sends its area *)
Definition qof (th : R) : R := 4 * th / PI.
Definition kof (th : R) : Z := Int_part (qof th).
Definition closeb (th : R) : bool := if Rlt_dec (qof th - IZR (kof th)) (1 / 1000000) then true else false.

Lemma kof_bounds th : 0 <= qof th - IZR (kof th) < 1.
Proof. destruct (base_Int_part (qof th)) as [H1 H2]. unfold kof. lra. Qed.
Lemma kof_unique th j : 0 <= qof th - IZR j < 1 -> j = kof th.
Proof. intros H. assert (B := kof_bounds th). apply near_int. lra. Qed.
Lemma int_part_near r j : 0 <= r - IZR j < 1 -> Int_part r = j.
Proof. intros H. destruct (base_Int_part r) as [H1 H2]. apply near_int. lra. Qed.
Lemma share_iff th k s : share th k s <->
  if closeb th then k = kof th /\ s = 1
  else (k = kof th /\ s = qof th - IZR (kof th)) \/ (k = (kof th + 1)%Z /\ s = IZR (kof th) + 1 - qof th).
Proof.
  unfold share. cbv zeta. fold (qof th). assert (B := kof_bounds th). split.
  - intros [j [[H [-> ->]]|[H K]]]; (assert (j = kof th) by (apply kof_unique; lra); subst j); unfold closeb; destruct (Rlt_dec _ _); try lra.
    + split; reflexivity.
    + exact K.
  - unfold closeb. destruct (Rlt_dec _ _) as [L|L]; intros K; exists (kof th).
    + left. split; [lra|exact K].
    + right. split; [lra|exact K].
Qed.
Lemma kof_range th : 0 <= th <= 2 * PI -> (0 <= kof th <= 8)%Z /\ (closeb th = false -> (kof th <= 7)%Z).
Proof.
  intros H. assert (P := PI_RGT_0). assert (B := kof_bounds th).
  assert (Eq : qof th * PI = 4 * th) by (unfold qof; field; lra).
  assert (Q0 : 0 <= qof th).
  { apply (Rmult_le_reg_r PI); [lra|]. rewrite Eq. lra. }
  assert (Q8 : qof th <= 8).
  { apply (Rmult_le_reg_r PI); [lra|]. rewrite Eq. lra. }
  assert (K0 : (-1 < kof th)%Z) by (apply lt_IZR; lra). assert (K9 : (kof th < 9)%Z) by (apply lt_IZR; lra).
  split; [lia|]. unfold closeb. destruct (Rlt_dec _ _) as [L|L]; [discriminate|]. intros _.
  assert (kof th < 8)%Z by (apply lt_IZR; lra). lia.
Qed.

Lemma where_ok th : 0 <= th <= 2 * PI ->
  where_do_i_flow th = Ok (if closeb th then (kof th, (-1)%Z) else ((kof th + 1)%Z, kof th)).
Proof.
  intros H. assert (P := PI_RGT_0). unfold where_do_i_flow. destruct (Rle_dec 0 th); [|lra]. destruct (Rle_dec th _); [|lra].
  assert (Eq : th / (PI / 4) = qof th) by (unfold qof; field; lra). rewrite Eq. fold (kof th).
  assert (B := kof_bounds th). destruct (kof_range th H) as [K1 K2]. rewrite Rabs_right by lra.
  unfold closeb in *. replace (/ 1000000) with (1 / 1000000) by field.
  destruct (Rlt_dec _ _) as [L|L].
  - rewrite (int_part_near (qof th + 1 / 2) (kof th)) by lra.
    destruct (Z.leb_spec 0 (kof th)); [|lia]. destruct (Z.leb_spec (kof th) 8); [|lia]. reflexivity.
  - specialize (K2 eq_refl). destruct (Z.leb_spec 0 (kof th + 1)); [|lia]. destruct (Z.leb_spec (kof th + 1) 8); [|lia]. reflexivity.
Qed.
Lemma area_prop_ok th : area_proportion th (kof th + 1) (kof th) = (1, 0) /\ (kof th = -1)%Z \/
  area_proportion th (kof th + 1) (kof th) = (IZR (kof th) + 1 - qof th, qof th - IZR (kof th)).
Proof.
  assert (P := PI_RGT_0). unfold area_proportion. destruct (Z.eqb_spec (kof th) (-1)) as [E|E]; [left; auto|right].
  assert (X : (IZR (kof th + 1) * (PI / 4) - th) / (PI / 4) = IZR (kof th) + 1 - qof th).
  { rewrite plus_IZR. unfold qof. field. lra. }
  rewrite X. f_equal. ring.
Qed.
Lemma dinf_off k : (0 <= k <= 8)%Z -> rd dinf_dx k = Ok (fst (compass k)) /\ rd dinf_dy k = Ok (snd (compass k)).
Proof.
  intros H. assert (X : In k [0; 1; 2; 3; 4; 5; 6; 7; 8]%Z) by (cbn; lia).
  cbn in X. repeat (destruct X as [<-|X]); [..|destruct X]; split; reflexivity.
Qed.
Lemma compass_cases k : In (compass k) [(1, 0); (1, -1); (0, -1); (-1, -1); (-1, 0); (-1, 1); (0, 1); (1, 1)]%Z.
Proof.
  unfold compass. assert (B := Z.mod_pos_bound k 8 ltac:(lia)). set (m := (k mod 8)%Z) in *. clearbody m.
  assert (X : In m [0; 1; 2; 3; 4; 5; 6; 7]%Z) by (cbn; lia).
  cbn in X. repeat (destruct X as [<-|X]); [..|destruct X]; cbn; tauto.
Qed.
Lemma step_ne c k : step c k <> c.
Proof.
  destruct c as [x y]. unfold step. cbn [fst snd]. intros E. injection E as E1 E2.
  assert (H := compass_cases k). cbn in H. repeat (destruct H as [H|H]; [rewrite <- H in E1, E2; cbn in E1, E2; lia|]). destruct H.
Qed.
Lemma step_next_ne c k : step c (k + 1) <> step c k.
Proof.
  destruct c as [x y]. unfold step. cbn [fst snd]. intros E. injection E as E1 E2.
  assert (X : compass (k + 1) = compass k).
  { destruct (compass (k + 1)), (compass k). cbn [fst snd] in *. f_equal; lia. }
  clear E1 E2. unfold compass in X. rewrite (Z.add_mod k 1 8) in X by lia.
  assert (B := Z.mod_pos_bound k 8 ltac:(lia)). set (m := (k mod 8)%Z) in *. clearbody m.
  assert (Y : In m [0; 1; 2; 3; 4; 5; 6; 7]%Z) by (cbn; lia).
  cbn in Y. repeat (destruct Y as [<-|Y]); [..|destruct Y]; discriminate X.
Qed.

Section area.
  Variables (w h : Z) (fd : grid R) (fnd : R).
  Notation fv c := (fd (fst c) (snd c)).
  Definition validb (m : cellt) : bool := inGrid w h (fst m) (snd m) && negb (isND fnd (fv m)).
  Definition nbrs (c : cellt) : list (cellt * R) :=
    let th := fv c in
    if closeb th then [(step c (kof th), 1)]
    else [(step c (kof th), qof th - IZR (kof th)); (step c (kof th + 1), IZR (kof th) + 1 - qof th)].
  Definition out (c : cellt) : list (cellt * R) :=
    if validb c && negb (if Req_EM_T (fv c) 0 then true else false) then filter (fun e => validb (fst e)) (nbrs c) else [].

  Lemma isND_iff v : isND fnd v = true <-> v = fnd.
  Proof. unfold isND. destruct (Req_EM_T v fnd); split; congruence. Qed.
  Lemma validb_iff m : validb m = true <-> isdata w h fd fnd m.
  Proof.
    unfold validb, isdata. rewrite andb_true_iff, inGrid_iff, negb_true_iff, <- not_true_iff_false, isND_iff. unfold in_raster. tauto.
  Qed.
  Lemma out_iff d m s : In (m, s) (out d) <-> sends w h fd fnd d m s.
  Proof.
    unfold out, sends. rewrite <- !validb_iff. split.
    - destruct (validb d) eqn:Vd; [|intros []]. destruct (Req_EM_T (fv d) 0) as [Z|NZ]; cbn [andb negb]; [intros []|].
      rewrite filter_In. cbn [fst]. intros [H1 H2]. split; [reflexivity|]. split; [exact H2|]. split; [exact NZ|].
      unfold nbrs in H1. destruct (closeb (fv d)) eqn:Cl.
      + destruct H1 as [[= <- <-]|[]]. exists (kof (fv d)). split; [|reflexivity]. apply share_iff. rewrite Cl. auto.
      + destruct H1 as [[= <- <-]|[[= <- <-]|[]]]; eexists; (split; [|reflexivity]); apply share_iff; rewrite Cl; auto.
    - intros [Vd [Vm [NZ [k [Hs ->]]]]]. rewrite Vd. destruct (Req_EM_T (fv d) 0) as [Z|_]; [contradiction|]. cbn [andb negb].
      apply filter_In. cbn [fst]. split; [|exact Vm]. apply share_iff in Hs. unfold nbrs. destruct (closeb (fv d)).
      + destruct Hs as [-> ->]. left. reflexivity.
      + destruct Hs as [[-> ->]|[-> ->]]; [left|right; left]; reflexivity.
  Qed.
  Lemma out_single d m : (exists s, sends w h fd fnd d m s /\ filter (fun e => ceqb (fst e) m) (out d) = [(m, s)]) \/
    ((forall s, ~ sends w h fd fnd d m s) /\ filter (fun e => ceqb (fst e) m) (out d) = []).
  Proof.
    assert (N : NoDup (map fst (out d))).
    { unfold out. destruct (_ && _); [|constructor]. unfold nbrs.
      assert (Y := step_next_ne d (kof (fv d))).
      assert (N0 : NoDup (@nil cellt)) by constructor.
      assert (N1 : forall a : cellt, NoDup [a]) by (intros a; constructor; [intros []|exact N0]).
      destruct (closeb (fv d)); cbn [filter fst].
      - destruct (validb _); cbn [map fst]; auto.
      - destruct (validb (step d (kof (fv d)))), (validb (step d (kof (fv d) + 1))); cbn [map fst]; auto.
        constructor; [|auto]. intros [Q|[]]. congruence. }
    destruct (filter (fun e => ceqb (fst e) m) (out d)) as [|[m1 s1] l] eqn:E.
    - right. split; [|reflexivity]. intros s H. apply out_iff in H.
      assert (X : In (m, s) (filter (fun e => ceqb (fst e) m) (out d)))
        by (apply filter_In; split; [exact H|]; cbn [fst]; destruct (ceqb_spec m m); congruence).
      rewrite E in X. destruct X.
    - left. assert (X : In (m1, s1) (out d) /\ ceqb m1 m = true).
      { apply (filter_In (fun e => ceqb (fst e) m) (m1, s1) (out d)). rewrite E. left. reflexivity. }
      destruct X as [X1 X2]. destruct (ceqb_spec m1 m) as [->|]; [|discriminate]. exists s1. split; [apply out_iff; exact X1|].
      f_equal. destruct l as [|[m2 s2] l]; [reflexivity|]. exfalso.
      assert (Y : In (m2, s2) (out d) /\ ceqb m2 m = true).
      { apply (filter_In (fun e => ceqb (fst e) m) (m2, s2) (out d)). rewrite E. right. left. reflexivity. }
      destruct Y as [_ Y2]. destruct (ceqb_spec m2 m) as [->|]; [|discriminate]. clear - N E.
      revert N E. induction (out d) as [|[a b] o IH]; intros N E; [discriminate|]. cbn [map fst] in N. apply NoDup_cons_iff in N. destruct N as [N1 N2].
      cbn [filter fst] in E. destruct (ceqb_spec a m) as [->|]; [|exact (IH N2 E)].
      injection E as -> E. apply N1. apply in_map_iff. exists (m, s2). split; [reflexivity|].
      assert (Q : In (m, s2) (filter (fun e => ceqb (fst e) m) o)) by (rewrite E; left; reflexivity). apply filter_In in Q. tauto.
  Qed.
  Lemma sends_fun d m s s' : sends w h fd fnd d m s -> sends w h fd fnd d m s' -> s = s'.
  Proof.
    intros H H'. destruct (out_single d m) as [[t [_ E]]|[N _]]; [|destruct (N s H)].
    apply out_iff in H, H'.
    assert (G : forall u, In (m, u) (out d) -> u = t).
    { intros u Hu. assert (X : In (m, u) (filter (fun e => ceqb (fst e) m) (out d)))
        by (apply filter_In; split; [exact Hu|]; cbn [fst]; destruct (ceqb_spec m m); congruence).
      rewrite E in X.
      destruct X as [X|[]]. congruence. }
    rewrite (G s H), (G s' H'). reflexivity.
  Qed.
  Lemma received_fun (a : cellt -> R) m L x x' :
    received w h fd fnd a m L x -> received w h fd fnd a m L x' -> x = x'.
  Proof.
    intros H. revert x'. induction H as [|d s L y Hs H IH|d L y Hn H IH]; intros x' H'; inversion H'; subst.
    - reflexivity.
    - rewrite (sends_fun d m s s0 Hs) by assumption. f_equal. apply IH. assumption.
    - exfalso. match goal with H : forall s, ~ _ |- _ => exact (H _ Hs) end.
    - exfalso. eapply Hn. eassumption.
    - apply IH. assumption.
  Qed.

  Lemma edge_iff d m : edge out d m <-> exists s, sends w h fd fnd d m s.
  Proof. unfold edge. split; intros [s H]; exists s; apply out_iff; exact H. Qed.

  (** * The dependency loop *)
  Hypothesis Hfd : forall x y, in_raster w h x y -> fd x y = fnd \/ 0 <= fd x y <= 2 * PI.
  Lemma data_range c : validb c = true -> 0 <= fv c <= 2 * PI.
  Proof. intros H. apply validb_iff in H. destruct H as [H1 H2]. destruct (Hfd _ _ H1); [contradiction|assumption]. Qed.

  Notation cnt := (cnt ceqb).
  Lemma inc_cnt (d : cellt -> Z) m1 m : inc d m1 m = (d m + (if ceqb m1 m then 1 else 0))%Z.
  Proof.
    unfold inc, cset, kupd. destruct (ceqb_spec m m1); destruct (ceqb_spec m1 m); subst; try congruence; lia.
  Qed.
  Lemma read_valid {B} x y (a b : B) : (if inGrid w h x y then bind (gat w h fd x y) (fun v => if isND fnd v then Ok a else Ok b) else Ok a) =
     Ok (if validb (x, y) then b else a).
  Proof.
    unfold validb. cbn [fst snd]. destruct (inGrid w h x y) eqn:G; [|reflexivity]. apply inGrid_iff in G.
    rewrite (gat_ok w h fd x y G). cbn [bind andb]. destruct (isND fnd (fd x y)); reflexivity.
  Qed.

  Lemma dep_ok c s : validb c = true -> exists s', di_dep w h fd fnd c s = Ok s' /\
    (forall m, k_dep s' m = (k_dep s m + Z.of_nat (cnt m (out c)))%Z) /\ k_val s' = k_val s /\ k_q s' = k_q s.
  Proof.
    intros V. assert (RG := data_range c V). assert (V0 := V). apply validb_iff in V. destruct V as [V1 V2].
    destruct c as [x y]. cbn [fst snd] in *. unfold di_dep. rewrite (gat_ok w h fd x y V1). cbn [bind].
    destruct (isND fnd (fd x y)) eqn:ND; [apply isND_iff in ND; contradiction|].
    unfold out. rewrite V0. cbn [fst snd].
    destruct (Req_EM_T (fd x y) 0) as [Z|NZ]; cbn [andb negb].
    { exists s. split; [reflexivity|]. split; [|split; reflexivity]. intros m. cbn. lia. }
    rewrite (where_ok _ RG). destruct (kof_range _ RG) as [K1 K2]. unfold nbrs. cbn [fst snd].
    destruct (closeb (fd x y)); cbn [bind].
    - destruct (dinf_off _ K1) as [-> ->]. cbn [bind Z.eqb Pos.eqb]. rewrite read_valid. cbn [bind].
      eexists. split; [reflexivity|]. split; [|split; reflexivity]. intros m. cbn [k_dep filter fst].
      change (x + fst (compass (kof (fd x y))), y + snd (compass (kof (fd x y))))%Z with (step (x, y) (kof (fd x y))).
      destruct (validb (step (x, y) (kof (fd x y)))); unfold Kahn.cnt; cbn [filter fst]; [rewrite inc_cnt; destruct (ceqb _ _); cbn [length]; lia|cbn [length]; lia].
    - specialize (K2 eq_refl). destruct (dinf_off (kof (fd x y) + 1) ltac:(lia)) as [-> ->]. cbn [bind].
      destruct (Z.eqb_spec (kof (fd x y)) (-1)); [lia|].
      destruct (dinf_off _ K1) as [-> ->]. cbn [bind]. rewrite read_valid. cbn [bind]. rewrite read_valid. cbn [bind].
      eexists. split; [reflexivity|]. split; [|split; reflexivity]. intros m. cbn [k_dep filter fst].
      change (x + fst (compass (kof (fd x y))), y + snd (compass (kof (fd x y))))%Z with (step (x, y) (kof (fd x y))).
      change (x + fst (compass (kof (fd x y) + 1)), y + snd (compass (kof (fd x y) + 1)))%Z with (step (x, y) (kof (fd x y) + 1)).
      unfold Kahn.cnt. destruct (validb (step (x, y) (kof (fd x y)))); destruct (validb (step (x, y) (kof (fd x y) + 1)));
        cbn [filter fst]; rewrite ?inc_cnt; repeat destruct (ceqb _ _); cbn [length]; lia.
  Qed.
  Lemma dep_nodata x y s : in_raster w h x y -> fd x y = fnd ->
    di_dep w h fd fnd (x, y) s = Ok (mkK (cset (k_dep s) (x, y) 9%Z) (cset (k_val s) (x, y) (-1)) (k_q s)).
  Proof.
    intros I E. unfold di_dep. rewrite (gat_ok w h fd x y I). cbn [bind].
    assert (N : isND fnd (fd x y) = true) by (apply isND_iff; exact E). rewrite N. reflexivity.
  Qed.

  Lemma dep_loop (order : list cellt) : (forall c, In c order -> in_raster w h (fst c) (snd c)) ->
    forall s, exists s', forM order (di_dep w h fd fnd) s = Ok s' /\
    (forall m, isdata w h fd fnd m -> k_dep s' m = (k_dep s m + Z.of_nat (indeg ceqb out order m))%Z) /\
    (forall m, isdata w h fd fnd m \/ ~ In m order -> k_val s' m = k_val s m) /\
    (forall m, In m order -> fv m = fnd -> k_val s' m = -1) /\ k_q s' = k_q s.
  Proof.
    induction order as [|c l IH]; intros HI s.
    - exists s. split; [reflexivity|]. split; [intros m _; cbn; lia|]. split; [reflexivity|]. split; [intros m []|reflexivity].
    - assert (Ic := HI c (or_introl eq_refl)).
      assert (IH' := IH (fun d Hd => HI d (or_intror Hd))). clear IH. cbn [forM].
      destruct (validb c) eqn:V.
      + destruct (dep_ok c s V) as [s1 [-> [D1 [D2 D3]]]]. cbn [bind]. destruct (IH' s1) as [s2 [E [F1 [F2 [F3 F4]]]]].
        exists s2. split; [exact E|]. split; [|split; [|split]].
        * intros m Hm. rewrite (F1 m Hm), D1. cbn [indeg]. rewrite Nat2Z.inj_add. lia.
        * intros m [Hm|Hm]; (rewrite F2, D2; [reflexivity|]); [left; exact Hm|right; intros K; apply Hm; right; exact K].
        * intros m [<-|Hm] Em; [|apply F3; assumption]. apply validb_iff in V. destruct V. contradiction.
        * congruence.
      + assert (Ec : fv c = fnd).
        { destruct (Req_EM_T (fv c) fnd) as [E|E]; [exact E|]. exfalso.
          assert (validb c = true) by (apply validb_iff; split; assumption). congruence. }
        destruct c as [x y]. cbn [fst snd] in *. rewrite (dep_nodata x y s Ic Ec). cbn [bind].
        destruct (IH' (mkK (cset (k_dep s) (x, y) 9%Z) (cset (k_val s) (x, y) (-1)) (k_q s))) as [s2 [E [F1 [F2 [F3 F4]]]]].
        cbn [k_dep k_val k_q] in *.
        assert (Q : forall B (f : cellt -> B) v m, isdata w h fd fnd m -> cset f (x, y) v m = f m).
        { intros B f v m [_ Hm]. unfold cset, kupd. destruct (ceqb_spec m (x, y)) as [->|]; [|reflexivity]. cbn [fst snd] in Hm. contradiction. }
        exists s2. split; [exact E|]. split; [|split; [|split]].
        * intros m Hm. rewrite (F1 m Hm), Q by exact Hm. cbn [indeg].
          assert (O : out (x, y) = []) by (unfold out; rewrite V; reflexivity). rewrite O. cbn. reflexivity.
        * intros m [Hm|Hm].
          -- rewrite F2 by (left; exact Hm). apply Q; exact Hm.
          -- rewrite F2 by (right; intros K; apply Hm; right; exact K). unfold cset, kupd.
             destruct (ceqb_spec m (x, y)) as [->|]; [|reflexivity]. destruct Hm. left. reflexivity.
        * intros m Hm Em. destruct (in_dec (fun c d : Z * Z => ltac:(repeat decide equality)) m l) as [Hl|Hl]; [apply F3; assumption|].
          destruct Hm as [<-|Hm]; [|contradiction]. rewrite F2 by (right; exact Hl). unfold cset, kupd.
          destruct (ceqb_spec (x, y) (x, y)); [reflexivity|congruence].
        * exact F4.
  Qed.
End area.
