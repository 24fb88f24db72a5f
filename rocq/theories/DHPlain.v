(** Consequences for the hierarchy of taking the most recently pushed cell first. *)
From Coq Require Import ZArith List Lia Bool Permutation.
From Verif Require Import Base Res RasterSpec RasterFacts FlowModel FlowProofs FlatsModel FlatsSpec FlatsProofs.
From Verif Require Import UFModel DHModel DHSpec DHFlood DHTree DHTerrain DHVol DHAll DHLifo.
Open Scope Z_scope.

Lemma depth_nonneg dem z (l : list cellt) : (forall a, In a l -> 0 <= z - elev_at dem a) -> 0 <= depth_sum dem z l.
Proof.
  unfold depth_sum, zsum. induction l as [|a l IH]; intros H; cbn [map fold_right]; [lia|].
  pose proof (H a (or_introl eq_refl)). assert (0 <= fold_right Z.add 0 (map (fun c => z - elev_at dem c) l)); [|lia]. apply IH. intros b Hb. apply H. right; auto.
Qed.
Lemma depth_positive dem z (l : list cellt) c : (forall a, In a l -> 0 <= z - elev_at dem a) -> In c l -> elev_at dem c < z -> 0 < depth_sum dem z l.
Proof.
  intros H Hc Lt. induction l as [|a l IH]; [destruct Hc|]. assert (G : forall b, In b l -> 0 <= z - elev_at dem b) by (intros b Hb; apply H; right; auto).
  pose proof (H a (or_introl eq_refl)). pose proof (depth_nonneg dem z l G) as NN. destruct Hc as [->|Hc].
  - unfold depth_sum, zsum in *. cbn [map fold_right]. lia.
  - specialize (IH G Hc). unfold depth_sum, zsum in *. cbn [map fold_right]. lia.
Qed.

Section Plain.
  Variables (t : topology) (w h : Z) (dem lab0 fd0 : grid Z) (sorted : list outlet -> list outlet) (parts : list (list cellt)).
  Hypothesis Hval : valid_labels w h lab0.
  Hypothesis Hsize : w * h < 2 ^ 31.
  Hypothesis Hcoast : has_coast t w h lab0.
  Notation "g @ c" := (elev_at g c) (at level 20).

  Lemma gdh_plain lab fd deps : GetDepressionHierarchy t w h dem most_recent_first sorted parts lab0 fd0 = Some (Ok (lab, fd, deps)) ->
    bottoms_apart t w h dem lab.
  Proof.
    unfold GetDepressionHierarchy. destruct (dh_flood_ok t w h dem lab0 fd0 Hval Hsize most_recent_first Hcoast) as [s [E [I [Q L]]]]. rewrite E.
    destruct (build (sorted (f_db s)) (f_deps s)) as [ds| |]; [|discriminate|discriminate].
    destruct (CalculateMarginalVolumes w h dem (f_lab s) parts ds) as [[ds1| |]|]; try discriminate.
    destruct (CalculateTotalVolumes ds1) as [ds2| |]; try discriminate. intros K. injection K as <- <- _.
    intros p q Hp Hq N Le Np Low. apply (flood_plain t w h dem lab0 fd0 Hval Hsize s Hcoast E p q); auto.
    destruct (i_lab _ _ _ _ _ _ _ _ I p Hp) as [X|R]; [exfalso; apply (L p Hp X)|].
    split; [lia|]. destruct (i_deps _ _ _ _ _ _ _ _ I (f_lab s @ p)) as [r [A [[[Hr _] _] [Lr _]]]]; [lia|].
    exists r. split; auto. specialize (Low r Hr Lr). assert (dem @ r <= dem @ p); [|lia].
    destruct (i_leads _ _ _ _ _ _ _ _ I p Hp (L p Hp)) as [r' [RT [[X _]|[_ LA]]]]; [contradiction|].
    assert (r' = r). { unfold DHFlood.leaf_at in *. rewrite A in LA. inversion LA. auto. } subst r'.
    clear - RT. induction RT as [p Hp|p m q r Hp Hm Ef Eq El Ed R IH]; lia.
  Qed.

  Hypothesis Hsort : forall db, sorting_of db (sorted db).
  Hypothesis Hparts : each_cell_once w h parts.

  (** if the bottoms of two leaf depressions never touch, depressions without sea behind them have a volume *)
  Lemma gdh_positive tb lab fd deps : GetDepressionHierarchy t w h dem tb sorted parts lab0 fd0 = Some (Ok (lab, fd, deps)) ->
    bottoms_apart t w h dem lab ->
    forall d r v, ix deps d = Some r -> d <> 0 -> d_ocean_parent r = false -> d_vol r = Some v -> 0 < v.
  Proof.
    intros E PL.
    pose proof (gdh_links t w h dem lab0 fd0 tb sorted parts Hval Hsize Hcoast Hsort Hparts lab fd deps E) as LINKS.
    destruct (gdh_ok t w h dem lab0 fd0 tb sorted parts Hval Hsize Hcoast Hsort Hparts) as [lab' [fd' [deps' [pits [E' [WS [WF [Hn [PITS [PASS [_ [VOLS HM]]]]]]]]]]]].
    assert (EE : (lab', fd', deps') = (lab, fd, deps)) by congruence. injection EE as -> -> ->. clear E'.
    set (n := Z.of_nat (length pits) + 1) in *.
    intros d. remember (Z.to_nat d) as m eqn:Em. revert d Em. induction m as [m IH] using (well_founded_induction lt_wf).
    intros d -> r v Ed Nd Op Ev. pose proof (ixr _ _ _ Ed) as Rd.
    destruct (Z_lt_ge_dec d n) as [Lf|Mt].
    - (* a leaf *)
      destruct (VOLS d r Ed Nd) as [z [l [Ez [[ND CU] [_ [Ev' _]]]]]]. rewrite Ev in Ev'. injection Ev' as ->.
      destruct (nth_error pits (Z.to_nat (d - 1))) as [pc|] eqn:Np; [|exfalso; apply nth_error_None in Np; unfold n in Lf; lia].
      destruct (ws_pit _ _ _ _ _ _ _ _ _ WS _ _ Np) as [[[Hpc _] _] [Lpc _]].
      assert (Lpd : lab @ pc = d) by lia.
      destruct (LINKS d r Ed Nd) as [z' [p [q [c [Ez' [_ [_ [_ [Hp [Hq [N [Pp [Pq [Gl Emax]]]]]]]]]]]]]].
      assert (z' = z) by congruence. subst z'.
      assert (LEAF : forall k, part_of deps k d -> k = d).
      { intros k Pk. destruct (part_inv _ _ _ Pk) as [|[x [_ Lx]]]; auto. apply (wlink n) in Lx; auto. lia. }
      assert (LOW : forall c, inside w h c -> lab @ c = d -> dem @ pc <= dem @ c).
      { intros a Ha La. destruct (ws_drain _ _ _ _ _ _ _ _ _ WS a Ha) as [x [R [[X _]|[k [K1 K2]]]]]; [lia|].
        assert (k = Z.to_nat (d - 1)) by lia. subst k. rewrite Np in K2. injection K2 as <-.
        clear - R. induction R as [p Hp|p m q r Hp Hm Ef Eq El Ed R IH]; lia. }
      pose proof (LEAF _ Pp) as Lp. pose proof (LOW p Hp Lp) as Zp.
      destruct (Z_lt_ge_dec (dem @ pc) z) as [Lt|Ge].
      + (* positive *)
        assert (In pc l) by (apply CU; split; [auto|split; [unfold region; rewrite Lpd; constructor|lia]]).
        apply (depth_positive dem z l pc); auto. intros a Ha. apply CU in Ha. lia.
      + (* an outlet at the level of the pit leads to the ocean *)
        exfalso. assert (ZE : dem @ p = dem @ pc) by lia.
        destruct (PL p q Hp Hq N) as [X|X]; [lia|lia|intros a Ha La; rewrite ZE; apply LOW; auto; lia| |].
        * apply Pq. rewrite X, Lp. constructor.
        * destruct (wf_parent _ _ WF d r Ed Nd) as [[A _]|[A [B [C [pr [F [G [K1 K2]]]]]]]]; [congruence|].
          rewrite <- Gl, X in K2. apply (wpart0 n) in K2; auto.
          destruct (wf_meta _ _ WF _ _ F C) as [_ CH]. destruct (CH (d_odep r)) as [Y _]; [destruct G as [[_ G]|[_ G]]; auto|]. lia.
    - (* a metadepression *)
      destruct (wf_meta _ _ WF d r Ed ltac:(lia)) as [_ CH].
      destruct (CH (d_lchild r) ltac:(auto)) as [L1 [rl [L2 [L3 L4]]]]. destruct (CH (d_rchild r) ltac:(auto)) as [R1 [rr [R2 [R3 R4]]]].
      destruct (VOLS _ rl L2 ltac:(lia)) as [zl [ll [_ [_ [_ [VL _]]]]]]. destruct (VOLS _ rr R2 ltac:(lia)) as [zr [lr [_ [_ [_ [VR _]]]]]].
      pose proof (HM d r rl rr v _ _ Ed ltac:(lia) L2 R2 Ev VL VR) as S.
      pose proof (IH (Z.to_nat (d_lchild r)) ltac:(lia) (d_lchild r) eq_refl rl _ L2 ltac:(lia) L4 VL).
      pose proof (IH (Z.to_nat (d_rchild r)) ltac:(lia) (d_rchild r) eq_refl rr _ R2 ltac:(lia) R4 VR). lia.
  Qed.
End Plain.
