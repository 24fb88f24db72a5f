(** Row-major lists and grids. *)
From Coq Require Import ZArith List Lia Bool String.
From Verif Require Import Base Res PyModel PySpec PyProofs PyIntModel.
Open Scope Z_scope.
Open Scope list_scope.

Lemma nth_zrange n : forall a i, (i < n)%nat -> nth_error (zrange a n) i = Some (a + Z.of_nat i).
Proof.
  induction n as [|n IH]; intros a i Hi; [lia|]. destruct i as [|i]; cbn [zrange nth_error]; [f_equal; lia|]. rewrite IH by lia. f_equal. lia.
Qed.
Lemma list_of_gen {A} (g : Z -> Z -> A) (w : nat) : forall n y0,
  length (flat_map (fun y => map (fun x => g x y) (zrange 0 w)) (zrange y0 n)) = (n * w)%nat /\
  forall y x, (y < n)%nat -> (x < w)%nat -> nth_error (flat_map (fun y => map (fun x => g x y) (zrange 0 w)) (zrange y0 n)) (y * w + x) = Some (g (Z.of_nat x) (y0 + Z.of_nat y)).
Proof.
  induction n as [|n IH]; intros y0; cbn [zrange flat_map]; [split; [reflexivity|intros; lia]|].
  destruct (IH (y0 + 1)) as [L G]. split.
  - rewrite app_length, map_length, zrange_length, L. reflexivity.
  - intros y x Hy Hx. destruct y as [|y].
    + rewrite nth_error_app1 by (rewrite map_length, zrange_length; lia). rewrite nth_error_map, nth_zrange by lia. cbn [option_map]. f_equal. f_equal; lia.
    + rewrite nth_error_app2 by (rewrite map_length, zrange_length; lia). rewrite map_length, zrange_length.
      replace (S y * w + x - w)%nat with (y * w + x)%nat by lia. rewrite G by lia. f_equal. f_equal. lia.
Qed.
Lemma list_of_length w h g : 0 < w -> 0 < h -> Z.of_nat (length (list_of w h g)) = h * w.
Proof. intros. unfold list_of. destruct (list_of_gen g (Z.to_nat w) (Z.to_nat h) 0) as [L _]. rewrite L. lia. Qed.
Lemma grid_list w h g x y : 0 <= x < w -> 0 <= y < h -> grid_of w (list_of w h g) x y = g x y.
Proof.
  intros Hx Hy. unfold grid_of, list_of. destruct (list_of_gen g (Z.to_nat w) (Z.to_nat h) 0) as [_ G].
  specialize (G (Z.to_nat y) (Z.to_nat x) ltac:(lia) ltac:(lia)). replace (Z.to_nat (y * w + x)) with (Z.to_nat y * Z.to_nat w + Z.to_nat x)%nat by nia.
  erewrite nth_error_nth by exact G. f_equal; lia.
Qed.
