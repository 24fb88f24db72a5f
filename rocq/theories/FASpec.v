(** Specification of the generic accumulation: a weighted flow network on the raster. *)
From Coq Require Import ZArith List Bool QArith Qcanon Relations.
From Verif Require Import Base RasterSpec FlowSpec.
Open Scope Z_scope.

Section FA.
  (** [p (y*w+x) n] is the proportion cell (x,y) sends in direction n (1..8); [p i 0 = nd] marks NoData *)
  Variables (w h : Z) (p : Z -> nat -> Qc) (nd : Qc).
  Definition at_ (c : Z * Z) : Z := snd c * w + fst c.
  Definition has_data (c : Z * Z) : Prop := in_raster w h (fst c) (snd c) /\ p (at_ c) 0%nat <> nd.
  (** cell [c] sends water to [d] in direction [n] *)
  Definition sends (c : Z * Z) (n : nat) (d : Z * Z) : Prop :=
    has_data c /\ has_data d /\ (1 <= n <= 8)%nat /\ toward (Z.of_nat n) (fst c) (snd c) (fst d) (snd d) /\ (0 < p (at_ c) n)%Qc.
  Definition feeds (c d : Z * Z) : Prop := exists n, sends c n d.
  Definition on_loop (c : Z * Z) : Prop := clos_trans _ feeds c c.
  Definition downstream_of_loop (c : Z * Z) : Prop := exists l, on_loop l /\ clos_refl_trans _ feeds l c.

  Definition qsum (l : list Qc) : Qc := fold_right Qcplus 0%Qc l.

  (** [A] at [d] is what the cell generates plus what its donors send *)
  Definition balanced (gen A : Z -> Qc) (d : Z * Z) : Prop :=
    exists donors : list ((Z * Z) * nat), NoDup donors /\
      (forall c n, In (c, n) donors <-> sends c n d) /\
      A (at_ d) = (gen (at_ d) + qsum (map (fun e => p (at_ (fst e)) (snd e) * A (at_ (fst e))) donors))%Qc.

  (** the raster border sends nothing inside the raster arrays *)
  Definition quiet_border : Prop := forall c n, on_edge w h (fst c) (snd c) -> p (at_ c) 0%nat <> nd ->
    (1 <= n <= 8)%nat -> (p (at_ c) n <= 0)%Qc.

  (** every data cell sends on everything it has, to data cells, or keeps everything *)
  Definition is_sink (c : Z * Z) : Prop := forall n, (1 <= n <= 8)%nat -> (p (at_ c) n <= 0)%Qc.
  Definition lossless : Prop := forall c, has_data c ->
    is_sink c \/
    ((forall n, (1 <= n <= 8)%nat -> (0 < p (at_ c) n)%Qc -> exists d, sends c n d) /\
     qsum (map (fun n => if Qclt_le_dec 0 (p (at_ c) n) then p (at_ c) n else 0%Qc) (seq 1 8)) = 1%Qc).
End FA.
