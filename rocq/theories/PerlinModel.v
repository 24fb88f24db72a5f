(** Perlin terrain: src/terrain_generation/PerlinNoise.cpp:39-99 and terrain_generation.cpp:11-24. Over any arithmetic: instantiated below with IEEE doubles (the program, no
    fused operations) and with real numbers. *)
From Coq Require Import ZArith List Lia Bool Reals.
From Flocq Require Import Core BinarySingleNaN.
From Verif Require Import Base Res FAFModel.
Open Scope Z_scope.

Record arith := mkA { num : Type; add : num -> num -> num; sub : num -> num -> num; mul : num -> num -> num; quo : num -> num -> num; neg : num -> num;
  flr : num -> num; toint : num -> res Z; ofint : Z -> num; c08 : num }.

(** PerlinNoise.cpp:39-54: the permutation of 0..255 the shuffle makes of the seed, twice over. (p.insert(p.end(), p.begin(), p.end()), an insertion of a vector into itself, is taken as meant.) *)
Definition table (perm : list Z) : list Z := perm ++ perm.

Section Perlin.
  Variable A : arith.
  Notation F := (num A).
  Notation "x +. y" := (add A x y) (at level 50, left associativity).
  Notation "x -. y" := (sub A x y) (at level 50, left associativity).
  Notation "x *. y" := (mul A x y) (at level 40, left associativity).
  Notation "# z" := (ofint A z) (at level 1).

  (** PerlinNoise.cpp:85-87 *)
  Definition fade (t : F) : F := t *. t *. t *. (t *. (t *. #6 -. #15) +. #10).
  (** PerlinNoise.cpp:89-91 *)
  Definition lerp (t a b : F) : F := a +. t *. (b -. a).
  (** PerlinNoise.cpp:93-99 *)
  Definition grad (hash : Z) (x y z : F) : F :=
    let h := Z.land hash 15 in
    let u := if h <? 8 then x else y in
    let v := if h <? 4 then y else if (h =? 12) || (h =? 14) then x else z in
    (if Z.land h 1 =? 0 then u else neg A u) +. (if Z.land h 2 =? 0 then v else neg A v).
  (** PerlinNoise.cpp:56-83 *)
  Definition noise (p : list Z) (x y z : F) : res F :=
    do fx <- toint A (flr A x); do fy <- toint A (flr A y); do fz <- toint A (flr A z);
    let X := Z.land fx 255 in let Y := Z.land fy 255 in let Z' := Z.land fz 255 in
    let x := x -. flr A x in let y := y -. flr A y in let z := z -. flr A z in
    let u := fade x in let v := fade y in let w := fade z in
    do pX <- rd p X; let a := pX + Y in
    do pA <- rd p a; let AA := pA + Z' in
    do pA1 <- rd p (a + 1); let AB := pA1 + Z' in
    do pX1 <- rd p (X + 1); let b := pX1 + Y in
    do pB <- rd p b; let BA := pB + Z' in
    do pB1 <- rd p (b + 1); let BB := pB1 + Z' in
    do h1 <- rd p AA; do h2 <- rd p BA; do h3 <- rd p AB; do h4 <- rd p BB;
    do h5 <- rd p (AA + 1); do h6 <- rd p (BA + 1); do h7 <- rd p (AB + 1); do h8 <- rd p (BB + 1);
    let x1 := x -. #1 in let y1 := y -. #1 in let z1 := z -. #1 in
    let r := lerp w (lerp v (lerp u (grad h1 x y z) (grad h2 x1 y z)) (lerp u (grad h3 x y1 z) (grad h4 x1 y1 z)))
                    (lerp v (lerp u (grad h5 x y z1) (grad h6 x1 y z1)) (lerp u (grad h7 x y1 z1) (grad h8 x1 y1 z1))) in
    Ok (quo A (r +. #1) #2).

  (** int multiplication *)
  Definition int_ (z : Z) : res Z := if (- 2 ^ 31 <=? z) && (z <? 2 ^ 31) then Ok z else Undef.
  (** terrain_generation.cpp:20-23: the value for cell (x,y) *)
  Definition height_at (p : list Z) (size x y : Z) : res F :=
    do a <- int_ (10 * x); do b <- int_ (10 * y); noise p (quo A #a #size) (quo A #b #size) (c08 A).
  (** terrain_generation.cpp:11-24 *)
  Definition generate_perlin_terrain (perm : list Z) (w h : Z) (arr : grid F) : res (grid F) :=
    if negb (w =? h) then Thrown
    else forM (zrange 0 (Z.to_nat w)) (fun y arr => forM (zrange 0 (Z.to_nat w)) (fun x arr => do v <- height_at (table perm) w x y; Ok (gset arr x y v)) arr) arr.
End Perlin.

(** IEEE doubles; 0.8 is 3602879701896397 * 2^-52 *)
Definition IEEE : arith := mkA float64 (Bplus mode_NE) (Bminus mode_NE) (Bmult mode_NE) (Bdiv mode_NE) Bopp (Bnearbyint mode_DN)
  (fun x => if is_finite x then int_ (Btrunc x) else Undef) f64_of_Z (binary_normalize 53 1024 _ _ mode_NE 3602879701896397 (-52) false).
(** real numbers *)
Definition REAL : arith := mkA R Rplus Rminus Rmult Rdiv Ropp (fun x => IZR (Zfloor x)) (fun x => int_ (Zfloor x)) IZR (4 / 5)%R.
