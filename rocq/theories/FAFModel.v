(** FlowAccumulation(props, accum) again (include/richdem/methods/flow_accumulation_generic.hpp:33-97), now in
    the arithmetic the library is used with: float proportions and a double accumulation array.
    The control flow is written once, over an arbitrary number type, so that the exact-rational model of
    FAModel.v and the IEEE model below are instances of the same text. *)
From Coq Require Import ZArith List Lia Bool QArith Qcanon.
From Flocq Require Import Core BinarySingleNaN.
From Verif Require Import Base Res Kahn FlowModel FAModel.
Open Scope Z_scope.

Section Generic.
  (** [T]: type of a proportion; [V]: type of an accumulation value *)
  Context {T V : Type}.
  Variable pos : T -> bool.            (* props > 0 *)
  Variable nonpos : T -> bool.         (* props <= 0: not the negation of the above for NaN *)
  Variable isnd : T -> bool.           (* == props.noData() *)
  Variable acc : V -> T -> V -> V.     (* accum(ni) + props*c_accum *)
  Variable accnd : V.                  (* ACCUM_NO_DATA *)

  (** Array3D.hpp:378-384 getIN, 242-245 isNoData *)
  Definition ggetIN (sz : Z) (props : Z -> nat -> T) (i : Z) (n : nat) : res T :=
    if (0 <=? i) && (i <? sz) then Ok (props i n) else Undef.
  Definition gisND (sz : Z) (props : Z -> nat -> T) (i : Z) : res bool :=
    do v <- ggetIN sz props i 0%nat; Ok (isnd v).
  (** flow_accumulation_generic.hpp:55-62 *)
  Definition g_dep_dir (sz w : Z) (props : Z -> nat -> T) (ci : Z) (n : nat) (deps : Z -> Z) : res (Z -> Z) :=
    do p <- ggetIN sz props ci n;
    if pos p then do d <- aat sz deps (ci + nshift8 w n); Ok (aset deps (ci + nshift8 w n) (d + 1))
    else Ok deps.
  (** flow_accumulation_generic.hpp:49-62 *)
  Definition g_deps (sz w h : Z) (props : Z -> nat -> T) : res (Z -> Z) :=
    forM (interior_cells w h) (fun ci deps =>
      do b <- gisND sz props ci;
      if b then Ok deps else forM (dirs D8) (g_dep_dir sz w props ci) deps) (fun _ => 0).
  (** flow_accumulation_generic.hpp:65-68 *)
  Definition g_sources (sz : Z) (props : Z -> nat -> T) (deps : Z -> Z) : list Z :=
    filter (fun i => (deps i =? 0) && negb (isnd (props i 0%nat))) (zrange 0 (Z.to_nat sz)).
  (** flow_accumulation_generic.hpp:81-92: one direction of the cell taken off the queue *)
  Definition g_send (sz w : Z) (props : Z -> nat -> T) (ci : Z) (c_accum : V) (n : nat) (s : @kst Z V) : res (@kst Z V) :=
    do p <- ggetIN sz props ci n;
    if nonpos p then Ok s
    else let ni := ci + nshift8 w n in
      do b <- gisND sz props ni;
      if b then Ok s
      else let accu := aset (k_val s) ni (acc (k_val s ni) p c_accum) in
           let dep := aset (k_dep s) ni (k_dep s ni - 1) in
           Ok (mkK dep accu (if dep ni =? 0 then k_q s ++ [ni] else k_q s)).
  Definition g_body (sz w : Z) (props : Z -> nat -> T) (ci : Z) (s : @kst Z V) : res (@kst Z V) :=
    forM (dirs D8) (g_send sz w props ci (k_val s ci)) s.
  (** flow_accumulation_generic.hpp:33-97. [None]: the while loop has not finished within size() iterations. *)
  Definition FlowAccumulationG (pw ph : Z) (props : Z -> nat -> T) (aw ah : Z) (accum : Z -> V) : option (res (Z -> V)) :=
    if negb ((aw =? pw) && (ah =? ph)) then Some Thrown
    else let sz := pw * ph in
      match g_deps sz aw ph props with
      | Ok deps =>
          match whileR kpop (g_body sz aw props) (Z.to_nat sz) 0 (mkK deps accum (g_sources sz props deps)) with
          | Some (Ok s) => Some (Ok (fun i => if (0 <=? i) && (i <? sz) && isnd (props i 0%nat) then accnd else k_val s i))
          | Some Thrown => Some Thrown
          | Some Undef => Some Undef
          | None => None
          end
      | Thrown => Some Thrown
      | Undef => Some Undef
      end.
End Generic.

(** The exact-rational model is this text with exact operations. *)
Lemma exact_instance pw ph props nd aw ah accum :
  FlowAccumulation pw ph props nd aw ah accum =
  FlowAccumulationG posq (fun p => negb (posq p)) (fun v => eqq v nd) (fun a p c => (a + p * c)%Qc) ACCUM_NO_DATA pw ph props aw ah accum.
Proof. reflexivity. Qed.

(** ** IEEE 754 arithmetic (Flocq), round to nearest, ties to even *)
Notation float32 := (binary_float 24 128).
Notation float64 := (binary_float 53 1024).
#[global] Instance prec24 : Prec_gt_0 24 := eq_refl.
#[global] Instance emax128 : Prec_lt_emax 24 128 := eq_refl.
#[global] Instance prec53 : Prec_gt_0 53 := eq_refl.
#[global] Instance emax1024 : Prec_lt_emax 53 1024 := eq_refl.

(** an integer literal as float / double *)
Definition f32_of_Z (z : Z) : float32 := binary_normalize 24 128 _ _ mode_NE z 0 false.
Definition f64_of_Z (z : Z) : float64 := binary_normalize 53 1024 _ _ mode_NE z 0 false.
(** the usual arithmetic conversion float -> double *)
Definition f64_of_f32 (x : float32) : float64 :=
  match x with
  | B754_zero s => B754_zero s
  | B754_infinity s => B754_infinity s
  | B754_nan => B754_nan
  | B754_finite s m e _ => binary_normalize 53 1024 _ _ mode_NE (if s then Zneg m else Zpos m) e s
  end.
(** props.getIN(ci,n) > 0: float compared with an int literal *)
Definition posf (x : float32) : bool := Bltb (f32_of_Z 0) x.
(** props.getIN(ci,n) <= 0 *)
Definition nonposf (x : float32) : bool := Bleb x (f32_of_Z 0).
(** accum(ni) += props.getIN(ci,n)*c_accum: line 88, float*double in double, then double addition *)
Definition accf (a : float64) (p : float32) (c : float64) : float64 := Bplus mode_NE a (Bmult mode_NE (f64_of_f32 p) c).
(** NO_DATA_GEN = -2 for the proportions array (constants.hpp:85), ACCUM_NO_DATA = -1 (constants.hpp:88) *)
Definition FlowAccumulationF : Z -> Z -> (Z -> nat -> float32) -> Z -> Z -> (Z -> float64) -> option (res (Z -> float64)) :=
  FlowAccumulationG posf nonposf (fun v => Beqb v (f32_of_Z (-2))) accf (f64_of_Z (-1)).
