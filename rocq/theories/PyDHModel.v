(** The depression hierarchy and fill-spill-merge from Python: __init__.py:815-910, pywrapper.cpp:139-177. The arrays, wrapping and
    the rules about memory are those of PyModel.v. *)
From Coq Require Import ZArith List Lia Bool String QArith Qcanon.
From Verif Require Import Base Res PyModel PyIntModel DHModel FSMModel DHSpec FlatsModel.
Open Scope Z_scope.
Open Scope list_scope.

(** what get_depression_hierarchy (C++) does: a hierarchy and the elements of labels and flowdirs; or an exception, with the elements as they
    then are; or undefined behaviour *)
Inductive gout (H V : Type) := GOk (dh : H) (lab fd : list V) | GThrow (lab fd : list V) | GUndef.
Arguments GOk {H V}. Arguments GThrow {H V}. Arguments GUndef {H V}.
(** what fill_spill_merge (C++) does: its copy of the hierarchy afterwards and the elements of wtd *)
Inductive fout (H V : Type) := FOk (dh : H) (wtd : list V) | FThrow (wtd : list V) | FUndef.
Arguments FOk {H V}. Arguments FThrow {H V}. Arguments FUndef {H V}.

(** __init__.py:24 *)
Definition STANDARD_GEOTRANSFORM : geot := GArray [0; 1; 0; 0; 0; -1].

Section PyDH.
  Context {E : env}.
  Notation num := (num (F E)). Notation obj := (obj (F E)). Notation state := (state (F E) (V E)). Notation py := (py (F E) (V E)).

  (** numpy: r[1:-1, 1:-1] = v for an array with memory of its own. Arrays with fewer than two dimensions: IndexError. *)
  Definition inner (shape idx : list Z) : bool :=
    (1 <=? nth 0 idx 0) && (nth 0 idx 0 <? nth 0 shape 0 - 1) && (1 <=? nth 1 idx 0) && (nth 1 idx 0 <? nth 1 shape 0 - 1).
  Definition fill_inner (o : obj) (v : V E) (blk : list (V E)) : list (V E) :=
    fold_left (fun b idx => if inner (o_shape o) idx then upd_nth (Z.to_nat (o_off o + dot idx (o_strides o))) v b else b) (indices (o_shape o)) blk.
  Definition set_inner (r : nat) (v : V E) : py unit :=
    let! o := getobj r;
    if (length (o_shape o) <? 2)%nat then raise
    else fun s => match nth_error (s_mem s) (o_block o) with
                  | Some blk => Ret tt (mkState (upd_nth (o_block o) (fill_inner o v blk) (s_mem s)) (s_objs s))
                  | None => Undefd
                  end.

  (** __init__.py:846-864. OCEAN * np.ones(shape, uint32) is a new array filled with OCEAN (the array of ones is dropped). A negative dimension
      makes np.ones raise. OCEAN and NO_DEP: depression_hierarchy.hpp:162-167, exported by pywrapper.cpp:143-144. *)
  Definition get_new_depression_hierarchy_labels (shape : list Z) (no_data : num) (geotransform : option geot) : py nat :=
    if existsb (fun n => n <? 0) shape then raise
    else let! k := npfull shape Uint32 OCEAN;
         let! r := rd_new KRd k None (Some no_data) (Some (match geotransform with Some g => g | None => STANDARD_GEOTRANSFORM end));
         let! _ := set_inner r (lit E Uint32 NO_DEP);
         ret r.

  (** [H]: depression hierarchies; [gdh], [fsm]: the two C++ functions on the arrays handed over *)
  Context {H : Type} (gdh : aval (V E) -> aval (V E) -> aval (V E) -> gout H (V E))
    (fsm : aval (V E) -> aval (V E) -> aval (V E) -> H -> aval (V E) -> fout H (V E)).

  (** __init__.py:815-844. NO_FLOW * np.ones: a new array filled with 0. pywrapper.cpp:167: the C++ function takes Array2D<double>,
      Array2D<uint32_t>, Array2D<int8_t>; any other combination is a TypeError. The hierarchy is returned by value. Nothing is
      recorded in the history, and no NoData value is copied back. *)
  Definition get_depression_hierarchy (dem labels : nat) : py (H * nat) :=
    let! o := getobj dem;
    if negb (is_rd o) then raise
    else let! demw := wrap dem;
         let! labelsw := wrap labels;
         let! k := npfull (o_shape o) Int8 0;
         let! fd := rd_new KRd k None (Some (PInt (-9999))) (Some STANDARD_GEOTRANSFORM);
         let! fdw := wrap fd;
         if negb (dtype_eqb (w_dtype demw) Float64 && dtype_eqb (w_dtype labelsw) Uint32) then raise
         else let! a := load demw;
              let! b := load labelsw;
              let! c := load fdw;
              match gdh a b c with
              | GOk dh l f => let! _ := store labelsw l; let! _ := store fdw f; ret (dh, fd)
              | GThrow l f => let! _ := store labelsw l; let! _ := store fdw f; raise
              | GUndef => fun _ => Undefd
              end.

  (** __init__.py:866-910, pywrapper.cpp:168-176. pybind11 converts the Python list [deps] to a new std::vector of copies
      (pybind11/stl.h; the type is not declared opaque) and drops it after the call. Python returns None; the result here is
      what the caller's [deps] contains afterwards. *)
  Definition fill_spill_merge (dem labels flowdirs : nat) (deps : H) (wtd : nat) : py H :=
    let! o1 := getobj dem; let! o2 := getobj labels; let! o3 := getobj flowdirs; let! o4 := getobj wtd;
    if negb (is_rd o1 && is_rd o2 && is_rd o3 && is_rd o4) then raise
    else let! demw := wrap dem;
         let! labelsw := wrap labels;
         let! fdw := wrap flowdirs;
         let! wtdw := wrap wtd;
         if negb (dtype_eqb (w_dtype demw) Float64 && dtype_eqb (w_dtype labelsw) Uint32 && dtype_eqb (w_dtype fdw) Int8 && dtype_eqb (w_dtype wtdw) Float64) then raise
         else let! a := load demw;
              let! b := load labelsw;
              let! c := load fdw;
              let! d := load wtdw;
              let copy := deps in
              match fsm a b c copy d with
              | FOk copy' l => let! _ := store wtdw l; ret deps
              | FThrow l => let! _ := store wtdw l; raise
              | FUndef => fun _ => Undefd
              end.

  (** a script as in the documentation: new labels, the hierarchy, fill-spill-merge *)
  Definition hierarchy_script (dem : nat) : py (H * (nat * nat)) :=
    let! o := getobj dem;
    let! labels := get_new_depression_hierarchy_labels (o_shape o) (PInt (-9999)) None;
    let! r := get_depression_hierarchy dem labels;
    ret (fst r, (labels, snd r)).
  Definition water_script (dem wtd : nat) : py (H * (nat * nat)) :=
    let! r := hierarchy_script dem;
    let! dh := fill_spill_merge dem (fst (snd r)) (snd (snd r)) (fst r) wtd;
    ret (dh, snd r).
End PyDH.

(** The C++ functions: elevations, labels and directions are integers and water is rational, as in DHModel.v and FSMModel.v. A hierarchy is the list of
    depressions with their water_vol. [sorted], [parts], [order], [tbs]: how std::sort leaves equal outlets, how the OpenMP loops
    split the cells, the order in which cells are visited, and the queues' choices among equals. *)
Inductive dval := DZ (z : Z) | DQ (q : Qc).
Definition zval (v : dval) : Z := match v with DZ z => z | DQ _ => 0 end.
Definition qval (v : dval) : Qc := match v with DZ z => Q2Qc (inject_Z z) | DQ q => q end.
Definition zgrid (w : Z) (l : list dval) : grid Z := grid_of w (map zval l).
Definition qcells (w : Z) (l : list dval) : Z * Z -> Qc := fun c => qval (nth (Z.to_nat (snd c * w + fst c)) l (DZ 0)).
Definition zlist (w h : Z) (g : grid Z) : list dval := map DZ (list_of w h g).
Definition qlist (w h : Z) (f : Z * Z -> Qc) : list dval := flat_map (fun y => map (fun x => DQ (f (x, y))) (zrange 0 (Z.to_nat w))) (zrange 0 (Z.to_nat h)).
Definition hier : Type := list dep * list Qc.

Record choices := mkChoices { c_sorted : list outlet -> list outlet; c_parts : list (list (Z * Z)); c_order : list (Z * Z); c_tbs : Z -> nat -> nat }.
(** depression_hierarchy.hpp:243-725. All three arrays are indexed with the width of the first; arrays of different sizes are undefined behaviour. An
    exception is thrown before anything is written. *)
Definition gdh_run (ch : choices) (a b c : aval dval) : gout hier dval :=
  let w := v_w a in let h := v_h a in
  if (v_w b =? w) && (v_h b =? h) && (v_w c =? w) && (v_h c =? h) then
    match GetDepressionHierarchy D8 w h (zgrid w (v_data a)) most_recent_first (c_sorted ch) (c_parts ch) (zgrid w (v_data b)) (zgrid w (v_data c)) with
    | Some (Ok (lab, fd, deps)) => GOk (deps, repeat 0%Qc (length deps)) (zlist w h lab) (zlist w h fd)
    | Some Thrown => GThrow (v_data b) (v_data c)
    | _ => GUndef
    end
  else GUndef.
(** fill_spill_merge.hpp:141-195 *)
Definition fsm_run (ch : choices) (a b c : aval dval) (dh : hier) (d : aval dval) : fout hier dval :=
  let w := v_w a in let h := v_h a in
  if (v_w b =? w) && (v_h b =? h) && (v_w c =? w) && (v_h c =? h) && (v_w d =? w) && (v_h d =? h) then
    match FillSpillMerge w h (zgrid w (v_data a)) (zgrid w (v_data b)) (zgrid w (v_data c)) (fst dh) (c_order ch) (c_tbs ch) (snd dh) (qcells w (v_data d)) with
    | Some (Ok (wtd, wv)) => FOk (fst dh, wv) (qlist w h wtd)
    | _ => FUndef
    end
  else FUndef.
Definition dh_env : env :=
  mkEnv Empty_set dval (fun d n => match n with PInt z => Ok (DZ (if is_int d then wrap_to d z else z)) | PFloat x => match x with end end) (fun _ v => PInt (zval v)) (fun _ z => DZ z) (fun _ _ _ => EUndef).
