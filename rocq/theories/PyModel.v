(** The Python package: wrappers/pyrichdem/richdem/__init__.py (array classes and functions),
    wrappers/pyrichdem/src/pywrapper.{hpp,cpp} (how a numpy array reaches the C++ code) and
    wrappers/pyrichdem/richdem/cli.py.

    Modelled: which memory every call reads and writes, which objects it creates, what it returns and when
    it raises. The C++ functions behind the module _richdem are a parameter ([eng] below): any function of
    the arrays handed over. NumPy is modelled by its documented meaning: an array is a block of memory, an
    offset, a shape and strides. Strides count elements; arrays whose strides are not multiples of the
    element size, read-only flags and the text of warnings are left out. *)
From Coq Require Import ZArith List Lia Bool String.
From Verif Require Import Base Res.
Open Scope Z_scope.
Open Scope list_scope.

(** numpy dtypes; [Other]: anything that is not one of the ten native types of __init__.py:186-197 *)
Inductive dtype := Int8 | Int16 | Int32 | Int64 | Uint8 | Uint16 | Uint32 | Uint64 | Float32 | Float64 | Other.
Definition dtype_eqb (a b : dtype) : bool :=
  match a, b with
  | Int8, Int8 | Int16, Int16 | Int32, Int32 | Int64, Int64 | Uint8, Uint8 | Uint16, Uint16 | Uint32, Uint32
  | Uint64, Uint64 | Float32, Float32 | Float64, Float64 | Other, Other => true
  | _, _ => false
  end.
(** the type of an object: [type(dem) is not rdarray] asks for exactly this *)
Inductive kind := KRd | KRd3 | KNumpy.
(** a geotransform attribute: absent, a tuple or list, or a numpy array *)
Inductive geot := GNone | GTuple (g : list Z) | GArray (g : list Z).
(** Python numbers: int and float ([F]: the floats) *)
Inductive num (F : Type) := PInt (z : Z) | PFloat (x : F).
Arguments PInt {F}. Arguments PFloat {F}.

(** an array object: where its elements are, and the attributes of rdarray (__init__.py:160-183). [o_hist]: the lines of
    metadata["PROCESSING_HISTORY"]; other metadata keys are left out. *)
Record obj (F : Type) := mkObj { o_kind : kind; o_block : nat; o_off : Z; o_shape : list Z; o_strides : list Z; o_dtype : dtype;
  o_nodata : option (num F); o_geo : geot; o_proj : string; o_hist : list string }.
Arguments mkObj {F}. Arguments o_kind {F}. Arguments o_block {F}. Arguments o_off {F}. Arguments o_shape {F}. Arguments o_strides {F}.
Arguments o_dtype {F}. Arguments o_nodata {F}. Arguments o_geo {F}. Arguments o_proj {F}. Arguments o_hist {F}.

(** memory blocks (each a list of elements) and objects; a reference is an index *)
Record state (F V : Type) := mkState { s_mem : list (list V); s_objs : list (obj F) }.
Arguments mkState {F V}. Arguments s_mem {F V}. Arguments s_objs {F V}.

(** what the C++ side sees of an array: Array2D / Array3D over foreign memory, with its NoData value *)
Record aval (V : Type) := mkAval { v_dtype : dtype; v_w : Z; v_h : Z; v_nd : V; v_data : list V }.
Arguments mkAval {V}. Arguments v_dtype {V}. Arguments v_w {V}. Arguments v_h {V}. Arguments v_nd {V}. Arguments v_data {V}.
(** a C++ call: the new elements and NoData value of the last array handed over; or an exception, with the elements as they then are;
    or undefined behaviour *)
Inductive eout (V : Type) := EOk (l : list V) (nd : V) | EThrow (l : list V) | EUndef.
Arguments EOk {V}. Arguments EThrow {V}. Arguments EUndef {V}.

(** [cvt d n]: setNoData(n) on an Array2D of type [d] (pywrapper.hpp:132-142); [back d v]: noData() as a Python number;
    [lit d z]: np.zeros / np.ones; [eng f args arrs]: the function _richdem.f on the arrays [arrs], of which the last
    is written, with the extra arguments [args]. *)
Record env := mkEnv { F : Type; V : Type; cvt : dtype -> num F -> res V; back : dtype -> V -> num F; lit : dtype -> Z -> V;
  eng : string -> list (num F) -> list (aval V) -> eout V }.

(** Outcome of a Python call: a value, an exception (with the effects so far), or undefined behaviour in C++ *)
Inductive out (F V A : Type) := Ret (a : A) (s : state F V) | Exn (s : state F V) | Undefd.
Arguments Ret {F V A}. Arguments Exn {F V A}. Arguments Undefd {F V A}.
Definition py F V A := state F V -> out F V A.
Definition ret {F V A} (a : A) : py F V A := fun s => Ret a s.
Definition raise {F V A} : py F V A := fun s => Exn s.
Definition seq {F V A B} (m : py F V A) (k : A -> py F V B) : py F V B :=
  fun s => match m s with Ret a s' => k a s' | Exn s' => Exn s' | Undefd => Undefd end.
Notation "'let!' x := m ; k" := (seq m (fun x => k)) (at level 200, x name, m at level 100, k at level 200).
Definition when {F V} (b : bool) (m : py F V unit) : py F V unit := if b then m else ret tt.

Definition prodZ (l : list Z) : Z := fold_right Z.mul 1 l.
(** strides of a new array in C order *)
Fixpoint c_strides (shape : list Z) : list Z :=
  match shape with [] => [] | _ :: r => prodZ r :: c_strides r end.
(** all index tuples of an array, last index fastest *)
Fixpoint indices (shape : list Z) : list (list Z) :=
  match shape with
  | [] => [[]]
  | n :: r => flat_map (fun i => map (cons i) (indices r)) (zrange 0 (Z.to_nat n))
  end.
Fixpoint dot (a b : list Z) : Z := match a, b with x :: a', y :: b' => x * y + dot a' b' | _, _ => 0 end.
(** numpy's C_CONTIGUOUS flag: dimensions of length 1 may have any stride, and an array without elements is contiguous *)
Fixpoint contig_from (sd : Z) (shape strides : list Z) : bool :=     (* both reversed *)
  match shape, strides with
  | n :: r, st :: sr => if n =? 1 then contig_from sd r sr else (st =? sd) && contig_from (sd * n) r sr
  | _, _ => true
  end.
Definition c_contiguous (shape strides : list Z) : bool :=
  existsb (Z.eqb 0) shape || contig_from 1 (rev shape) (rev strides).

Section Python.
  Context {E : env}.
  Notation num := (num (F E)). Notation obj := (obj (F E)). Notation state := (state (F E) (V E)). Notation py := (py (F E) (V E)).

  (** the element of array [o] with index tuple [idx] *)
  Definition elem (s : state) (o : obj) (idx : list Z) : option (V E) :=
    match nth_error (s_mem s) (o_block o) with Some b => ix b (o_off o + dot idx (o_strides o)) | None => None end.

  Definition getobj (r : nat) : py obj := fun s => match nth_error (s_objs s) r with Some o => Ret o s | None => Undefd end.
  Definition setobj (r : nat) (o : obj) : py unit := fun s => Ret tt (mkState (s_mem s) (upd_nth r o (s_objs s))).
  Definition newobj (o : obj) : py nat := fun s => Ret (length (s_objs s)) (mkState (s_mem s) (s_objs s ++ [o])).
  Definition alloc (b : list (V E)) : py nat := fun s => Ret (length (s_mem s)) (mkState (s_mem s ++ [b]) (s_objs s)).
  Definition allSome {A} (l : list (option A)) : option (list A) :=
    fold_right (fun x acc => match x, acc with Some a, Some l => Some (a :: l) | _, _ => None end) (Some []) l.

  (** ndarray.copy() of an rdarray: a new block in C order; __array_finalize__ (__init__.py:177-183) deep-copies the attributes *)
  Definition pycopy (r : nat) : py nat :=
    let! o := getobj r;
    fun s => match allSome (map (elem s o) (indices (o_shape o))) with
             | Some b => (let! k := alloc b;
                          newobj (mkObj (o_kind o) k 0 (o_shape o) (c_strides (o_shape o)) (o_dtype o) (o_nodata o) (o_geo o) (o_proj o) (o_hist o))) s
             | None => Undefd
             end.

  (** np.zeros / np.ones(shape, dtype) *)
  Definition npfull (shape : list Z) (d : dtype) (z : Z) : py nat :=
    let! k := alloc (repeat (lit E d z) (Z.to_nat (prodZ shape)));
    newobj (mkObj KNumpy k 0 shape (c_strides shape) d None GNone EmptyString []).

  (** rdarray.__new__ (__init__.py:156-175) and rd3array.__new__ (227-242; its dtype argument float32 is the dtype of every array
      passed here). np.asarray drops the subclass but not the memory: the new object is a view of the same block, whatever
      **kwargs says (so copy=True, lines 557 and 623, has no effect); its attributes come from [meta_obj], or are the defaults
      of __array_finalize__. *)
  Definition rd_new (k : kind) (arr : nat) (meta : option nat) (no_data : option num) (geo : option geot) : py nat :=
    let! o := getobj arr;
    let! m := match meta with
              | Some mr => let! mo := getobj mr; ret (o_geo mo, o_proj mo, o_hist mo)
              | None => ret (match geo with Some g => g | None => GNone end, EmptyString, [])
              end;
    match no_data with
    | None => raise
    | Some n => newobj (mkObj k (o_block o) (o_off o) (o_shape o) (o_strides o) (o_dtype o) (Some n) (fst (fst m)) (snd (fst m)) (snd m))
    end.

  (** __init__.py:34-48 _AddAnalysis; time stamp and version left out *)
  Definition AddAnalysis (r : nat) (analysis : string) : py unit :=
    let! o := getobj r;
    match o_kind o with
    | KNumpy => raise
    | _ => setobj r (mkObj (o_kind o) (o_block o) (o_off o) (o_shape o) (o_strides o) (o_dtype o) (o_nodata o) (o_geo o) (o_proj o) (o_hist o ++ [analysis]))
    end.

  (** a wrapped array: [w_loc = None]: the pointer is to a temporary that no longer exists *)
  Record warr := mkW { w_loc : option (nat * Z); w_dtype : dtype; w_w : Z; w_h : Z; w_len : Z; w_nd : V E }.

  (** the constructors taking a numpy array, pywrapper.hpp:109-124 (Array2D, [dims]=2, [depth]=1) and pywrapper.cpp:69-85
      (Array3D, [dims]=3, [depth]=9). array_t::ensure returns the array itself if it is C-contiguous, else a new
      contiguous copy; [buf] is destroyed on return, so the pointer kept is then to freed memory. *)
  Definition construct (dims : nat) (depth : Z) (r : nat) (nd : V E) : py warr :=
    let! o := getobj r;
    if negb (length (o_shape o) =? dims)%nat then raise
    else let w := nth 1 (o_shape o) 0 in let h := nth 0 (o_shape o) 0 in
      ret (mkW (if c_contiguous (o_shape o) (o_strides o) then Some (o_block o, o_off o) else None) (o_dtype o) w h (depth * w * h) nd).

  (** truth of a geotransform in [if self.geotransform:], __init__.py:266; a numpy array with more than one element raises *)
  Definition geo_truth (g : geot) : py bool :=
    match g with
    | GNone => ret false
    | GTuple l => ret (negb (length l =? 0)%nat)
    | GArray l => if (1 <? length l)%nat then raise else ret true
    end.

  (** rdarray.wrap (__init__.py:185-218), rd3array.wrap (252-274). The order of the steps is kept; [cvt] is setNoData. The geotransform
      handed to C++ is not modelled (only whether the line raises). *)
  Definition wrap (r : nat) : py warr :=
    let! o := getobj r;
    match o_kind o with
    | KNumpy => raise
    | KRd =>
        if dtype_eqb (o_dtype o) Other then raise
        else let! w := construct 2 1 r (lit E (o_dtype o) 0);
             match cvt E (o_dtype o) (match o_nodata o with None => PInt (-9999) | Some n => n end) with
             | Ok nd => ret (mkW (w_loc w) (w_dtype w) (w_w w) (w_h w) (w_len w) nd)
             | Thrown => raise
             | Undef => fun _ => Undefd
             end
    | KRd3 =>
        if negb (dtype_eqb (o_dtype o) Float32) then raise
        else let! w := construct 3 9 r (lit E (o_dtype o) 0);
             match cvt E (o_dtype o) (match o_nodata o with None => PInt (-9999) | Some n => n end) with
             | Ok nd => let! _ := geo_truth (o_geo o);
                        ret (mkW (w_loc w) (w_dtype w) (w_w w) (w_h w) (w_len w) nd)
             | Thrown => raise
             | Undef => fun _ => Undefd
             end
    end.

  (** copyFromWrapped, __init__.py:220-221, 276-277 *)
  Definition copyFromWrapped (r : nat) (nd : num) : py unit :=
    let! o := getobj r;
    setobj r (mkObj (o_kind o) (o_block o) (o_off o) (o_shape o) (o_strides o) (o_dtype o) (Some nd) (o_geo o) (o_proj o) (o_hist o)).

  (** the elements a wrapped array shows to C++ *)
  Definition load (p : warr) : py (aval (V E)) := fun s =>
    match w_loc p with
    | None => Undefd
    | Some (b, off) =>
        match nth_error (s_mem s) b with
        | Some l => if (0 <=? off) && (off + w_len p <=? Z.of_nat (length l))
                    then Ret (mkAval (w_dtype p) (w_w p) (w_h p) (w_nd p) (firstn (Z.to_nat (w_len p)) (skipn (Z.to_nat off) l))) s
                    else Undefd
        | None => Undefd
        end
    end.
  (** C++ writes [data] through the pointer *)
  Definition store (p : warr) (data : list (V E)) : py unit := fun s =>
    match w_loc p with
    | None => Undefd
    | Some (b, off) =>
        match nth_error (s_mem s) b with
        | Some l => Ret tt (mkState (upd_nth b (firstn (Z.to_nat off) l ++ firstn (Z.to_nat (w_len p)) data ++
                                                 skipn (Z.to_nat off + length (firstn (Z.to_nat (w_len p)) data)) l) (s_mem s)) (s_objs s))
        | None => Undefd
        end
    end.
  Fixpoint loads (ps : list warr) : py (list (aval (V E))) :=
    match ps with [] => ret [] | p :: ps' => let! a := load p; let! l := loads ps'; ret (a :: l) end.

  (** call of a function of _richdem: [ins] are only read, [outp] is read and written. Result: its NoData value. *)
  Definition call (f : string) (args : list num) (ins : list warr) (outp : warr) : py num :=
    let! l := loads (ins ++ [outp]);
    match eng E f args l with
    | EOk d nd => let! _ := store outp d; ret (back E (w_dtype outp) nd)
    | EThrow d => let! _ := store outp d; raise
    | EUndef => fun _ => Undefd
    end.

  Definition is_rd (o : obj) : bool := match o_kind o with KRd => true | _ => false end.
  Definition is_rd3 (o : obj) : bool := match o_kind o with KRd3 => true | _ => false end.

  (** the part common to FillDepressions, BreachDepressions and ResolveFlats after their argument checks: __init__.py:401-422, 443-458, 475-487 *)
  Definition in_place_or_copy (dem : nat) (in_place : bool) (analysis f : string) : py (option nat) :=
    let! d := if in_place then ret dem else pycopy dem;
    let! _ := AddAnalysis d analysis;
    let! demw := wrap d;
    let! nd := call f [] [] demw;
    let! _ := copyFromWrapped d nd;
    ret (if in_place then None else Some d).

  Definition str_in (s : string) (l : list string) : bool := existsb (String.eqb s) l.

  (** __init__.py:381-422 *)
  Definition FillDepressions (dem : nat) (epsilon in_place : bool) (topology : string) : py (option nat) :=
    let! o := getobj dem;
    if negb (is_rd o) then raise
    else if negb (str_in topology ["D8"; "D4"]%string) then raise
    else in_place_or_copy dem in_place (if epsilon then "FillDepressions(dem, epsilon=True)" else "FillDepressions(dem, epsilon=False)")
           (if epsilon then (if String.eqb topology "D8" then "rdPFepsilonD8" else "rdPFepsilonD4")
            else (if String.eqb topology "D8" then "rdFillDepressionsD8" else "rdFillDepressionsD4")).

  (** __init__.py:425-458 *)
  Definition BreachDepressions (dem : nat) (in_place : bool) (topology : string) : py (option nat) :=
    let! o := getobj dem;
    if negb (is_rd o) then raise
    else if negb (str_in topology ["D8"; "D4"]%string) then raise
    else in_place_or_copy dem in_place "BreachDepressions(dem)"
           (if String.eqb topology "D8" then "rdBreachDepressionsD8" else "rdBreachDepressionsD4").

  (** __init__.py:461-487 *)
  Definition ResolveFlats (dem : nat) (in_place : bool) : py (option nat) :=
    let! o := getobj dem;
    if negb (is_rd o) then raise
    else in_place_or_copy dem in_place (if in_place then "ResolveFlats(dem, in_place=True)" else "ResolveFlats(dem, in_place=False)")
           "rdResolveFlatsEpsilon".

  Fixpoint lookup {A} (k : string) (t : list (string * A)) : option A :=
    match t with [] => None | (k', a) :: r => if String.eqb k k' then Some a else lookup k r end.

  (** __init__.py:535-552 *)
  Definition facc_methods : list (string * string) :=
    [("Tarboton", "FA_Tarboton"); ("Dinf", "FA_Tarboton"); ("Quinn", "FA_Quinn"); ("FairfieldLeymarieD8", "FA_FairfieldLeymarieD8");
     ("FairfieldLeymarieD4", "FA_FairfieldLeymarieD4"); ("Rho8", "FA_Rho8"); ("Rho4", "FA_Rho4"); ("OCallaghanD8", "FA_OCallaghanD8");
     ("OCallaghanD4", "FA_OCallaghanD4"); ("D8", "FA_D8"); ("D4", "FA_D4")]%string.
  Definition facc_methods_exponent : list (string * string) := [("Freeman", "FA_Freeman"); ("Holmgren", "FA_Holmgren")]%string.
  (** __init__.py:685-702 *)
  Definition fprop_methods : list (string * string) :=
    [("Tarboton", "FM_Tarboton"); ("Dinf", "FM_Tarboton"); ("Quinn", "FM_Quinn"); ("FairfieldLeymarieD8", "FM_FairfieldLeymarieD8");
     ("FairfieldLeymarieD4", "FM_FairfieldLeymarieD4"); ("Rho8", "FM_Rho8"); ("Rho4", "FM_Rho4"); ("OCallaghanD8", "FM_OCallaghanD8");
     ("OCallaghanD4", "FM_OCallaghanD4"); ("D8", "FM_D8"); ("D4", "FM_D4")]%string.
  Definition fprop_methods_exponent : list (string * string) := [("Freeman", "FM_Freeman"); ("Holmgren", "FM_Holmgren")]%string.
  (** __init__.py:762-773 *)
  Definition terrain_attribs : list (string * string) :=
    [("slope_riserun", "TA_slope_riserun"); ("slope_percentage", "TA_slope_percentage"); ("slope_degrees", "TA_slope_degrees");
     ("slope_radians", "TA_slope_radians"); ("aspect", "TA_aspect"); ("curvature", "TA_curvature");
     ("planform_curvature", "TA_planform_curvature"); ("profile_curvature", "TA_profile_curvature")]%string.

  (** the dispatch of FlowAccumulation (580-592) and FlowProportions (714-728): dem.wrap() is evaluated before the call *)
  Definition dispatch (t te : list (string * string)) (dem : nat) (method : string) (exponent : option num) (outw : warr) : py num :=
    match lookup method t with
    | Some f => let! dw := wrap dem; call f [] [dw] outw
    | None => match lookup method te with
              | Some f => match exponent with
                          | None => raise
                          | Some e => let! dw := wrap dem; call f [e] [dw] outw
                          end
              | None => raise
              end
    end.

  (** the accumulation array of FlowAccumulation (554-566) and FlowAccumFromProps (620-632) *)
  Definition make_accum (src : nat) (weights : option nat) (in_place : bool) (shape : list Z) : py nat :=
    let! a := match weights with
              | Some wt => if in_place then rd_new KRd wt None (Some (PInt (-1))) None else rd_new KRd wt (Some src) (Some (PInt (-1))) None
              | None => let! n := npfull shape Float64 1; rd_new KRd n (Some src) (Some (PInt (-1))) None
              end;
    let! o := getobj a;
    if negb (dtype_eqb (o_dtype o) Float64) then raise else ret a.

  (** __init__.py:490-596; the analysis line is abbreviated *)
  Definition FlowAccumulation (dem : nat) (method : string) (exponent : option num) (weights : option nat) (in_place : bool) : py nat :=
    let! o := getobj dem;
    if negb (is_rd o) then raise
    else
      let! accum := make_accum dem weights in_place (o_shape o);
      let! accumw := wrap accum;
      let! _ := AddAnalysis accum (String.append "FlowAccumulation " method);
      let! nd := dispatch facc_methods facc_methods_exponent dem method exponent accumw;
      let! _ := copyFromWrapped accum nd;
      ret accum.

  (** __init__.py:599-647 *)
  Definition FlowAccumFromProps (props : nat) (weights : option nat) (in_place : bool) : py nat :=
    let! o := getobj props;
    if negb (is_rd3 o) then raise
    else
      let! accum := make_accum props weights in_place (firstn 2 (o_shape o));
      let! accumw := wrap accum;
      let! _ := AddAnalysis accum "FlowAccumFromProps";
      let! pw := wrap props;
      let! nd := call "FlowAccumulation" [] [pw] accumw;
      let! _ := copyFromWrapped accum nd;
      ret accum.

  (** __init__.py:650-732 *)
  Definition FlowProportions (dem : nat) (method : string) (exponent : option num) : py nat :=
    let! o := getobj dem;
    if negb (is_rd o) then raise
    else
      let! n := npfull (o_shape o ++ [9]) Float32 0;
      let! fp := rd_new KRd3 n (Some dem) (Some (PInt (-2))) None;
      let! fpw := wrap fp;
      let! _ := AddAnalysis fp (String.append "FlowProportions " method);
      let! nd := dispatch fprop_methods fprop_methods_exponent dem method exponent fpw;
      let! _ := copyFromWrapped fp nd;
      ret fp.

  (** __init__.py:735-795 *)
  Definition TerrainAttribute (dem : nat) (attrib : string) (zscale : num) : py nat :=
    let! o := getobj dem;
    if negb (is_rd o) then raise
    else match lookup attrib terrain_attribs with
         | None => raise
         | Some f =>
             let! n := npfull (o_shape o) Float32 0;
             let! r := rd_new KRd n (Some dem) (Some (PInt (-9999))) None;
             let! rw := wrap r;
             let! _ := AddAnalysis r (String.append "TerrainAttribute " attrib);
             let! dw := wrap dem;
             let! nd := call f [zscale] [dw] rw;
             let! _ := copyFromWrapped r nd;
             ret r
         end.

  (** __init__.py:24 STANDARD_GEOTRANSFORM, a numpy array *)
  Definition STANDARD_GEOTRANSFORM : geot := GArray [0; 1; 0; 0; 0; -1].

  (** __init__.py:797-813 *)
  Definition generate_perlin_terrain (size : Z) (seed : num) : py nat :=
    let! n := npfull [size; size] Float64 0;
    let! d := rd_new KRd n None (Some (PInt (-9999))) None;
    let! o := getobj d;
    let! _ := setobj d (mkObj (o_kind o) (o_block o) (o_off o) (o_shape o) (o_strides o) (o_dtype o) (o_nodata o) STANDARD_GEOTRANSFORM (o_proj o) (o_hist o));
    let! dw := wrap d;
    let! nd := call "generate_perlin_terrain" [seed] [] dw;
    let! _ := AddAnalysis d "GeneratePerlinTerrain";
    let! _ := copyFromWrapped d nd;
    ret d.

  (** ** cli.py *)
  (** cli.py:10-31 DepressionFilling and 34-50 BreachDepressions: [dem] is the array LoadGDAL returned; the result is the array handed to
      SaveGDAL *)
  Definition cli_DepressionFilling (dem : nat) (argv : string) (gradient : bool) : py nat :=
    let! _ := AddAnalysis dem argv;
    let! _ := FillDepressions dem gradient true "D8";
    ret dem.
  Definition cli_BreachDepressions (dem : nat) (argv : string) : py nat :=
    let! _ := AddAnalysis dem argv;
    let! _ := BreachDepressions dem false "D8";
    ret dem.
  (** cli.py:53-94 FlowAccumulation, 97-140 TerrainAttribute *)
  Definition cli_FlowAccumulation (dem : nat) (argv method : string) (exponent : option num) : py nat :=
    let! _ := AddAnalysis dem argv;
    FlowAccumulation dem method exponent None false.
  Definition cli_TerrainAttribute (dem : nat) (argv attrib : string) (zscale : num) : py nat :=
    let! _ := AddAnalysis dem argv;
    TerrainAttribute dem attrib zscale.
End Python.
