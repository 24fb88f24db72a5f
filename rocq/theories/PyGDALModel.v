(** Reading and writing files from Python: wrappers/pyrichdem/richdem/__init__.py:34-48 (_AddAnalysis), 160-183 (rdarray), 282-344 (LoadGDAL), 346-378 (SaveGDAL).
    Arrays are taken by value here: np.array(rda) copies the cells row by row whatever the strides (C85). *)
From Coq Require Import ZArith List Lia Bool String QArith Qcanon.
From Flocq Require Import Core BinarySingleNaN.
From Verif Require Import Base Res FAFModel PyModel PyIntModel PyNumModel GDALModel.
Open Scope Z_scope.
Open Scope list_scope.

(** an rdarray: type, shape (rows, columns), cells row by row and the attributes; the attributes can be None *)
Record parr := mkP { p_type : dtype; p_h : Z; p_w : Z; p_cells : list val; p_nd : option (num float64); p_geo : option (list Qc); p_proj : string;
  p_meta : option (list (string * string)) }.

(** rdarray(array, no_data=n), __init__.py:160-183: an array made from a plain numpy array has no geotransform *)
Definition rdarray (d : dtype) (h w : Z) (cells : list val) (n : num float64) : parr := mkP d h w cells (Some n) None EmptyString (Some []).

Section PyGDAL.
  (** time, version string, and the text of a Python number *)
  Variable now ver : string.
  Variable show : num float64 -> string.

  (** __init__.py:34-48 *)
  Definition AddAnalysis (m : option (list (string * string))) (analysis : string) : list (string * string) :=
    let metastr := String.append nl (String.append now (String.append " | " (String.append ver (String.append " | " analysis)))) in
    let m1 := match m with None => [] | Some m => m end in
    let m2 := match mget HIST m1 with None => mset HIST EmptyString m1 | Some _ => m1 end in
    mset HIST (String.append (getd (mget HIST m2)) metastr) m2.

  (** gdal's GetGeoTransform() for a file without one *)
  Definition PY_GEO : list Qc := map (fun z => Q2Qc (inject_Z z)) [0; 1; 0; 0; 0; 1].

  (** __init__.py:282-344. The types GDAL knows beyond the seven allowed ones are read and then rejected. *)
  Definition py_LoadGDAL (fs : files) (filename : string) (no_data : option (num float64)) : res parr :=
    match fs filename with
    | None => Thrown                                                    (* gdal.UseExceptions *)
    | Some ds =>
        let n := match no_data with Some n => Some n | None => match ds_nodata ds with Some x => Some (PFloat x) | None => None end end in
        match n with
        | None => Thrown
        | Some n =>
            let cells := window (ds_cell ds) 0 0 (ds_w ds) (ds_h ds) in
            if negb (has_gdal_type (ds_type ds)) then Thrown
            else
              let geo := match ds_geo ds with Some g => g | None => PY_GEO end in
              let meta := AddAnalysis (Some (set_items (ds_meta ds) []))
                 (String.append "LoadGDAL(filename=" (String.append filename (String.append ", no_data=" (String.append (show n) ")")))) in
              Ok (mkP (ds_type ds) (ds_h ds) (ds_w ds) cells (Some n) (Some geo) (ds_proj ds) (Some meta))
        end
    end.

  (** a Python number as a C double; OverflowError for integers that are too big *)
  Definition py_double (n : num float64) : res float64 :=
    match n with PFloat x => Ok x | PInt z => if is_finite (f64_of_Z z) then Ok (f64_of_Z z) else Thrown end.
  (** WriteArray to a Float32 band. (GDAL converts 64 bit integers through double; doubles beyond the range of float become infinite.) *)
  Definition to_f32 (v : val) : val := VF (f32_of_f64 (to_double v)).

  (** [writable]: the driver can create this file; [isrd]: type(rda) is rdarray *)
  Variable writable : string -> bool.

  (** __init__.py:346-378: the files afterwards, and whether it returned normally. The file is created before anything is checked, and closed with what it
      holds if a later step raises. A new file has zeros in its cells. *)
  Definition py_SaveGDAL (fs : files) (filename : string) (isrd : bool) (a : parr) : files * bool :=
    if negb isrd then (fs, false)
    else if (p_w a <? 1) || (p_h a <? 1) || negb (writable filename) then (fs, false)
    else
      let ds0 := mkDS Float32 (p_w a) (p_h a) (fun _ _ => VF (B754_zero false)) None None EmptyString [] in
      match p_geo a with
      | None => (upd_file fs filename ds0, false)                       (* SetGeoTransform(None): TypeError *)
      | Some g =>
          if negb (length g =? 6)%nat then (upd_file fs filename ds0, false)
          else
            match match p_nd a with None => Thrown | Some n => py_double n end with
            | Ok x =>
                let ds1 m := mkDS Float32 (p_w a) (p_h a) (cell_at (p_w a) (map to_f32 (p_cells a))) (Some x) (Some g) (p_proj a) m in
                match p_meta a with
                | None => (upd_file fs filename (ds1 []), false)        (* None.items() *)
                | Some m => (upd_file fs filename (ds1 (set_items m [])), true)
                end
            | _ => (upd_file fs filename (mkDS Float32 (p_w a) (p_h a) (fun _ _ => VF (B754_zero false)) None (Some g) (p_proj a) []), false)
            end
      end.
End PyGDAL.
