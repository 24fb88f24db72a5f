(** Raster files read and written through GDAL: common/Array2D.hpp:42-65 (ProcessMetadata), 133-193 (loadGDAL), 444-475 (loadData), 1112-1190
    (saveGDAL), and common/loaders.hpp (LoadGDAL and SaveGDAL with padding). GDAL itself is modelled by its documented meaning: a file holds one
    band of cells with a type, an optional NoData value (a double), an optional geotransform, a projection and a list of
    metadata items; RasterIO copies a window that lies inside the raster. *)
From Coq Require Import ZArith List Lia Bool String QArith Qcanon.
From Flocq Require Import Core BinarySingleNaN.
From Verif Require Import Base Res FAFModel PyModel PyIntModel PyNumModel.
Open Scope Z_scope.
Open Scope list_scope.

(** a raster file *)
Record dataset := mkDS { ds_type : dtype; ds_w : Z; ds_h : Z; ds_cell : Z -> Z -> val; ds_nodata : option float64; ds_geo : option (list Qc);
  ds_proj : string; ds_meta : list (string * string) }.
(** the files, by name *)
Definition files := string -> option dataset.

(** gdal.hpp:82-102 NativeTypeToGDAL: throws for the other types *)
Definition has_gdal_type (d : dtype) : bool :=
  match d with Uint8 | Uint16 | Int16 | Uint32 | Int32 | Float32 | Float64 => true | _ => false end.
(** a value of type T as a double, and the conversion of a double to T, undefined for integer types unless the truncated value is in range *)
Definition to_double (v : val) : float64 := match v with VI z => f64_of_Z z | VF f => f64_of_f32 f | VD x => x end.
Definition of_double (d : dtype) (x : float64) : res val :=
  match d with
  | Float64 => Ok (VD x)
  | Float32 => Ok (VF (f32_of_f64 x))
  | Other => Undef
  | _ => if is_finite x && (dmin d <=? Btrunc x) && (Btrunc x <=? dmax d) then Ok (VI (Btrunc x)) else Undef
  end.
(** T() *)
Definition zero_of (d : dtype) : val := match d with Float32 => VF (B754_zero false) | Float64 => VD (B754_zero false) | _ => VI 0 end.
(** GDALRasterBand::GetNoDataValue: -1e10 if the band has none *)
Definition GetNoDataValue (ds : dataset) : float64 := match ds_nodata ds with Some x => x | None => f64_of_Z (-10000000000) end.

(** GDALDataset::GetMetadata: a null pointer if there are no items, else an array of strings "key=value" ended by a null pointer *)
Definition GetMetadata (ds : dataset) : option (list string) :=
  match ds_meta ds with [] => None | l => Some (map (fun kv => String.append (fst kv) (String.append "=" (snd kv))) l) end.

(** std::map<std::string,std::string>, as a list of keys and values *)
Fixpoint mget (k : string) (m : list (string * string)) : option string :=
  match m with [] => None | (k', v) :: r => if String.eqb k k' then Some v else mget k r end.
Fixpoint mset (k v : string) (m : list (string * string)) : list (string * string) :=
  match m with [] => [(k, v)] | (k', v') :: r => if String.eqb k k' then (k, v) :: r else (k', v') :: mset k v r end.

(** Array2D.hpp:42-65 ProcessMetadata. The loop runs while metadata[metstri]==NULL, and its body reads that null pointer. *)
Definition ProcessMetadata (metadata : option (list string)) : res (list (string * string)) :=
  match metadata with
  | None => Ok []
  | Some l => match nth_error l 0 with
              | None => Undef                                       (* metadata[0]==NULL: std::string(NULL) *)
              | Some _ => Ok []                                     (* the loop is not entered *)
              end
  end.

(** an Array2D<T> that is not in the native cache; [g_data = None]: not loaded *)
Record garr := mkG { g_type : dtype; g_w : Z; g_h : Z; g_xoff : Z; g_yoff : Z; g_nd : val; g_geo : list Qc; g_proj : string;
  g_meta : list (string * string); g_file : string; g_data : option (list val) }.

Definition i32 (z : Z) : res Z := if (- 2 ^ 31 <=? z) && (z <? 2 ^ 31) then Ok z else Undef.

(** cells of the window, row by row *)
Definition window (cell : Z -> Z -> val) (xo yo w h : Z) : list val :=
  flat_map (fun y => map (fun x => cell (xo + x) (yo + y)) (zrange 0 (Z.to_nat w))) (zrange 0 (Z.to_nat h)).
Section GDAL.
  (** GDAL's conversion of a value to type T, where T differs from the type of the file *)
  Variable convert : dtype -> val -> val.

  (** GDALRasterBand::RasterIO(GF_Read, xo, yo, w, h, buffer of w*h values of type T): nothing is done for an empty window; a window
      that is not inside the raster is an error ([Thrown]: every caller throws) *)
  Definition RasterIO_read (ds : dataset) (T : dtype) (xo yo w h : Z) (buf : list val) : res (list val) :=
    if (w <? 1) || (h <? 1) then Ok buf
    else if (xo <? 0) || (yo <? 0) || (ds_w ds <? xo + w) || (ds_h ds <? yo + h) then Thrown
    else Ok (map (fun v => if dtype_eqb (ds_type ds) T then v else convert T v) (window (ds_cell ds) xo yo w h)).

  (** Array2D.hpp:852-864 resize. (uint64_t)w*(uint64_t)h values: if exactly one is negative, new throws std::bad_array_new_length (0 times a
      negative number is 0) *)
  Definition resize_data (T : dtype) (w h : Z) : res (list val) :=
    if w * h <? 0 then Thrown else Ok (repeat (zero_of T) (Z.to_nat (w * h))).

  (** Array2D.hpp:444-475 *)
  Definition loadData (fs : files) (a : garr) : res garr :=
    match g_data a with
    | Some (_ :: _) => Thrown
    | _ =>
        match fs (g_file a) with
        | None => Thrown
        | Some ds =>
            do buf <- resize_data (g_type a) (g_w a) (g_h a);
            if negb (has_gdal_type (g_type a)) then Thrown
            else do l <- RasterIO_read ds (g_type a) (g_xoff a) (g_yoff a) (g_w a) (g_h a) buf;
                 Ok (mkG (g_type a) (g_w a) (g_h a) (g_xoff a) (g_yoff a) (g_nd a) (g_geo a) (g_proj a) (g_meta a) (g_file a) (Some l))
        end
    end.

  (** Array2D.hpp:148: the geotransform of files without one *)
  Definition STANDARD_GEO : list Qc := map (fun z => Q2Qc (inject_Z z)) [1000; 1; 0; 1000; 0; -1].

  (** Array2D.hpp:133-193; int arithmetic *)
  Definition loadGDAL (T : dtype) (fs : files) (name : string) (xOffset yOffset part_width part_height : Z) (exact load_data : bool) : res garr :=
    match fs name with
    | None => Thrown
    | Some ds =>
        let geo := match ds_geo ds with Some g => g | None => STANDARD_GEO end in
        do meta <- ProcessMetadata (GetMetadata ds);
        do nd <- of_double T (GetNoDataValue ds);
        do rw <- i32 (ds_w ds - xOffset);
        do rh <- i32 (ds_h ds - yOffset);
        if exact && (negb (rw =? part_width) || negb (rh =? part_height)) then Thrown
        else do ex <- i32 (xOffset + part_width);
             do ey <- i32 (yOffset + part_height);
             let pw := if ds_w ds <=? ex then rw else part_width in
             let ph := if ds_h ds <=? ey then rh else part_height in
             let vw := if pw =? 0 then ds_w ds else pw in
             let vh := if ph =? 0 then ds_h ds else ph in
             let a := mkG T vw vh xOffset yOffset nd geo (ds_proj ds) meta name None in
             if load_data then loadData fs a else Ok a
    end.
  (** Array2D.hpp:418: Array2D(filename) *)
  Definition open_file (T : dtype) (fs : files) (name : string) : res garr := loadGDAL T fs name 0 0 0 0 false true.

  Definition HIST : string := "PROCESSING_HISTORY".
  Definition nl : string := String (Ascii.ascii_of_nat 10) EmptyString.
  Definition getd (o : option string) : string := match o with Some s => s | None => EmptyString end.
  (** GDALDataset::SetMetadataItem for every item *)
  Definition set_items (items m : list (string * string)) : list (string * string) := fold_left (fun m kv => mset (fst kv) (snd kv) m) items m.
  (** "date | program | " *)
  Definition stamp (now prog : string) : string := String.append now (String.append " | " (String.append prog " | ")).

  (** [now]: time_str; [prog]: program_identifier; [writable]: GDALDriver::Create succeeds for this name *)
  Variable now prog : string.
  Variable writable : string -> bool.

  Definition upd_file (fs : files) (name : string) (ds : dataset) : files := fun n => if String.eqb n name then Some ds else fs n.
  Definition shifted (g : list Qc) (xoffset yoffset : Z) : list Qc :=
    upd_nth 3 (nth 3 g 0%Qc + Q2Qc (inject_Z yoffset) * nth 5 g 0%Qc)%Qc (upd_nth 0 (nth 0 g 0%Qc + Q2Qc (inject_Z xoffset) * nth 1 g 0%Qc)%Qc g).
  Definition cell_at (w : Z) (l : list val) (x y : Z) : val := nth (Z.to_nat (y * w + x)) l (VI 0).

  (** Array2D.hpp:1112-1190. Result: the files and the array (its metadata change). A file left incomplete when a later step throws is not
      modelled. Geotransform coefficients are exact numbers. *)
  Definition saveGDAL (fs : files) (a : garr) (name metadata_str : string) (xoffset yoffset : Z) : res (files * garr) :=
    if negb (has_gdal_type (g_type a)) || (g_w a <? 1) || (g_h a <? 1) || negb (writable name) then Thrown
    else
      let m1 := mset HIST (String.append (getd (mget HIST (g_meta a))) (String.append nl (stamp now prog))) (g_meta a) in
      let m2 := mset HIST (String.append (getd (mget HIST m1)) (if negb (length m1 =? 0)%nat then metadata_str else "Unspecified Operation")) m1 in
      let items := set_items m2 [("TIFFTAG_DATETIME", now); ("TIFFTAG_SOFTWARE", prog)]%string in
      if negb (length (g_geo a) =? 0)%nat && negb (length (g_geo a) =? 6)%nat then Thrown
      else
        let geo := if (length (g_geo a) =? 0)%nat then None else Some (shifted (g_geo a) xoffset yoffset) in
        match g_data a with
        | Some l =>
            if Z.of_nat (length l) =? g_w a * g_h a
            then Ok (upd_file fs name (mkDS (g_type a) (g_w a) (g_h a) (cell_at (g_w a) l) (Some (to_double (g_nd a))) geo (g_proj a) items),
                     mkG (g_type a) (g_w a) (g_h a) (g_xoff a) (g_yoff a) (g_nd a) (g_geo a) (g_proj a) m2 (g_file a) (g_data a))
            else Undef
        | None => Undef
        end.

  (** ** loaders.hpp *)
  Definition u64 (z : Z) : Z := z mod 2 ^ 64.

  (** loaders.hpp:10-94 LoadGDAL: uint64_t arithmetic; with padding the cells are copied into an array of zeros. (Simplified: sizes
      that do not fit an int, which resize takes, count as undefined, so that nothing is claimed of them.) *)
  Definition LoadGDAL (T : dtype) (fs : files) (name : string) (padx pady xOffset yOffset part_width part_height : Z) : res garr :=
    match fs name with
    | None => Thrown
    | Some ds =>
        let geo := match ds_geo ds with Some g => g | None => STANDARD_GEO end in
        do meta <- ProcessMetadata (GetMetadata ds);
        do nd <- of_double T (GetNoDataValue ds);
        let pw := if ds_w ds <=? u64 (xOffset + part_width) then u64 (ds_w ds - xOffset) else part_width in
        let ph := if ds_h ds <=? u64 (yOffset + part_height) then u64 (ds_h ds - yOffset) else part_height in
        let vw := if pw =? 0 then ds_w ds else pw in
        let vh := if ph =? 0 then ds_h ds else ph in
        if (2 ^ 31 <=? vw) || (2 ^ 31 <=? vh) || (2 ^ 31 <=? vw + 2 * padx) || (2 ^ 31 <=? vh + 2 * pady) then Undef
        else if negb (has_gdal_type T) then Thrown
        else do l <- RasterIO_read ds T xOffset yOffset vw vh (repeat (zero_of T) (Z.to_nat (vw * vh)));
             let w := vw + 2 * padx in let h := vh + 2 * pady in
             let data := if (padx =? 0) && (pady =? 0) then l
                         else window (fun x y => if inGrid vw vh (x - padx) (y - pady) then cell_at vw l (x - padx) (y - pady) else zero_of T) 0 0 w h in
             Ok (mkG T w h 0 0 nd geo (ds_proj ds) meta name (Some data))
    end.

  (** loaders.hpp:98-203 SaveGDAL. The file is created with the full size of the array; what is written with padding is a window at (0,0).
      [fill]: what GDAL has in cells never written. *)
  Variable fill : val.
  Definition SaveGDAL (fs : files) (a : garr) (name metadata_str : string) (xoffset yoffset padx pady : Z) : res files :=
    if negb (has_gdal_type (g_type a)) || (g_w a <? 1) || (g_h a <? 1) || negb (writable name) then Thrown
    else
      let h0 := getd (mget HIST (g_meta a)) in
      let h1 := if String.eqb h0 EmptyString then h0 else String.append h0 nl in
      let hist := String.append h1 (String.append (stamp now prog) (if String.eqb metadata_str EmptyString then "Unspecified Operation"%string else metadata_str)) in
      let items := set_items (filter (fun kv => negb (String.eqb (fst kv) HIST)) (g_meta a)) [("TIFFTAG_DATETIME"%string, now); ("TIFFTAG_SOFTWARE"%string, prog); (HIST, hist)] in
      if negb (length (g_geo a) =? 0)%nat && negb (length (g_geo a) =? 6)%nat then Thrown
      else
        let geo := if (length (g_geo a) =? 0)%nat then None else Some (shifted (g_geo a) xoffset yoffset) in
        match g_data a with
        | Some l =>
            if Z.of_nat (length l) =? g_w a * g_h a
            then let ow := g_w a - 2 * padx in let oh := g_h a - 2 * pady in
                 if (ow <? 0) || (oh <? 0) then Undef
                 else Ok (upd_file fs name (mkDS (g_type a) (g_w a) (g_h a)
                            (fun x y => if inGrid ow oh x y then cell_at (g_w a) l (x + padx) (y + pady) else fill)
                            (Some (to_double (g_nd a))) geo (g_proj a) items))
            else Undef
        | None => Undef
        end.
End GDAL.
