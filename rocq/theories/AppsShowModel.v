(** Programs that print cells of a raster file: apps/rd_raster_inspect.cpp and apps/rd_raster_display.cpp, on top of the models of raster files (GDALModel), of Array2D (ArrModel) and of the router
    (AppsGDALModel). The result is what is printed, as numbers, not as text. *)
From Coq Require Import ZArith List Lia Bool String Ascii QArith Qcanon.
From Flocq Require Import Core BinarySingleNaN.
From Verif Require Import Base Res ArrModel FAFModel PyModel PyIntModel PyNumModel GDALModel AppsGDALModel.
Open Scope Z_scope.
Open Scope list_scope.

Fixpoint mapM {A B} (f : A -> res B) (l : list A) : res (list B) :=
  match l with [] => Ok [] | x :: r => do y <- f x; do ys <- mapM f r; Ok (y :: ys) end.
(** for(y=y0;y<=y1;y++) for(x=x0;x<=x1;x++) of inp(x,y) *)
Definition cells_of {A} (a : arr A) (x0 x1 y0 y1 : Z) : res (list (list A)) :=
  mapM (fun y => mapM (fun x => get a x y) (zrange x0 (Z.to_nat (x1 + 1 - x0)))) (zrange y0 (Z.to_nat (y1 + 1 - y0))).

(** rd_raster_inspect.cpp:76-83: the variables of main; -1 for numbers not given *)
Record iopts := mkI { i_flipV : bool; i_flipH : bool; i_file : string; i_minx : Z; i_maxx : Z; i_miny : Z; i_maxy : Z }.
Definition i_start : iopts := mkI false false EmptyString (-1) (-1) (-1) (-1).
(** std::stoi: None for std::invalid_argument, which main catches, Thrown for std::out_of_range, which it does not *)
Definition stoi_arg (s : string) : res (option Z) :=
  match stoi s with
  | Ok n => Ok (Some n)
  | _ => let s := skip_space s in
         if starts_with_digit (match s with String a r => if Ascii.eqb a "-" || Ascii.eqb a "+" then r else s | EmptyString => s end) then Thrown else Ok None
  end.
Definition starts_with (c : ascii) (s : string) : bool := match s with String a _ => Ascii.eqb a c | EmptyString => false end.
Definition num_arg (s : string) (k : Z -> iopts) : res (option iopts) := do n <- stoi_arg s; Ok (option_map k n).
(** rd_raster_inspect.cpp:87-105: one argument. None: invalid_argument *)
Definition parse_one (s : string) (o : iopts) : res (option iopts) :=
  let '(mkI v h f x0 x1 y0 y1) := o in
  if String.eqb s "--flipH" || String.eqb s "-H" then Ok (Some (mkI v true f x0 x1 y0 y1))
  else if String.eqb s "--flipV" || String.eqb s "-V" then Ok (Some (mkI true h f x0 x1 y0 y1))
  else if starts_with "-" s then Ok None
  else if String.eqb f EmptyString then Ok (Some (mkI v h s x0 x1 y0 y1))
  else if x0 =? -1 then num_arg s (fun n => mkI v h f n x1 y0 y1)
  else if x1 =? -1 then num_arg s (fun n => mkI v h f x0 n y0 y1)
  else if y0 =? -1 then num_arg s (fun n => mkI v h f x0 x1 n y1)
  else if y1 =? -1 then num_arg s (fun n => mkI v h f x0 x1 y0 n)
  else Ok None.
Fixpoint parse (args : list string) (o : iopts) : res (option iopts) :=
  match args with [] => Ok (Some o) | s :: r => do q <- parse_one s o; match q with Some o' => parse r o' | None => Ok None end end.
(** rd_raster_inspect.cpp:106-117 *)
Definition acceptable (o : iopts) : bool :=
  negb (String.eqb (i_file o) EmptyString || (i_minx o =? -1) || (i_maxx o =? -1) || (i_miny o =? -1)) &&
  negb (negb (i_maxy o =? -1) && (i_maxx o <? i_minx o)) && negb (negb (i_maxy o =? -1) && (i_maxy o <? i_miny o)) &&
  negb (i_minx o <? 0) && negb (i_maxx o <? 0) && negb (i_miny o <? 0).

(** what is printed: the numbers of the columns and rows, the values, and the cell that is marked *)
Record table := mkT { t_x0 : Z; t_x1 : Z; t_y0 : Z; t_y1 : Z; t_rows : list (list val); t_mark : Z * Z }.

(** g < 0, g > 0 *)
Definition neg (q : Qc) : bool := if Qclt_le_dec q 0 then true else false.
Definition pos (q : Qc) : bool := if Qclt_le_dec 0 q then true else false.
Definition arr_of (a : garr) (l : list val) : arr val := mkA (g_w a) (g_h a) (g_nd a) NO_I (nshift_table (g_w a)) true l.
Definition flip_if {A} (b : bool) (f : arr A -> res (arr A)) (a : arr A) : res (arr A) := if b then f a else Ok a.

(** rd_raster_inspect.cpp:8-63; int arithmetic *)
Definition inspect (o : iopts) (a : garr) : res table :=
  match g_data a with
  | None => Undef
  | Some l =>
      do g1 <- rd (g_geo a) 1; do g5 <- rd (g_geo a) 5;
      let flipH := if neg g1 then negb (i_flipH o) else i_flipH o in
      let flipV := if pos g5 then negb (i_flipV o) else i_flipV o in
      do b <- flip_if flipV flipVert (arr_of a l);
      do b <- flip_if flipH flipHorz b;
      do q <- (if i_maxy o =? -1
               then let cx := i_minx o in let cy := i_maxx o in let radius := i_miny o in
                    do ax <- i32 (cx - radius); do bx <- i32 (cx + radius); do ay <- i32 (cy - radius); do by' <- i32 (cy + radius);
                    Ok (Z.max ax 0, Z.min bx (a_w b - 1), Z.max ay 0, Z.min by' (a_h b - 1), (cx, cy))
               else Ok (i_minx o, i_maxx o, i_miny o, i_maxy o, (-1, -1)));
      let '(x0, x1, y0, y1, mark) := q in
      if x1 <? x0 then Thrown else if y1 <? y0 then Thrown
      else do rows <- cells_of b x0 x1 y0 y1; Ok (mkT x0 x1 y0 y1 rows mark)
  end.

Section Show.
  Variable convert : dtype -> val -> val.
  (** rd_raster_inspect.cpp:69-133; None: exit status -1 and nothing but usage printed *)
  Definition rd_raster_inspect (fs : files) (args : list string) : res (option table) :=
    do q <- parse args i_start;
    match q with
    | None => Ok None
    | Some o =>
        if negb (acceptable o) then Ok None
        else match fs (i_file o) with
             | None => Thrown
             | Some _ => route convert fs (i_file o) (fun a => do a <- loadData convert fs a; do t <- inspect o a; Ok (Some t)) None
             end
    end.

  (** rd_raster_display.cpp:8-44, 51-63: the georeference and the rows of (int)raster(x,y); None: nothing printed. The exit status is 0 in both cases. *)
  Definition rd_raster_display (fs : files) (inp flip : string) : res (option (list Qc * list (list Z))) :=
    route convert fs inp (fun a =>
      let d := if String.eqb flip "fliph" then Some (true, false) else if String.eqb flip "flipv" then Some (false, true)
               else if String.eqb flip "fliphv" then Some (true, true) else if String.eqb flip "noflip" then Some (false, false) else None in
      match d with
      | None => Ok None
      | Some (flipH, flipV) =>
          do a <- loadData convert fs a;
          match g_data a with
          | None => Undef
          | Some l =>
              do g1 <- rd (g_geo a) 1; do g5 <- rd (g_geo a) 5;
              do b <- flip_if (xorb (neg g1) flipH) flipHorz (arr_of a l);
              do b <- flip_if (xorb (pos g5) flipV) flipVert b;
              do rows <- mapM (fun y => mapM (fun x => do v <- get b x y; as_int v) (zrange 0 (Z.to_nat (a_w b)))) (zrange 0 (Z.to_nat (a_h b)));
              Ok (Some (g_geo a, rows))
          end
      end) None.
End Show.
