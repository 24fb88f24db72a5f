(** A tiled array seen as one big raster. *)
From Coq Require Import ZArith List Lia Bool.
From Verif Require Import Base Res ArrModel ArrSpec CacheModel CacheSpec A2Model.
Open Scope Z_scope.

(** [g_wt] x [g_ht] tiles of [g_pw] x [g_ph] cells; some tiles do not exist ([g_null]) and read as [g_nullval]. *)
Record geom := mkG { g_wt : Z; g_ht : Z; g_pw : Z; g_ph : Z; g_null : Z -> Z -> bool; g_nullval : Z }.
(** The big raster: value of every cell, and the NoData value of every tile. *)
Record big := mkB { b_val : Z -> Z -> Z; b_nd : Z -> Z -> Z }.

Definition missing (G : geom) (x y : Z) : bool := g_null G (x / g_pw G) (y / g_ph G).
Definition big_get (G : geom) (b : big) (x y : Z) : Z := if missing G x y then g_nullval G else b_val b x y.
Definition big_set (G : geom) (b : big) (x y v : Z) : big :=
  if missing G x y then b
  else mkB (fun x' y' => if (x' =? x) && (y' =? y) then v else b_val b x' y') (b_nd b).
Definition big_nd (eqb : Z -> Z -> bool) (G : geom) (b : big) (x y : Z) : Z :=
  b2z (missing G x y || eqb (b_val b x y) (b_nd b (x / g_pw G) (y / g_ph G))).

(** What each call does to the big raster and returns. *)
Definition spec_step (eqb : Z -> Z -> bool) (G : geom) (o : op) (b : big) : list Z * big :=
  match o with
  | ORead x y => ([big_get G b x y], b)
  | OWrite x y v => ([], big_set G b x y v)
  | OReadQ tx ty px py => ([big_get G b (tx * g_pw G + px) (ty * g_ph G + py)], b)
  | OWriteQ tx ty px py v => ([], big_set G b (tx * g_pw G + px) (ty * g_ph G + py) v)
  | OIsNoData x y => ([big_nd eqb G b x y], b)
  | OIsNoDataQ tx ty px py => ([big_nd eqb G b (tx * g_pw G + px) (ty * g_ph G + py)], b)
  | OLoad _ _ => ([], b)
  | OSetAll v => ([], mkB (fun _ _ => v) (b_nd b))
  | OSetNoData v => ([], mkB (b_val b) (fun _ _ => v))
  end.
Fixpoint spec_run (eqb : Z -> Z -> bool) (G : geom) (l : list op) (b : big) : list Z * big :=
  match l with
  | [] => ([], b)
  | o :: l' => let p := spec_step eqb G o b in let q := spec_run eqb G l' (snd p) in (fst p ++ fst q, snd q)
  end.

(** Calls within the raster, with values of the cell type ([k] bytes). *)
Definition is_val (k : nat) (v : Z) : Prop := 0 <= v < 256 ^ Z.of_nat k.
Definition in_tile (G : geom) (tx ty : Z) : Prop := 0 <= tx < g_wt G /\ 0 <= ty < g_ht G.
Definition in_cell (G : geom) (px py : Z) : Prop := 0 <= px < g_pw G /\ 0 <= py < g_ph G.
Definition in_big (G : geom) (x y : Z) : Prop := 0 <= x < g_wt G * g_pw G /\ 0 <= y < g_ht G * g_ph G.
Definition valid (k : nat) (G : geom) (o : op) : Prop :=
  match o with
  | ORead x y | OIsNoData x y => in_big G x y
  | OWrite x y v => in_big G x y /\ is_val k v
  | OReadQ tx ty px py | OIsNoDataQ tx ty px py => in_tile G tx ty /\ in_cell G px py
  | OWriteQ tx ty px py v => in_tile G tx ty /\ in_cell G px py /\ is_val k v
  | OLoad tx ty => in_tile G tx ty
  | OSetAll v | OSetNoData v => is_val k v
  end.

(** Calls that do not change cells, and calls that prepare a new array. *)
Definition reads_only (o : op) : Prop :=
  match o with OWrite _ _ _ | OWriteQ _ _ _ _ _ | OSetAll _ => False | _ => True end.
Definition prepares (o : op) : Prop := match o with OSetAll _ | OSetNoData _ => True | _ => False end.
Definition no_setNoData (o : op) : Prop := match o with OSetNoData _ => False | _ => True end.

(** An environment and tile headers that make sense. *)
Record env_ok (E : env) : Prop := {
  eo_k : (1 <= e_k E)%nat;
  eo_junk : forall n, length (e_junk E n) = n;
  eo_junk8 : length (e_junk8 E) = 8%nat }.
Record hdr_ok (E : env) (h : hdr) : Prop := {
  ho_w : 1 <= h_w h <= 2 ^ 31 - 3; ho_h : 1 <= h_h h < 2 ^ 31; ho_s : h_w h * h_h h < 2 ^ 31;
  ho_nd : is_val (e_k E) (h_nd h);
  ho_geo : length (h_geo h) = 6%nat; ho_geo_d : Forall (fun g => 0 <= g < 256 ^ 8) (h_geo h);
  ho_proj : Forall is_byte (h_proj h); ho_proj_len : Z.of_nat (length (h_proj h)) < 2 ^ 63;
  ho_proj_max : Z.of_nat (length (h_proj h)) <= e_maxstr E }.
(** The tile in column [tx] of row [ty] of a layout. *)
Definition entry (rows : list (list (option hdr))) (tx ty : Z) : option hdr :=
  nth (Z.to_nat tx) (nth (Z.to_nat ty) rows []) None.
(** All tiles of the layout have the size [w] x [h], and there is one. *)
Record layout_ok (E : env) (rows : list (list (option hdr))) (w h : Z) : Prop := {
  lo_rect : forall r, In r rows -> length r = length (nth 0 rows []);
  lo_some : exists x, In (Some x) (concat rows);
  lo_hdr : forall x, In (Some x) (concat rows) -> hdr_ok E x /\ h_w x = w /\ h_h x = h;
  lo_small : Z.of_nat (length (nth 0 rows [])) * w < 2 ^ 31 /\ Z.of_nat (length rows) * h < 2 ^ 31 }.
Definition layout_geom (E : env) (rows : list (list (option hdr))) (w h : Z) : geom :=
  mkG (Z.of_nat (length (nth 0 rows []))) (Z.of_nat (length rows)) w h
      (fun tx ty => match entry rows tx ty with None => true | Some _ => false end) (256 ^ Z.of_nat (e_k E) - 1).

(** Cell (px,py) of a tile file as delivered by GDAL, the rows taken bottom up if [v]. *)
Definition file_cell (w h : Z) (v : bool) (cells : list Z) (px py : Z) : Z :=
  nth (Z.to_nat ((if v then h - 1 - py else py) * w + px)) cells 0.
(** The input file of every tile can be read; its pixel width needs no mirroring under option [fh]. *)
Definition readable (E : env) (fh : bool) (rows : list (list (option hdr))) (w h : Z) : Prop :=
  forall x, In (Some x) (concat rows) ->
    xorb (d_neg (nth 1 (h_geo x) 0)) fh = false /\
    exists cells, e_gdal E (h_file x) = Some cells /\ Z.of_nat (length cells) = w * h /\ Forall (is_val (e_k E)) cells.
(** The big raster described by the files of a layout: rows of a tile are turned upside down if its pixel height is
    positive, unless option [fv] reverses this. *)
Definition layout_val (E : env) (fv : bool) (rows : list (list (option hdr))) (w h x y : Z) : Z :=
  match entry rows (x / w) (y / h) with
  | None => 0
  | Some t => match e_gdal E (h_file t) with
              | Some cells => file_cell w h (xorb (d_pos (nth 5 (h_geo t) 0)) fv) cells (x mod w) (y mod h)
              | None => 0
              end
  end.
Definition layout_nd (rows : list (list (option hdr))) (tx ty : Z) : Z :=
  match entry rows tx ty with None => 0 | Some t => h_nd t end.

(** ** Which tiles are in memory *)
(** The tile a call uses. *)
Definition op_tile (G : geom) (o : op) : option (Z * Z) :=
  match o with
  | ORead x y | OIsNoData x y | OWrite x y _ => Some (x / g_pw G, y / g_ph G)
  | OReadQ tx ty _ _ | OIsNoDataQ tx ty _ _ | OWriteQ tx ty _ _ _ | OLoad tx ty => Some (tx, ty)
  | OSetAll _ | OSetNoData _ => None
  end.
(** The existing tiles used by a history, most recent first, as numbers counted row by row. *)
Definition uses (G : geom) (o : op) : list Z :=
  match op_tile G o with
  | Some (tx, ty) => if g_null G tx ty then [] else [ty * g_wt G + tx]
  | None => []
  end.
Fixpoint distinct (l : list Z) : list Z :=
  match l with [] => [] | a :: l' => a :: filter (fun b => negb (b =? a)) (distinct l') end.
Definition history (G : geom) (ops : list op) : list Z := rev (flat_map (uses G) ops).
(** The [cap] most recently used tiles (-1: all). *)
Definition recent (cap : Z) (l : list Z) : list Z :=
  if cap =? -1 then distinct l else firstn (Z.to_nat cap) (distinct l).
(** Number of uses of a tile that was not among the [cap] most recently used ones. *)
Fixpoint misses (cap : Z) (l : list Z) : Z :=
  match l with [] => 0 | i :: l' => misses cap l' + (if existsb (Z.eqb i) (recent cap l') then 0 else 1) end.

(** No two tiles of a layout have input files with the same base name. *)
Definition distinct_bases (rows : list (list (option hdr))) : Prop :=
  forall tx ty tx' ty' x x',
    0 <= tx < Z.of_nat (length (nth 0 rows [])) /\ 0 <= ty < Z.of_nat (length rows) ->
    0 <= tx' < Z.of_nat (length (nth 0 rows [])) /\ 0 <= ty' < Z.of_nat (length rows) ->
    entry rows tx ty = Some x -> entry rows tx' ty' = Some x' -> h_base x = h_base x' -> tx = tx' /\ ty = ty'.
(** A new array: all cells 0, NoData value -1. *)
Definition blank (E : env) : big := mkB (fun _ _ => 0) (fun _ _ => 256 ^ Z.of_nat (e_k E) - 1).
(** setNoData is called only while nothing has been evicted. *)
Definition setNoData_early (E : env) (ops : list op) (s : a2) : Prop :=
  forall l1 v l2 outs s1, ops = l1 ++ OSetNoData v :: l2 -> run E l1 s = Ok (outs, s1) -> getEvictions s1 = 0.
(** Is the tile in memory? *)
Definition in_memory (G : geom) (s : a2) (tx ty : Z) : bool := t_loaded (d_tiles s (ty * g_wt G + tx)).
(** The tiles, row by row. *)
Definition all_tiles (G : geom) : list (Z * Z) :=
  map (fun i => (i mod g_wt G, i / g_wt G)) (zrange 0 (Z.to_nat (g_wt G * g_ht G))).
(** The picture of a raster in one file: missing tiles show [nd]. *)
Definition unified (G : geom) (b : big) (nd x y : Z) : Z := if missing G x y then nd else b_val b x y.
(** Tile (tx,ty) of [b] as a file of its own named [base], upside down if [v]. *)
Definition tile_file (G : geom) (b : big) (tx ty base : Z) (v : bool) (o : option (Z * arr Z)) : Prop :=
  exists a, o = Some (base, a) /\ a_w a = g_pw G /\ a_h a = g_ph G /\ a_nodata a = b_nd b tx ty /\
    forall px py, in_cell G px py ->
      cell a px py = Some (b_val b (tx * g_pw G + px) (ty * g_ph G + (if v then g_ph G - 1 - py else py))).
