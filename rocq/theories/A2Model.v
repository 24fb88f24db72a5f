(** Model of include/richdem/tiled/A2Array2D.hpp (class A2Array2D<T>): a large raster kept as tiles of which only
    a few are in memory; the others are in their GDAL file (read-only arrays) or in a native cache file.
    The cache file is the byte-level model of CacheModel.v, the replacement policy that of LRUModel.v. *)
From Coq Require Import ZArith List Lia Bool.
From Verif Require Import Base Res ArrModel CacheModel LRUModel.
Open Scope Z_scope.

(** What the program depends on: sizeof(T), contents of freshly allocated memory, longest string, operator== of T
    (cells are object representations, see CacheModel.v), and for every GDAL input file the cells RasterIO delivers. *)
Record env := mkE {
  e_k : nat; e_junk : nat -> list Z; e_junk8 : list Z; e_maxstr : Z; e_eqb : Z -> Z -> bool;
  e_gdal : Z -> option (list Z) }.

(** A2Array2D.hpp:72-88  WrappedArray2D, plus the members filename, basename and from_cache of Array2D.
    File names and base names are identified by numbers. *)
Record tile := mkT {
  t_ras : raster; t_file : Z; t_base : Z; t_fc : bool;
  t_null : bool; t_loaded : bool; t_created : bool; t_dsa : bool; t_sav : Z; t_cw : Z; t_ch : Z }.
Definition t_arr (t : tile) : arr Z := r_arr (t_ras t).
Definition with_ras (t : tile) (r : raster) : tile :=
  mkT r (t_file t) (t_base t) (t_fc t) (t_null t) (t_loaded t) (t_created t) (t_dsa t) (t_sav t) (t_cw t) (t_ch t).
Definition with_flags (t : tile) (fc loaded created : bool) : tile :=
  mkT (t_ras t) (t_file t) (t_base t) fc (t_null t) loaded created (t_dsa t) (t_sav t) (t_cw t) (t_ch t).
Definition with_dsa (t : tile) (b : bool) (v : Z) : tile :=
  mkT (t_ras t) (t_file t) (t_base t) (t_fc t) (t_null t) (t_loaded t) (t_created t) b v (t_cw t) (t_ch t).
Definition with_arr (r : raster) (a : arr Z) : raster := mkR a (r_xoff r) (r_yoff r) (r_geo r) (r_proj r).

(** A2Array2D.hpp:60-102. [data[ty][tx]] is [d_tiles (ty*d_wt+tx)] (all rows of [data] have equal length); a
    pointer to a tile, as stored in the LRU, is that index. [d_fs] is the file system holding the cache files. *)
Record a2 := mkA2 {
  d_tiles : Z -> tile; d_wt : Z; d_ht : Z; d_quick : list bool; d_qw : Z; d_lru : lru;
  d_tw : Z; d_th : Z; d_ptw : Z; d_pth : Z; d_evict : Z; d_ro : bool; d_flipH : bool; d_flipV : bool;
  d_ndts : Z; d_fs : Z -> option (list Z) }.
Definition upd_tile (s : a2) (i : Z) (t : tile) : a2 :=
  mkA2 (fun j => if j =? i then t else d_tiles s j) (d_wt s) (d_ht s) (d_quick s) (d_qw s) (d_lru s) (d_tw s) (d_th s)
       (d_ptw s) (d_pth s) (d_evict s) (d_ro s) (d_flipH s) (d_flipV s) (d_ndts s) (d_fs s).
Definition upd_lru (s : a2) (l : lru) : a2 :=
  mkA2 (d_tiles s) (d_wt s) (d_ht s) (d_quick s) (d_qw s) l (d_tw s) (d_th s)
       (d_ptw s) (d_pth s) (d_evict s) (d_ro s) (d_flipH s) (d_flipV s) (d_ndts s) (d_fs s).
Definition upd_evict (s : a2) (e : Z) (fs : Z -> option (list Z)) : a2 :=
  mkA2 (d_tiles s) (d_wt s) (d_ht s) (d_quick s) (d_qw s) (d_lru s) (d_tw s) (d_th s)
       (d_ptw s) (d_pth s) e (d_ro s) (d_flipH s) (d_flipV s) (d_ndts s) fs.
Definition upd_ndts (s : a2) (v : Z) : a2 :=
  mkA2 (d_tiles s) (d_wt s) (d_ht s) (d_quick s) (d_qw s) (d_lru s) (d_tw s) (d_th s)
       (d_ptw s) (d_pth s) (d_evict s) (d_ro s) (d_flipH s) (d_flipV s) v (d_fs s).
Definition upd_map (s : a2) (f : tile -> tile) : a2 :=
  mkA2 (fun i => f (d_tiles s i)) (d_wt s) (d_ht s) (d_quick s) (d_qw s) (d_lru s) (d_tw s) (d_th s)
       (d_ptw s) (d_pth s) (d_evict s) (d_ro s) (d_flipH s) (d_flipV s) (d_ndts s) (d_fs s).

(** data[ty][tx] *)
Definition tile_ix (s : a2) (tx ty : Z) : res Z :=
  if inGrid (d_wt s) (d_ht s) tx ty then Ok (ty * d_wt s + tx) else Undef.

(** A2Array2D.hpp:581-583 *)
Definition isNullTile (s : a2) (tx ty : Z) : res bool := rd (d_quick s) (ty * d_qw s + tx).

(** A2Array2D.hpp:82-87 *)
Definition lazySetAll (t : tile) : res tile :=
  if t_dsa t
  then do a <- setAll (t_arr t) (t_sav t); Ok (with_ras (with_dsa t false (t_sav t)) (with_arr (t_ras t) a))
  else Ok t.

(** [g<0] and [g>0] for a double given by its 64-bit pattern (sign bit, 11 exponent bits, 52 fraction bits; a NaN
    is neither) *)
Definition d_neg (z : Z) : bool := (2 ^ 63 <? z) && (z <=? 2 ^ 63 + 2047 * 2 ^ 52).
Definition d_pos (z : Z) : bool := (0 <? z) && (z <=? 2047 * 2 ^ 52).

(** Array2D.hpp:1093-1095 *)
Definition clear (t : tile) : tile :=
  let a := t_arr t in
  with_ras t (with_arr (t_ras t) (mkA (a_w a) (a_h a) (a_nodata a) (a_ndc a) (a_nshift a) true [])).

(** Array2D.hpp:456-483  loadData. RasterIO delivers exactly the window's cells or fails. *)
Definition tile_loadData (E : env) (fs : Z -> option (list Z)) (t : tile) : res tile :=
  match a_data (t_arr t) with
  | _ :: _ => Thrown
  | [] =>
    if t_fc t
    then match fs (t_file t) with
         | None => Thrown
         | Some f => do r <- loadNative (e_k E) (e_junk E) (e_junk8 E) (e_maxstr E) (t_ras t) f; Ok (with_ras t r)
         end
    else match e_gdal E (t_file t) with
         | None => Thrown
         | Some cells =>
           do b <- resize (e_junk E) (t_arr t) (a_w (t_arr t)) (a_h (t_arr t)) 0;
           if Nat.eqb (length cells) (length (a_data b))
           then Ok (with_ras t (with_arr (t_ras t) (with_data b cells))) else Thrown
         end
  end.

(** A2Array2D.hpp:133-138 and 508-511: reorientation by the signs of the pixel sizes *)
Definition reorient (s : a2) (t : tile) : res tile :=
  do g1 <- rd (r_geo (t_ras t)) 1;
  do t1 <- (if xorb (d_neg g1) (d_flipH s)
            then do a <- flipHorz (t_arr t); Ok (with_ras t (with_arr (t_ras t) a)) else Ok t);
  do g5 <- rd (r_geo (t_ras t1)) 5;
  if xorb (d_pos g5) (d_flipV s)
  then do a <- flipVert (t_arr t1); Ok (with_ras t1 (with_arr (t_ras t1) a)) else Ok t1.

(** A2Array2D.hpp:116-128: make room. LRU back()/pop_back() of an empty list is undefined. *)
Definition evict (E : env) (s : a2) : res a2 :=
  if lru_full (d_lru s)
  then match lru_back (d_lru s) with
       | None => Undef
       | Some b =>
         let t := d_tiles s b in
         do p <- (if d_ro s then Ok (clear t, d_fs s)
                  else do f <- saveToCache (e_k E) (t_ras t);
                       Ok (clear (with_flags t true (t_loaded t) (t_created t)),
                           fun n => if n =? t_file t then Some f else d_fs s n));
         let t' := fst p in
         let s1 := upd_evict (upd_tile s b (with_flags t' (t_fc t') false (t_created t'))) (d_evict s + 1) (snd p) in
         match lru_pop_back (d_lru s1) with Some l => Ok (upd_lru s1 l) | None => Undef end
       end
  else Ok s.

(** A2Array2D.hpp:104-151  _LoadTile (printStamp only prints) *)
Definition loadTile (E : env) (s : a2) (tx ty : Z) : res a2 :=
  do nl <- isNullTile s tx ty;
  if nl then Ok s else
  do i <- tile_ix s tx ty;
  if t_loaded (d_tiles s i)
  then do t <- lazySetAll (d_tiles s i); Ok (upd_tile (upd_lru s (lru_insert i (d_lru s))) i t)
  else
    do s1 <- evict E s;
    let t := d_tiles s1 i in
    do t1 <- (if t_created t
              then do u <- tile_loadData E (d_fs s1) t; if d_ro s1 then reorient s1 u else Ok u
              else do b <- (if negb (t_cw t =? -1) && negb (t_ch t =? -1)
                            then resize (e_junk E) (t_arr t) (t_cw t) (t_ch t) 0
                            else resize (e_junk E) (t_arr t) (d_ptw s1) (d_pth s1) 0);
                   Ok (with_flags (with_ras t (with_arr (t_ras t) b)) (t_fc t) (t_loaded t) true));
    let t2 := with_flags t1 (t_fc t1) true (t_created t1) in
    do t3 <- lazySetAll t2;
    Ok (upd_tile (upd_lru s1 (lru_insert i (d_lru s1))) i t3).

(** A2Array2D.hpp:371-382  makeQuadIndex (int division) *)
Definition quad (s : a2) (x y : Z) : res (Z * Z * (Z * Z)) :=
  if (d_ptw s =? 0) || (d_pth s =? 0) then Undef
  else Ok (Z.quot x (d_ptw s), Z.quot y (d_pth s), (Z.rem x (d_ptw s), Z.rem y (d_pth s))).

(** A2Array2D.hpp:327-348 and 350-369: the reference returned is read, or assigned, at once *)
Definition readQ (E : env) (s : a2) (tx ty px py : Z) : res (Z * a2) :=
  do nl <- isNullTile s tx ty;
  do i <- tile_ix s tx ty;
  if nl then let v := a_nodata (t_arr (d_tiles s i)) in Ok (v, upd_ndts s v)
  else do s1 <- loadTile E s tx ty; do v <- get (t_arr (d_tiles s1 i)) px py; Ok (v, s1).
Definition writeQ (E : env) (s : a2) (tx ty px py v : Z) : res a2 :=
  do nl <- isNullTile s tx ty;
  do i <- tile_ix s tx ty;
  if nl then Ok (upd_ndts s v)
  else do s1 <- loadTile E s tx ty;
       let t := d_tiles s1 i in
       do a <- set (t_arr t) px py v; Ok (upd_tile s1 i (with_ras t (with_arr (t_ras t) a))).
Definition read (E : env) (s : a2) (x y : Z) : res (Z * a2) :=
  do q <- quad s x y; readQ E s (fst (fst q)) (snd (fst q)) (fst (snd q)) (snd (snd q)).
Definition write (E : env) (s : a2) (x y v : Z) : res a2 :=
  do q <- quad s x y; writeQ E s (fst (fst q)) (snd (fst q)) (fst (snd q)) (snd (snd q)) v.

(** A2Array2D.hpp:436-453 and 455-472 (isNoData), Array2D.hpp:668-672 *)
Definition isNoDataQ (E : env) (s : a2) (tx ty px py : Z) : res (bool * a2) :=
  do nl <- isNullTile s tx ty;
  if nl then Ok (true, s) else
  do i <- tile_ix s tx ty;
  do s1 <- loadTile E s tx ty;
  do v <- get (t_arr (d_tiles s1 i)) px py; Ok (e_eqb E v (a_nodata (t_arr (d_tiles s1 i))), s1).
Definition isNoData (E : env) (s : a2) (x y : Z) : res (bool * a2) :=
  do q <- quad s x y; isNoDataQ E s (fst (fst q)) (snd (fst q)) (fst (snd q)) (snd (snd q)).

(** A2Array2D.hpp:428-434 *)
Definition a2_setAll (s : a2) (v : Z) : a2 := upd_map s (fun t => with_dsa t true v).
(** A2Array2D.hpp:570-575, Array2D.hpp:830-832 *)
Definition set_nodata (t : tile) (v : Z) : tile :=
  let a := t_arr t in with_ras t (with_arr (t_ras t) (mkA (a_w a) (a_h a) v (a_ndc a) (a_nshift a) (a_owned a) (a_data a))).
Definition a2_setNoData (s : a2) (v : Z) : a2 := upd_map s (fun t => if t_null t then t else set_nodata t v).

(** A2Array2D.hpp:384-390, 577-579 *)
Definition width (s : a2) : Z := d_tw s.
Definition height (s : a2) : Z := d_th s.
Definition getEvictions (s : a2) : Z := d_evict s.

(** Client programs: sequences of calls; each call yields at most one number. *)
Inductive op := ORead (x y : Z) | OWrite (x y v : Z) | OReadQ (tx ty px py : Z) | OWriteQ (tx ty px py v : Z)
  | OIsNoData (x y : Z) | OIsNoDataQ (tx ty px py : Z) | OLoad (tx ty : Z) | OSetAll (v : Z) | OSetNoData (v : Z).
Definition b2z (b : bool) : Z := if b then 1 else 0.
Definition step (E : env) (o : op) (s : a2) : res (list Z * a2) :=
  match o with
  | ORead x y => do p <- read E s x y; Ok ([fst p], snd p)
  | OWrite x y v => do s' <- write E s x y v; Ok ([], s')
  | OReadQ tx ty px py => do p <- readQ E s tx ty px py; Ok ([fst p], snd p)
  | OWriteQ tx ty px py v => do s' <- writeQ E s tx ty px py v; Ok ([], s')
  | OIsNoData x y => do p <- isNoData E s x y; Ok ([b2z (fst p)], snd p)
  | OIsNoDataQ tx ty px py => do p <- isNoDataQ E s tx ty px py; Ok ([b2z (fst p)], snd p)
  | OLoad tx ty => do s' <- loadTile E s tx ty; Ok ([], s')
  | OSetAll v => Ok ([], a2_setAll s v)
  | OSetNoData v => Ok ([], a2_setNoData s v)
  end.
Fixpoint run (E : env) (l : list op) (s : a2) : res (list Z * a2) :=
  match l with
  | [] => Ok ([], s)
  | o :: l' => do p <- step E o s; do q <- run E l' (snd p); Ok (fst p ++ fst q, snd q)
  end.

(** ** Constructors *)
(** What opening a tile's GDAL file without loading its data tells (Array2D.hpp:133-190). *)
Record hdr := mkH { h_w : Z; h_h : Z; h_nd : Z; h_geo : list Z; h_proj : list Z; h_file : Z; h_base : Z }.

(** Array2D.hpp:121-122 and 284-288: default-constructed tile; [fc]: from_cache is not initialised *)
Definition blank_tile (E : env) (fc : bool) : tile :=
  mkT (fresh (e_k E)) 0 0 fc false false true false 0 (-1) (-1).
(** A2Array2D.hpp:165-180 *)
Definition layout_tile (E : env) (fc : bool) (o : option hdr) : tile :=
  let b := blank_tile E fc in
  match o with
  | None => mkT (t_ras b) 0 0 fc true false true false 0 (-1) (-1)
  | Some h => mkT (mkR (mkA (h_w h) (h_h h) (h_nd h) NO_I [] true []) 0 0 (h_geo h) (h_proj h))
                  (h_file h) (h_base h) false false false true false 0 (-1) (-1)
  end.
Definition max_of (f : hdr -> Z) (l : list (option hdr)) : Z :=
  fold_left (fun m o => match o with Some h => Z.max m (f h) | None => m end) l 0.
Definition int32 (z : Z) : res Z := if (- 2 ^ 31 <=? z) && (z <? 2 ^ 31) then Ok z else Undef.

(** A2Array2D.hpp:155-224  A2Array2D(layoutfile, cachesize). [rows]: the entries the LayoutfileReader delivers, row
    by row; [last0], [nd0], [fc]: the uninitialised members lru.last, no_data_to_set and from_cache. *)
Definition layout_ctor (E : env) (last0 nd0 : Z) (fc : bool) (rows : list (list (option hdr))) (cachesize : Z) : res a2 :=
  match rev rows with
  | [] => Undef                                                    (* data.back() of an empty vector *)
  | lastrow :: _ =>
    let wt := Z.of_nat (length lastrow) in let ht := Z.of_nat (length rows) in
    let flat := concat rows in
    let ptw := max_of h_w flat in let pth := max_of h_h flat in
    do tw <- int32 (wt * ptw); do th <- int32 (ht * pth);
    if negb (forallb (fun r => Nat.eqb (length r) (length lastrow)) rows) then Undef else
    if negb (forallb (fun o => match o with None => true | Some h => (h_w h =? ptw) && (h_h h =? pth) end) flat) then Thrown else
    Ok (mkA2 (fun i => layout_tile E fc (nth (Z.to_nat i) flat None)) wt ht
             (map (fun o => match o with None => true | Some _ => false end) flat) wt
             (lru_setCapacity cachesize (lru_new last0)) tw th ptw pth 0 true false false nd0 (fun _ => None))
  end.

(** A2Array2D.hpp:250-284  A2Array2D(filename_template, other, cachesize): same tiles, nothing created yet; the
    cache file of a tile is named after its basename. (T of the new array may differ from that of [o].) *)
Definition template_tile (E : env) (fc : bool) (o : tile) : tile :=
  let f := fresh (e_k E) in
  mkT (mkR (r_arr f) (r_xoff f) (r_yoff f) (r_geo (t_ras o)) (r_proj (t_ras o)))
      (t_base o) (t_base o) fc (t_null o) false false false 0 (a_w (t_arr o)) (a_h (t_arr o)).
Definition template_ctor (E : env) (last0 nd0 : Z) (fc : bool) (o : a2) (cachesize : Z) (fs : Z -> option (list Z)) : a2 :=
  let is := zrange 0 (Z.to_nat (d_wt o * d_ht o)) in
  mkA2 (fun i => template_tile E fc (d_tiles o i)) (d_wt o) (d_ht o) (d_quick o) (d_qw o)
       (lru_setCapacity cachesize (lru_new last0)) (d_tw o) (d_th o)
       (fold_left (fun m i => Z.max m (a_w (t_arr (d_tiles o i)))) is 0)
       (fold_left (fun m i => Z.max m (a_h (t_arr (d_tiles o i)))) is 0)
       0 false (d_flipH o) (d_flipV o) nd0 fs.

(** A2Array2D.hpp:226-247  A2Array2D(prefix, per_tile_width, per_tile_height, width, height, cachesize).
    null_tile_quick stays empty and quick_width_in_tiles ([qw0]) uninitialised. Cache files are numbered. *)
Definition sized_ctor (E : env) (last0 nd0 qw0 : Z) (fc : bool) (ptw pth w h cachesize : Z) : a2 :=
  mkA2 (fun i => let b := blank_tile E fc in mkT (t_ras b) (i + 1) 0 fc false false false false 0 (-1) (-1))
       w h [] qw0 (lru_setCapacity cachesize (lru_new last0)) (ptw * w) (pth * h) ptw pth 0 false false false nd0 (fun _ => None).

(** apps/rd_merge_rasters_by_layout.cpp:26-30: the public members flipH, flipV *)
Definition set_flips (s : a2) (h v : bool) : a2 :=
  mkA2 (d_tiles s) (d_wt s) (d_ht s) (d_quick s) (d_qw s) (d_lru s) (d_tw s) (d_th s)
       (d_ptw s) (d_pth s) (d_evict s) (d_ro s) h v (d_ndts s) (d_fs s).

(** A2Array2D.hpp:527-568  saveUnifiedGDAL: the raster handed to GDAL, as the cell values of the output band, its
    NoData value and geotransform. [RasterIO] writes a tileWidth x tileHeight window at (tx*ptw, ty*pth). *)
Definition blit (out : Z -> Z -> Z) (x0 y0 : Z) (a : arr Z) : res (Z -> Z -> Z) :=
  Ok (fun x y => if (x0 <=? x) && (x <? x0 + a_w a) && (y0 <=? y) && (y <? y0 + a_h a)
                 then nth (Z.to_nat ((y - y0) * a_w a + (x - x0))) (a_data a) 0 else out x y).
Definition tilelist (s : a2) : list (Z * Z) := list_prod (zrange 0 (Z.to_nat (d_ht s))) (zrange 0 (Z.to_nat (d_wt s))).
Definition saveUnifiedGDAL (E : env) (s : a2) : res ((Z -> Z -> Z) * Z * list Z * a2) :=
  do i0 <- tile_ix s 0 0;
  let nd := a_nodata (t_arr (d_tiles s i0)) in
  do _ <- forM (tilelist s) (fun p (_ : unit) =>
            do i <- tile_ix s (snd p) (fst p);
            if e_eqb E (a_nodata (t_arr (d_tiles s i))) nd then Ok tt else Thrown) tt;
  let geo := r_geo (t_ras (d_tiles s i0)) in
  if negb (Nat.eqb (length geo) 6) then Thrown else
  do p <- forM (tilelist s) (fun p (os : (Z -> Z -> Z) * a2) =>
            let '(out, s) := os in
            do i <- tile_ix s (snd p) (fst p);
            if t_null (d_tiles s i) then Ok (out, s) else
            do s1 <- loadTile E s (snd p) (fst p);
            do out' <- blit out (snd p * d_ptw s1) (fst p * d_pth s1) (t_arr (d_tiles s1 i));
            Ok (out', s1)) ((fun _ _ => nd), s);
  Ok (fst p, nd, geo, snd p).

(** A2Array2D.hpp:485-525  saveGDAL: per tile, row by row, the name and the raster handed to GDAL (None for a null
    tile), which are also the entries of the new layout file. The tiles are reoriented in memory and stay so.
    (The log message counting NO_FLOW cells is left out.)
    Line 520 is [tile.saveGDAL(temp, 0, 0)], where the second parameter of Array2D::saveGDAL (Array2D.hpp:1112) is a
    const std::string&: the literal 0 becomes a null const char*, from which a string cannot be constructed (undefined;
    libstdc++ throws std::logic_error). [msg]: the outcome of constructing that string. *)
Definition save_tiles (msg : res unit) (E : env) (s : a2) : res (list (option (Z * arr Z)) * a2) :=
  forM (tilelist s) (fun p (os : list (option (Z * arr Z)) * a2) =>
    let '(out, s) := os in
    do i <- tile_ix s (snd p) (fst p);
    if t_null (d_tiles s i) then Ok (out ++ [None], s) else
    do s1 <- loadTile E s (snd p) (fst p);
    do t <- reorient s1 (d_tiles s1 i);
    do _ <- msg;
    Ok (out ++ [Some (t_base t, t_arr t)], upd_tile s1 i t)) ([], s).
(** the code as it is *)
Definition saveGDAL : env -> a2 -> res (list (option (Z * arr Z)) * a2) := save_tiles Undef.
(** the code with [tile.saveGDAL(temp)] in line 520 *)
Definition saveGDAL_intended : env -> a2 -> res (list (option (Z * arr Z)) * a2) := save_tiles (Ok tt).
