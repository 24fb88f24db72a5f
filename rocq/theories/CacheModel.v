(** Model of the native cache file of include/richdem/common/Array2D.hpp (saveToCache, loadNative,
    dumpData, loadData) at the level of bytes, without WITH_COMPRESSION. *)
From Coq Require Import ZArith List Lia Bool.
From Verif Require Import Base Res ArrModel.
Open Scope Z_scope.

(** Bytes are integers 0..255. Object representation, little endian, of an [n]-byte integer
    (two's complement for negative values). A cell of type T is represented by the unsigned integer
    with the same [k] = sizeof(T) bytes, a double by its 64-bit pattern. *)
Fixpoint le (n : nat) (z : Z) : list Z := match n with O => [] | S m => (z mod 256) :: le m (z / 256) end.
Fixpoint unle (l : list Z) : Z := match l with [] => 0 | b :: l' => b + 256 * unle l' end.

(** Array2D.hpp:92-123: the raster plus the attributes that go to the file. *)
Record raster := mkR { r_arr : arr Z; r_xoff : Z; r_yoff : Z; r_geo : list Z; r_proj : list Z }.

(** Array2D.hpp:209-238  saveToCache (after opening the file). [geotransform.data()] is read as 6
    doubles and [_data.data()] as size() cells whatever their real extent. *)
Definition saveToCache (k : nat) (r : raster) : res (list Z) :=
  let a := r_arr r in
  if (Z.of_nat (length (r_geo r)) <? 6) then Undef else
  do n <- size a;
  if (Z.of_nat (length (a_data a)) <? n) then Undef else
  Ok (le 4 (a_h a) ++ le 4 (a_w a) ++ le 4 (r_xoff r) ++ le 4 (r_yoff r) ++ le 4 (a_ndc a) ++ le k (a_nodata a)
      ++ flat_map (le 8) (firstn 6 (r_geo r)) ++ le 8 (Z.of_nat (length (r_proj r))) ++ r_proj r
      ++ flat_map (le k) (firstn (Z.to_nat n) (a_data a))).

(** An input stream: remaining bytes and failbit. *)
Record stream := mkSt { st_rest : list Z; st_fail : bool }.
(** [in.read(p,n)] where the destination holds [old]: nothing happens on a failed stream; a short
    read stores what is there and sets failbit. *)
Definition read_into (n : nat) (old : list Z) (s : stream) : list Z * stream :=
  if st_fail s then (old, s)
  else let got := firstn n (st_rest s) in
       (got ++ skipn (length got) old, mkSt (skipn n (st_rest s)) (negb (Nat.eqb (length got) n))).

Fixpoint chunks (k n : nat) (l : list Z) : list (list Z) :=
  match n with O => [] | S m => firstn k l :: chunks k m (skipn k l) end.

(** Array2D.hpp:246-281  loadNative(filename, true) after opening the file, into an object whose
    current members are [o]. [junk8]: indeterminate value of the uninitialised [projection_size];
    [maxstr]: longest string that can be allocated. *)
Definition loadNative (k : nat) (junk : nat -> list Z) (junk8 : list Z) (maxstr : Z) (o : raster) (file : list Z) : res raster :=
  let s := mkSt file false in
  let a := r_arr o in
  let '(bh, s) := read_into 4 (le 4 (a_h a)) s in
  let '(bw, s) := read_into 4 (le 4 (a_w a)) s in
  let '(bx, s) := read_into 4 (le 4 (r_xoff o)) s in
  let '(by', s) := read_into 4 (le 4 (r_yoff o)) s in
  let '(bn, s) := read_into 4 (le 4 (a_ndc a)) s in
  let '(bd, s) := read_into k (le k (a_nodata a)) s in
  let geo0 := firstn 6 (r_geo o ++ [0; 0; 0; 0; 0; 0]) in                     (* geotransform.resize(6) *)
  let '(bg, s) := read_into 48 (flat_map (le 8) geo0) s in
  let '(bp, s) := read_into 8 junk8 s in
  let ps := unle bp in
  if maxstr <? ps then Thrown else
  let proj0 := firstn (Z.to_nat ps) (r_proj o ++ repeat 32 (Z.to_nat ps)) in   (* projection.resize(n,' ') *)
  let '(pj, s) := read_into (Z.to_nat ps) proj0 s in
  let w := s32 (unle bw) in let h := s32 (unle bh) in
  do b <- resize junk (mkA w h (unle bd) (unle bn) (a_nshift a) (a_owned a) (a_data a)) w h 0;
  do n <- size b;
  let '(dat, s) := read_into (k * Z.to_nat n) (flat_map (le k) (firstn (Z.to_nat n) (a_data b))) s in
  Ok (mkR (with_data b (map unle (chunks k (Z.to_nat n) dat) ++ skipn (Z.to_nat n) (a_data b)))
          (s32 (unle bx)) (s32 (unle by')) (map unle (chunks 8 6 bg)) pj).

(** Array2D.hpp:284-288: a default-constructed Array2D (no_data = -1). *)
Definition fresh (k : nat) : raster := mkR (mkA 0 0 (256 ^ Z.of_nat k - 1) NO_I [] true []) 0 0 [] [].

(** Array2D.hpp:444-447 and 1093-1095: dumpData() = save and release the memory (owned storage). *)
Definition dumpData (k : nat) (r : raster) : res (list Z * raster) :=
  do f <- saveToCache k r;
  let a := r_arr r in
  Ok (f, mkR (mkA (a_w a) (a_h a) (a_nodata a) (a_ndc a) (a_nshift a) true []) (r_xoff r) (r_yoff r) (r_geo r) (r_proj r)).
(** Array2D.hpp:456-462: loadData() when from_cache is set *)
Definition loadData (k : nat) (junk : nat -> list Z) (junk8 : list Z) (maxstr : Z) (r : raster) (file : list Z) : res raster :=
  match a_data (r_arr r) with [] => loadNative k junk junk8 maxstr r file | _ => Thrown end.
