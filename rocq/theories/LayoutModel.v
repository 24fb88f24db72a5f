(** Model of the layout files of tiled datasets: include/richdem/common/Layoutfile.hpp, and of the part of the tiled
    programs that reads one layout file and writes another (parallel_d8_accum/main.cpp and
    parallel_priority_flood/main.cpp, Preparer).  Strings are lists of characters; RICHDEM_SLASH_CHAR is "/". *)
From Coq Require Import Ascii String DecimalString.
From Verif Require Import Base Res.
Open Scope Z_scope.

Definition text := list ascii.
Definition tx (s : string) : text := list_ascii_of_string s.
Definition comma : ascii := ","%char.
Definition space : ascii := " "%char.
Definition slash : ascii := "/"%char.
Definition period : ascii := "."%char.
Definition nl : ascii := "010"%char.

(** std::string::find_last_of(c): index of the last occurrence, None for npos *)
Fixpoint find_last_of (c : ascii) (s : text) : option nat :=
  match s with
  | [] => None
  | a :: r => match find_last_of c r with
              | Some k => Some (S k)
              | None => if Ascii.eqb a c then Some 0%nat else None
              end
  end.
(** std::string::find_first_not_of(c) *)
Fixpoint find_first_not_of (c : ascii) (s : text) : option nat :=
  match s with
  | [] => None
  | a :: r => if Ascii.eqb a c then option_map S (find_first_not_of c r) else Some 0%nat
  end.
(** std::string::find_last_not_of(c) *)
Fixpoint find_last_not_of (c : ascii) (s : text) : option nat :=
  match s with
  | [] => None
  | a :: r => match find_last_not_of c r with
              | Some k => Some (S k)
              | None => if Ascii.eqb a c then None else Some 0%nat
              end
  end.
(** std::string::substr(pos,n): clipped at the end of the string *)
Definition substr (s : text) (pos n : nat) : text := firstn n (skipn pos s).

(** Layoutfile.hpp:43-51 trimStr. When there is no character other than spaces, [last] is npos and [last-first+1]
    wraps around to a number above the length of the string; [first] is then the length, so the result is empty for
    any count: here the count is the length. *)
Definition trimStr (s : text) : text :=
  match s with
  | [] => s
  | _ =>
      let first := match find_first_not_of space s with Some k => k | None => length s end in
      match find_last_not_of space s with
      | Some last => substr s first (last - first + 1)
      | None => substr s first (length s)
      end
  end.

(** Layoutfile.hpp:55-63 GetBaseName *)
Definition GetBaseName (filename : text) : text :=
  let last_slash := find_last_of slash filename in
  let last_period := find_last_of period filename in
  let f1 := match last_period with Some k => firstn k filename | None => filename end in
  match last_slash with Some k => skipn (k + 1) f1 | None => f1 end.

(** the part of [s] before the first [d], and what follows that [d] if there is one *)
Fixpoint upto (d : ascii) (s : text) : text * option text :=
  match s with
  | [] => ([], None)
  | a :: r => if Ascii.eqb a d then ([], Some r) else let (i, q) := upto d r in (a :: i, q)
  end.
(** std::getline(stream, item, d) on a stream whose unread characters are [s]: fails when nothing is left; otherwise
    the item and the unread rest (nothing when the end was reached before a [d]) *)
Definition getline (d : ascii) (s : text) : option (text * text) :=
  match s with
  | [] => None
  | _ => let (i, q) := upto d s in Some (i, match q with Some r => r | None => [] end)
  end.

(** Layoutfile.hpp:114-126 the items of one row; each pass of [while(ss)] consumes at least one character, so as many
    passes as characters are enough *)
Fixpoint read_items (fuel : nat) (s : text) : list text :=
  match fuel with
  | O => []
  | S f => match getline comma s with
           | None => []
           | Some (item, rest) => trimStr item :: read_items f rest
           end
  end.
(** Layoutfile.hpp:103-127 the rows of the file *)
Fixpoint read_rows (fuel : nat) (s : text) : list (list text) :=
  match fuel with
  | O => []
  | S f => match getline nl s with
           | None => []
           | Some (row, rest) => read_items (length row) row :: read_rows f rest
           end
  end.

Record reader := Reader {
  fgrid : list (list text); gridx : Z; gridy : Z; new_row : bool;
  filename : text; basename : text; rpath : text
}.

(** Layoutfile.hpp:139-143 one pass of the loop that evens out the rows. [max_row_length-1] is unsigned: for
    max_row_length = 0 it is the largest size_t, which no row has. *)
Definition pad_row (max_row_length : nat) (row : list text) : res (list text) :=
  if negb (Nat.eqb max_row_length 0) && Nat.eqb (length row) (max_row_length - 1) then Ok (row ++ [[]])
  else if Nat.ltb (length row) max_row_length then Thrown
  else Ok row.
Fixpoint pad_rows (m : nat) (rows : list (list text)) : res (list (list text)) :=
  match rows with
  | [] => Ok []
  | r :: rs => do r' <- pad_row m r; do rs' <- pad_rows m rs; Ok (r' :: rs')
  end.

(** Layoutfile.hpp:88-144 LayoutfileReader(layout_filename). [fs]: contents of the files that can be opened and read to
    their end. [fgrid.front()] of an empty vector is undefined. *)
Definition open_layout (fs : text -> option text) (layout_filename : text) : res reader :=
  let path := match find_last_of slash layout_filename with
              | Some k => firstn (k + 1) layout_filename | None => [] end in
  match fs layout_filename with
  | None => Thrown
  | Some contents =>
      match read_rows (length contents) contents with
      | [] => Undef
      | front :: rest =>
          let m := fold_left (fun acc row => Nat.max acc (length row)) (front :: rest) (length front) in
          do g <- pad_rows m (front :: rest);
          Ok (Reader g (-2) (-1) false [] [] path)
      end
  end.

(** Layoutfile.hpp:148-165 next() *)
Definition next (r : reader) : res (bool * reader) :=
  let gx := gridx r + 1 in
  do front <- rd (fgrid r) 0;
  let wrap := (gx =? -1) || (gx =? Z.of_nat (length front)) in
  let gy := if wrap then gridy r + 1 else gridy r in
  let gx' := if wrap then 0 else gx in
  if wrap && (gy =? Z.of_nat (length (fgrid r)))
  then Ok (false, Reader (fgrid r) gx' gy true (filename r) (basename r) (rpath r))
  else
    do row <- rd (fgrid r) gy;
    do f <- rd row gx';
    Ok (true, Reader (fgrid r) gx' gy wrap f (GetBaseName f) (rpath r)).

(** std::to_string of an int *)
Definition to_string (z : Z) : text := tx (NilEmpty.string_of_int (Z.to_int z)).

(** Layoutfile.hpp:168-213 what the getters return after a successful next(): newRow, getFilename, getBasename,
    getFullPath, getGridLocName, isNullTile, getX, getY *)
Record entry := Entry {
  e_newrow : bool; e_filename : text; e_basename : text; e_fullpath : text; e_locname : text;
  e_null : bool; e_x : Z; e_y : Z
}.
Definition current (r : reader) : entry :=
  Entry (new_row r) (filename r) (basename r) (rpath r ++ filename r)
    (to_string (gridx r) ++ tx "_" ++ to_string (gridy r))
    (Nat.eqb (length (filename r)) 0) (gridx r) (gridy r).

(** [while(lf.next()) ...]: what the getters return in each pass. [fuel] bounds the number of passes; None stands for
    a loop that has not ended by then. *)
Fixpoint read_all (fuel : nat) (r : reader) : option (res (list entry)) :=
  match fuel with
  | O => None
  | S f => match next r with
           | Ok (false, _) => Some (Ok [])
           | Ok (true, r') =>
               match read_all f r' with
               | Some m => Some (do es <- m; Ok (current r' :: es))
               | None => None
               end
           | Thrown => Some Thrown
           | Undef => Some Undef
           end
  end.

(** LayoutfileWriter: the file it writes, and what it has written so far *)
Record writer := Writer { wx : Z; wy : Z; wpath : text; wfile : text; wout : text }.

(** Layoutfile.hpp:232-245 LayoutfileWriter(layout_filename) *)
Definition open_writer (layout_filename : text) : writer :=
  let last_slash := find_last_of slash layout_filename in
  let last_period := find_last_of period layout_filename in
  let path := match last_slash with Some k => firstn (k + 1) layout_filename | None => [] end in
  let file := match last_period with
              | Some k => firstn (k + 1) layout_filename ++ tx "layout"
              | None => layout_filename end in
  Writer 0 0 path file [].
(** Layoutfile.hpp:247-249 ~LayoutfileWriter: the finished file *)
Definition close_writer (w : writer) : text * text := (wfile w, wout w ++ [nl]).
(** Layoutfile.hpp:252-258 addRow *)
Definition addRow (w : writer) : writer :=
  if (wx w =? 0) && (wy w =? 0) then w
  else Writer 0 (wy w + 1) (wpath w) (wfile w) (wout w ++ [nl]).
(** Layoutfile.hpp:262-272 addEntry *)
Definition addEntry (f : text) (w : writer) : writer :=
  let f' := match find_last_of slash f with Some k => skipn (k + 1) f | None => f end in
  Writer (wx w + 1) (wy w) (wpath w) (wfile w)
    (wout w ++ (if wx w >? 0 then [comma] else []) ++ f').

(** std::string::find(two-character string): index of the first occurrence *)
Fixpoint find2 (a b : ascii) (s : text) : option nat :=
  match s with
  | c :: r =>
      match r with
      | d :: _ => if Ascii.eqb c a && Ascii.eqb d b then Some 0%nat else option_map S (find2 a b r)
      | [] => None
      end
  | [] => None
  end.
(** std::string::replace(pos,2,by) *)
Definition replace2 (s : text) (pos : nat) (by_ : text) : text := firstn pos s ++ by_ ++ skipn (pos + 2) s.

Definition pct : ascii := "%"%char.

(** parallel_d8_accum/main.cpp:1227-1235, parallel_priority_flood/main.cpp:912-920: the output name of one tile (and
    1167-1175, 852-860: the name of the output layout, with the word "layout" for both) *)
Definition subst_name (output_name by_f by_n : text) : res text :=
  match find2 pct "f" output_name with
  | Some k => Ok (replace2 output_name k by_f)
  | None =>
      match find2 pct "n" output_name with
      | Some k => Ok (replace2 output_name k by_n)
      | None => Thrown
      end
  end.

(** One tile of the tile table: input file, output file, grid position; or a null tile *)
Inductive tile := NullTile | Tile (input output : text) (tx_ ty_ : Z).

(** parallel_d8_accum/main.cpp:1187-1252, parallel_priority_flood/main.cpp:872-937: one pass of [while(lf.next())]:
    the tile table and the output layout. Retention names, flips, sizes and the reading of the first tile's dimensions
    are not modelled. *)
Definition prepare_one (output_name : text) (e : entry) (s : list (list tile) * writer) : res (list (list tile) * writer) :=
  let '(tiles, w) := s in
  let '(tiles1, w1) := if e_newrow e then (tiles ++ [[]], addRow w) else (tiles, w) in
  match rev tiles1 with
  | [] => Undef (* tiles.back() *)
  | b :: rs =>
      if e_null e then Ok (rev rs ++ [b ++ [NullTile]], addEntry [] w1)
      else
        do o <- subst_name output_name (e_basename e) (e_locname e);
        Ok (rev rs ++ [b ++ [Tile (e_fullpath e) o (e_x e) (e_y e)]], addEntry o w1)
  end.

Definition text_eqb (a b : text) : bool := if list_eq_dec ascii_dec a b then true else false.

(** Preparer in "many" mode: the tile table, and the layout file that is left behind. The output layout is opened, and
    so emptied, before the input layout is read; two names are taken to be the same file only if they are equal. *)
Definition prepare (fs : text -> option text) (fuel : nat) (input_file output_name : text)
  : option (res (list (list tile) * (text * text))) :=
  match subst_name output_name (tx "layout") (tx "layout") with
  | Ok lname =>
      let w0 := open_writer lname in
      match open_layout (fun f => if text_eqb f (wfile w0) then Some [] else fs f) input_file with
      | Ok r =>
          match read_all fuel r with
          | None => None
          | Some (Ok es) =>
              match forM es (prepare_one output_name) ([], w0) with
              | Ok (t, w) => Some (Ok (t, close_writer w))
              | Thrown => Some Thrown
              | Undef => Some Undef
              end
          | Some Thrown => Some Thrown
          | Some Undef => Some Undef
          end
      | Thrown => Some Thrown
      | Undef => Some Undef
      end
  | Thrown => Some Thrown
  | Undef => Some Undef
  end.
