(** What a layout file means, independently of the code that reads and writes it. *)
From Coq Require Import Ascii String.
From Verif Require Import Base LayoutModel.
Open Scope nat_scope.

(** A piece of text without the character [c] *)
Definition free (c : ascii) (s : text) : Prop := ~ In c s.

(** Fields separated by [c]: [a c b c ... z] *)
Fixpoint join (c : ascii) (fs : list text) : text :=
  match fs with
  | [] => []
  | f :: r => match r with [] => f | _ => f ++ c :: join c r end
  end.

(** A text file consisting of [lines] (none of which contains an end of line). The last line may or may not be
    followed by an end of line; if not, it is not empty. *)
Definition file_of (lines : list text) (s : text) : Prop :=
  Forall (free nl) lines /\
  (s = concat (map (fun l => l ++ [nl]) lines) \/
   exists ls l, lines = ls ++ [l] /\ l <> [] /\ s = concat (map (fun l => l ++ [nl]) ls) ++ l).

(** A layout file with the given comma-separated fields in each row *)
Definition layout_text (rows : list (list text)) (s : text) : Prop :=
  Forall (fun fs => fs <> [] /\ Forall (free comma) fs) rows /\ file_of (map (join comma) rows) s.

(** [f] without the spaces at its beginning and its end *)
Fixpoint ltrim (s : text) : text := match s with a :: r => if Ascii.eqb a space then ltrim r else s | [] => [] end.
Definition trim (s : text) : text := rev (ltrim (rev (ltrim s))).

(** The number of fields of a row, where nothing at all after the last comma does not count as a field *)
Definition count (fs : list text) : nat := match last fs [] with [] => length fs - 1 | _ => length fs end.
Definition columns (rows : list (list text)) : nat := fold_right Nat.max 0 (map count rows).
(** What stands in column [x] of a row: blank beyond its end *)
Definition field (fs : list text) (x : nat) : text := trim (nth x fs []).

(** Everything up to and including the last slash; everything after it *)
Fixpoint file_part (s : text) : text :=
  match s with
  | [] => []
  | a :: r => if existsb (Ascii.eqb slash) s then file_part r else s
  end.
Definition dir_part (s : text) : text := firstn (length s - length (file_part s)) s.

(** What is reported for the tile at column [x], row [y]: newRow, file name, base name, full path, grid position as
    text, null tile, X, Y *)
Definition entry_at (dir : text) (name : nat -> nat -> text) (y x : nat) : entry :=
  Entry (Nat.eqb x 0) (name y x) (GetBaseName (name y x)) (dir ++ name y x)
    (to_string (Z.of_nat x) ++ tx "_" ++ to_string (Z.of_nat y))
    (match name y x with [] => true | _ => false end) (Z.of_nat x) (Z.of_nat y).
(** row by row, each from left to right *)
Definition entries (dir : text) (name : nat -> nat -> text) (w h : nat) : list entry :=
  flat_map (fun y => map (entry_at dir name y) (seq 0 w)) (seq 0 h).

(** Using a writer: a row is started before the first tile of each row, then its tiles are added in order *)
Definition write_rows (layout_name : text) (rows : list (list text)) : text * text :=
  close_writer (fold_left (fun w r => fold_left (fun w f => addEntry f w) r (addRow w)) rows (open_writer layout_name)).
