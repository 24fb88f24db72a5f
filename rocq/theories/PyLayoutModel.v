(** Model of the Python scripts for layout files: apps/rd_layout_find_square.py and apps/rd_layout_check.py. Texts are lists of ASCII characters (decoding of other characters is not
    modelled); printing is modelled by returning what is printed. *)
From Coq Require Import Ascii String.
From Verif Require Import Base Res LayoutModel.
Open Scope Z_scope.
Open Scope list_scope.

Definition cr : ascii := "013"%char.
(** open(f,'r'): "\r\n" and "\r" are read as "\n" (universal newlines) *)
Fixpoint univ (after_cr : bool) (s : text) : text :=
  match s with
  | [] => []
  | a :: r => if Ascii.eqb a cr then nl :: univ true r
              else if Ascii.eqb a nl && after_cr then univ false r
              else a :: univ false r
  end.
(** readlines(): each line with its end of line *)
Fixpoint readlines (s : text) : list text :=
  match s with
  | [] => []
  | a :: r => if Ascii.eqb a nl then [nl] :: readlines r
              else match readlines r with l :: ls => (a :: l) :: ls | [] => [[a]] end
  end.
(** str.isspace for ASCII characters *)
Definition is_ws (a : ascii) : bool := let n := nat_of_ascii a in (Nat.leb 9 n && Nat.leb n 13) || (Nat.leb 28 n && Nat.leb n 32).
(** str.strip() *)
Fixpoint lstrip (s : text) : text := match s with a :: r => if is_ws a then lstrip r else s | [] => [] end.
Definition strip (s : text) : text := rev (lstrip (rev (lstrip s))).
(** str.split(d), d one character: never empty *)
Fixpoint split (d : ascii) (s : text) : list text :=
  match s with
  | [] => [[]]
  | a :: r => if Ascii.eqb a d then [] :: split d r
              else match split d r with f :: fs => (a :: f) :: fs | [] => [[a]] end
  end.
(** d.join(l) *)
Fixpoint pjoin (d : ascii) (l : list text) : text :=
  match l with [] => [] | f :: r => match r with [] => f | _ => f ++ d :: pjoin d r end end.
(** l[a:a+n], 0 <= a, 0 <= n *)
Definition slice {T} (l : list T) (a n : Z) : list T := firstn (Z.to_nat n) (skipn (Z.to_nat a) l).

(** range(n-1,-1,-1) *)
Fixpoint down (n : nat) : list Z := match n with O => [] | S k => Z.of_nat k :: down k end.

(** mat[y,x] of an h x w array; a subscript outside raises IndexError (negative subscripts, which numpy counts from the end, are given that meaning too) *)
Definition np_ix (n i : Z) : res Z := if (0 <=? i) && (i <? n) then Ok i else if (- n <=? i) && (i <? 0) then Ok (i + n) else Thrown.
Definition np_get (h w : Z) (m : grid Z) (y x : Z) : res Z := do y' <- np_ix h y; do x' <- np_ix w x; Ok (m x' y').
Definition np_set (h w : Z) (m : grid Z) (y x v : Z) : res (grid Z) := do y' <- np_ix h y; do x' <- np_ix w x; Ok (gset m x' y' v).

Record best := Best { b_mat : grid Z; b_val : Z; b_loc : option (Z * Z) }.
(** rd_layout_find_square.py:12-16 one cell *)
Definition square_step (h w y x : Z) (s : best) : res best :=
  do c <- np_get h w (b_mat s) y x;
  if c >? 0 then
    do a <- np_get h w (b_mat s) (y + 1) x; do b <- np_get h w (b_mat s) y (x + 1); do d <- np_get h w (b_mat s) (y + 1) (x + 1);
    do m <- np_set h w (b_mat s) y x (Z.min a (Z.min b d) + 1);
    do v <- np_get h w m y x;
    if v >? b_val s then Ok (Best m v (Some (y, x))) else Ok (Best m (b_val s) (b_loc s))
  else Ok s.
(** rd_layout_find_square.py:6-17 LargestSquareOfOnes; [data.shape] is the shape of its argument *)
Definition LargestSquareOfOnes (h w : Z) (mat : grid Z) : res (Z * option (Z * Z)) :=
  do s <- forM (down (Z.to_nat (h - 1))) (fun y s => forM (down (Z.to_nat (w - 1))) (fun x s => square_step h w y x s) s) (Best mat (-1) None);
  Ok (b_val s, b_loc s).

(** rd_layout_find_square.py:26,34,35: the fields of each line of a file *)
Definition py_rows (contents : text) : list (list text) := map (fun l => split comma (strip l)) (readlines (univ false contents)).
Definition blank (x : text) : bool := match strip x with [] => true | _ => false end.
(** rd_layout_find_square.py:36,37: np.array of a list of lists. Lists of different lengths make no two-dimensional array, and neither does the empty list: an exception, here or at shape[1]. *)
Definition np_array (rows : list (list text)) : res (Z * Z * grid Z) :=
  match rows with
  | [] => Thrown
  | r0 :: _ => if forallb (fun r => Nat.eqb (List.length r) (List.length r0)) rows
               then Ok (Z.of_nat (List.length rows), Z.of_nat (List.length r0),
                        fun x y => if blank (nth (Z.to_nat x) (nth (Z.to_nat y) rows []) []) then 0 else 1)
               else Thrown
  end.
Inductive output := Printed (bestval : Z) | Written (files : list (text * text)).
(** rd_layout_find_square.py:26-47; the two arguments; [fs]: readable files *)
Definition find_square (fs : text -> option text) (arg1 layout : text) : res output :=
  match fs layout with
  | None => Thrown
  | Some contents =>
      let fgrid := py_rows contents in
      do a <- np_array fgrid;
      let '(h, w, data) := a in
      do b <- LargestSquareOfOnes h w data;
      let '(bestval, bestloc) := b in
      if text_eqb arg1 (tx "onlydim") then Ok (Printed bestval)
      else
        do out <- forM (map (fun k => Z.of_nat k) (seq 1 (Z.to_nat bestval)))
          (fun size out =>
             match bestloc with
             | None => Thrown
             | Some (by_, bx) =>
                 do body <- forM (map (fun k => by_ + Z.of_nat k) (seq 0 (Z.to_nat size)))
                   (fun y acc => do row <- rd fgrid y; Ok (acc ++ pjoin comma (slice row bx size) ++ [nl])) [];
                 Ok (out ++ [(arg1 ++ to_string size ++ tx ".layout", body)])
             end) [];
        Ok (Written out)
  end.

(** ** rd_layout_check.py *)
(** os.path.split(p)[0] *)
Fixpoint drop_slashes (s : text) : text := match s with a :: r => if Ascii.eqb a slash then drop_slashes r else s | [] => [] end.
Definition os_dir (p : text) : text :=
  let head := match find_last_of slash p with Some k => firstn (k + 1) p | None => [] end in
  if forallb (Ascii.eqb slash) head then head else rev (drop_slashes (rev head)).
(** os.path.join(a,b) *)
Definition os_join (a b : text) : text :=
  match b with
  | c :: _ => if Ascii.eqb c slash then b
              else match rev a with
                   | [] => b
                   | d :: _ => if Ascii.eqb d slash then a ++ b else a ++ slash :: b
                   end
  | [] => match rev a with [] => b | d :: _ => if Ascii.eqb d slash then a ++ b else a ++ slash :: b end
  end.
(** str.count(c) *)
Definition pcount (c : ascii) (s : text) : Z := Z.of_nat (List.length (filter (Ascii.eqb c) s)).
(** what is printed: layout height and width; (row, width) of the rows warned about; total, null and data tile counts; base path; duplicate warning; files warned about *)
Record report := Report { c_height : Z; c_width : Z; c_widths : list (Z * Z); c_total : Z; c_null : Z; c_data : Z; c_path : text; c_dup : bool; c_missing : list text }.
(** rd_layout_check.py:10-43; [layout[0]] of an empty file raises IndexError *)
Definition check_layout (fs : text -> option text) (exists_ : text -> bool) (arg : text) : res report :=
  match fs arg with
  | None => Thrown
  | Some contents =>
      let layout := readlines (univ false contents) in
      match layout with
      | [] => Thrown
      | l0 :: _ =>
          let commas := pcount comma l0 in
          let widths := map (fun il => (Z.of_nat (fst il), pcount comma (snd il) + 1))
                            (filter (fun il => negb (pcount comma (snd il) =? commas)) (combine (seq 0 (List.length layout)) layout)) in
          let flat := concat (map (fun row => map strip (split comma row)) layout) in
          let total := Z.of_nat (List.length flat) in
          let tiles := filter (fun x => negb (Nat.eqb (List.length x) 0)) flat in
          let n := Z.of_nat (List.length tiles) in
          let path := os_dir arg in
          Ok (Report (Z.of_nat (List.length layout)) (commas + 1) widths total (total - n) n path
                (negb (Z.of_nat (List.length (nodup (list_eq_dec ascii_dec) tiles)) =? n))
                (filter (fun x => negb (exists_ (os_join path x))) tiles))
      end
  end.
