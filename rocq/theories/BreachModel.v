(** Model of include/richdem/depressions/Lindsay2016.hpp: CompleteBreaching_Lindsay2016 (which BreachDepressions runs) and
    Lindsay2016 (which the program rd_depressions_breach runs).
    Elevations are [Z] (floats: numbered in increasing order) and do not overflow; [mx], [lo] are numeric_limits max() and
    lowest(); [down]/[up] stand for nextafter towards lowest()/max() in the element type. Cells are pairs (x,y) instead of
    flat indices, NO_BACK_LINK is [None]; the queue (z, insertion number) is a bag of pairs with a tie order [tb].
    Accesses outside the raster are [Undef]. total_pits is an unbounded integer (the code: uint32_t). *)
From Coq Require Import ZArith List Lia Bool.
From Verif Require Import Base Res FlowModel ZhouModel WeiModel.
Open Scope Z_scope.

Definition offt (t : topology) (c : cellt) (n : nat) : cellt := (fst c + dx t n, snd c + dy t n).

Record lst := mkL { l_dem : cellt -> Z; l_vis : cellt -> bool; l_pit : cellt -> bool; l_back : cellt -> option cellt;
                    l_pq : list (Z * cellt); l_tot : Z; l_flood : list cellt }.

(** ** Pits and edge cells *)
(** Lindsay2016.hpp:98-113 = 263-278: one neighbour; [true] once a NoData neighbour was met (goto nextcell) *)
Definition lb_scan (t : topology) (w h nd : Z) (dem : cellt -> Z) (c : cellt) (n : nat) (acc : Z * bool) : res (Z * bool) :=
  if snd acc then Ok acc
  else do z <- cat w h dem (offt t c n); if z =? nd then Ok (fst acc, true) else Ok (Z.min z (fst acc), false).
(** 88-89, 105-106: the cell goes on the queue as an edge cell *)
Definition lb_edge (w h : Z) (c : cellt) (s : lst) : res lst :=
  do z <- cat w h (l_dem s) c; do v <- put w h (l_vis s) c true;
  Ok (mkL (l_dem s) v (l_pit s) (l_back s) ((z, c) :: l_pq s) (l_tot s) (l_flood s)).
(** 81-127, CompleteBreaching_Lindsay2016 *)
Definition cb_cell (t : topology) (w h nd mx : Z) (c : cellt) (s : lst) : res lst :=
  do z <- cat w h (l_dem s) c;
  if z =? nd then Ok s
  else if isEdgeCell w h (fst c) (snd c) then lb_edge w h c s
  else
    do r <- forM (dirs t) (lb_scan t w h nd (l_dem s) c) (mx, false);
    if snd r then lb_edge w h c s
    else if z <=? fst r
    then do dm <- put w h (l_dem s) c (fst r); do p <- put w h (l_pit s) c true;
         Ok (mkL dm (l_vis s) p (l_back s) (l_pq s) (l_tot s + 1) (l_flood s))
    else Ok s.
(** 246-300, Lindsay2016; [down] is the identity without eps_gradients *)
Definition lb_cell (down : Z -> Z) (w h nd mx : Z) (c : cellt) (s : lst) : res lst :=
  do z <- cat w h (l_dem s) c;
  if z =? nd then Ok s
  else if isEdgeCell w h (fst c) (snd c) then lb_edge w h c s
  else
    do r <- forM (dirs D8) (lb_scan D8 w h nd (l_dem s) c) (mx, false);
    if snd r then lb_edge w h c s
    else
      do dm <- (if z <? fst r then put w h (l_dem s) c (down (fst r)) else Ok (l_dem s));
      do z' <- cat w h dm c;
      if z' <=? fst r
      then do p <- put w h (l_pit s) c true; Ok (mkL dm (l_vis s) p (l_back s) (l_pq s) (l_tot s + 1) (l_flood s))
      else Ok (mkL dm (l_vis s) (l_pit s) (l_back s) (l_pq s) (l_tot s) (l_flood s)).

(** ** Breaching *)
(** 150-153 = 328-333 = 351-356: carve along the path back; [None]: out of fuel *)
Fixpoint carve (w h : Z) (down : Z -> Z) (back : cellt -> option cellt) (fuel : nat) (cc : option cellt) (th : Z) (dem : cellt -> Z) : option (res (cellt -> Z)) :=
  match cc with
  | None => Some (Ok dem)
  | Some p =>
      match cat w h dem p with
      | Ok z =>
          if z >=? th
          then match fuel with
               | O => None
               | S f => match put w h dem p th, cat w h back p with
                        | Ok d, Ok b => carve w h down back f b (down th) d
                        | _, _ => Some Undef
                        end
               end
          else Some (Ok dem)
      | _ => Some Undef
      end
  end.
(** 337-343: length and depth of the path *)
Fixpoint survey (w h : Z) (down : Z -> Z) (back : cellt -> option cellt) (dem : cellt -> Z) (fuel : nat) (cc : option cellt) (th : Z) (len : Z) (depth : Z) : option (res (Z * Z)) :=
  match cc with
  | None => Some (Ok (len, depth))
  | Some p =>
      match cat w h dem p with
      | Ok z =>
          if z >=? th
          then match fuel with
               | O => None
               | S f => match cat w h back p with
                        | Ok b => survey w h down back dem f b (down th) (len + 1) (Z.max depth (z - th))
                        | _ => Some Undef
                        end
               end
          else Some (Ok (len, depth))
      | _ => Some Undef
      end
  end.
(** 359-367: constrained breaching *)
Fixpoint constrain (w h : Z) (down : Z -> Z) (back : cellt -> option cellt) (within : bool) (depth th : Z) (fuel : nat) (cc : option cellt) (cur : Z) (dem : cellt -> Z) : option (res (cellt -> Z)) :=
  match cc with
  | None => Some (Ok dem)
  | Some p =>
      match cat w h dem p with
      | Ok z =>
          if z >=? th
          then match fuel with
               | O => None
               | S f => match put w h dem p (if within then cur else z - depth), cat w h back p with
                        | Ok d, Ok b => constrain w h down back within depth th f b (down cur) d
                        | _, _ => Some Undef
                        end
               end
          else Some (Ok dem)
      | _ => Some Undef
      end
  end.

Inductive lmode := COMPLETE | SELECTIVE | CONSTRAINED.
Definition path_fuel (w h : Z) : nat := S (Z.to_nat w * Z.to_nat h).
(** 144-153 *)
Definition breach_complete (w h : Z) (down : Z -> Z) (c : cellt) (s : lst) : option (res (cellt -> Z)) :=
  match cat w h (l_dem s) c with
  | Ok th => carve w h down (l_back s) (path_fuel w h) (Some c) th (l_dem s)
  | _ => Some Undef
  end.
(** 317-370 *)
Definition breach_mode (m : lmode) (maxlen maxdepth lo : Z) (w h : Z) (down : Z -> Z) (c : cellt) (s : lst) : option (res (cellt -> Z)) :=
  match m with
  | COMPLETE => breach_complete w h down c s
  | _ =>
      match cat w h (l_dem s) c with
      | Ok th =>
          match survey w h down (l_back s) (l_dem s) (path_fuel w h) (Some c) th 0 lo with
          | Some (Ok (len, depth)) =>
              if (len <=? maxlen) && (depth <=? maxdepth) then carve w h down (l_back s) (path_fuel w h) (Some c) th (l_dem s)
              else match m with
                   | CONSTRAINED => constrain w h down (l_back s) (depth <=? maxdepth) depth th (path_fuel w h) (Some c) th (l_dem s)
                   | _ => Some (Ok (l_dem s))
                   end
          | Some _ => Some Undef
          | None => None
          end
      | _ => Some Undef
      end
  end.

(** 162-181 = 377-398: one neighbour of the popped cell; [fill]: the cell is noted in flood_array *)
Definition b_visit (t : topology) (w h nd : Z) (fill : bool) (c : cellt) (n : nat) (s : lst) : res lst :=
  let ni := offt t c n in
  if negb (inR w h ni) then Ok s
  else do z <- cat w h (l_dem s) ni;
    if z =? nd then Ok s
    else do v <- cat w h (l_vis s) ni;
      if v then Ok s
      else do vis <- put w h (l_vis s) ni true; do bk <- put w h (l_back s) ni (Some c);
        Ok (mkL (l_dem s) vis (l_pit s) bk ((z, ni) :: l_pq s) (l_tot s) (if fill then l_flood s ++ [ni] else l_flood s)).
(** 134-182 = 307-399: the main loop; [breach] is the part between the braces of the first if *)
Fixpoint b_loop (t : topology) (w h nd : Z) (fill : bool) (breach : cellt -> lst -> option (res (cellt -> Z))) (tb : nat -> nat) (fuel i : nat) (s : lst) : option (res lst) :=
  match pq_pop (fun a b : Z * cellt => fst a >? fst b) (tb i) (l_pq s) with
  | None => Some (Ok s)
  | Some (c, q) =>
      match fuel with
      | O => None
      | S f =>
          let s1 := mkL (l_dem s) (l_vis s) (l_pit s) (l_back s) q (l_tot s) (l_flood s) in
          let next s2 := match forM (dirs t) (b_visit t w h nd fill (snd c)) s2 with Ok s3 => b_loop t w h nd fill breach tb f (S i) s3 | _ => Some Undef end in
          match cat w h (l_pit s) (snd c) with
          | Ok false => next s1
          | Ok true =>
              match breach (snd c) s1 with
              | Some (Ok dm) =>
                  let s2 := mkL dm (l_vis s) (l_pit s) (l_back s) q (l_tot s - 1) (l_flood s) in
                  if l_tot s - 1 =? 0 then Some (Ok s2) else next s2
              | Some _ => Some Undef
              | None => None
              end
          | _ => Some Undef
          end
      end
  end.

Definition l_start (dem : grid Z) : lst := mkL (fun c => dem (fst c) (snd c)) (fun _ => false) (fun _ => false) (fun _ => None) [] 0 [].
Definition l_result (m : option (res lst)) : option (res (grid Z)) :=
  match m with Some (Ok s) => Some (Ok (fun x y => l_dem s (x, y))) | Some Thrown => Some Thrown | Some Undef => Some Undef | None => None end.

(** CompleteBreaching_Lindsay2016, Lindsay2016.hpp:47-185; depressions.hpp:24 BreachDepressions *)
Definition CompleteBreaching_Lindsay2016 (tb : nat -> nat) (t : topology) (w h nd mx : Z) (dem : grid Z) : option (res (grid Z)) :=
  l_result (match forM (scan w h) (cb_cell t w h nd mx) (l_start dem) with
            | Ok s => b_loop t w h nd false (breach_complete w h (fun z => z)) tb (Z.to_nat w * Z.to_nat h) 0 s
            | _ => Some Undef
            end).

(** 404-415: the flood *)
Definition flood_cell (w h : Z) (up : Z -> Z) (f : cellt) (s : lst) : res lst :=
  do p <- cat w h (l_back s) f;
  match p with
  | None => Undef
  | Some p =>
      do a <- cat w h (l_dem s) f; do b <- cat w h (l_dem s) p;
      if a <=? b then do d <- put w h (l_dem s) f (up b); Ok (mkL d (l_vis s) (l_pit s) (l_back s) (l_pq s) (l_tot s) (l_flood s)) else Ok s
  end.
(** Lindsay2016, Lindsay2016.hpp:217-420; [down] and [up] are the identity without eps_gradients *)
Definition Lindsay2016 (tb : nat -> nat) (m : lmode) (down up : Z -> Z) (fill : bool) (maxlen maxdepth : Z) (w h nd mx lo : Z) (dem : grid Z) : option (res (grid Z)) :=
  l_result (match forM (scan w h) (lb_cell down w h nd mx) (l_start dem) with
            | Ok s =>
                match b_loop D8 w h nd fill (breach_mode m maxlen maxdepth lo w h down) tb (Z.to_nat w * Z.to_nat h) 0 s with
                | Some (Ok s') =>
                    match m, fill with
                    | COMPLETE, _ | _, false => Some (Ok s')
                    | _, true => Some (forM (l_flood s') (flood_cell w h up) s')
                    end
                | r => r
                end
            | _ => Some Undef
            end).
