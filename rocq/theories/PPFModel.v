(** Model of programs/parallel_priority_flood: Zhou2016pf.hpp and main.cpp.
    Elevations are integers (any NaN-free totally ordered type), [lowest] is std::numeric_limits<elev_t>::lowest().
    Labels are mathematical integers: fewer than 2^32 labels in all. The order among equal elevations in the priority queues
    is left open. Reading and writing rasters with GDAL, serialisation, timing and logging are not modelled: a job reaches
    the consumer it is sent to and the reply comes back unchanged, at any time. *)
From Coq Require Import ZArith List Lia Bool.
From Verif Require Import Base Res FlowModel PFModel ZhouModel.
Open Scope Z_scope.

(** ** The flood of one tile: Zhou2016pf.hpp *)

(** std::vector< std::map<label_t, elev_t> >: row, key, value *)
Definition sgraph := Z -> Z -> option Z.
Definition gput (g : sgraph) (a b v : Z) : sgraph := fun a' b' => if (a' =? a) && (b' =? b) then Some v else g a' b'.

(** The queues hold GridCellZ: elevation and cell. [l_bad]: some my_graph.at() has thrown; nothing catches it, so the
    execution ends there, here the flag just stays set. *)
Record lst := mkL { l_dem : cellt -> Z; l_lab : cellt -> Z; l_pq : list (Z * cellt); l_tr : list (Z * cellt); l_dep : list (Z * cellt);
                    l_g : sgraph; l_cur : Z; l_bad : bool }.

(** Zhou2016pf.hpp:14-35 GetNewLabelZhou: the label, and the new value of current_label *)
Definition GetNewLabelZhou (w h : Z) (c : cellt) (s : lst) : Z * Z :=
  if negb (l_lab s c =? 0) then (l_lab s c, l_cur s)
  else match find (fun n => inR w h (off c n) && negb (l_lab s (off c n) =? 0) && (l_dem s (off c n) <=? l_dem s c)) (dirs D8) with
       | Some n => (l_lab s (off c n), l_cur s)
       | None => (l_cur s, l_cur s + 1)
       end.

(** Zhou2016pf.hpp:38-62 WatershedsMeet; [size] is the size of my_graph *)
Definition WatershedsMeet (size my_label n_label my_elev n_elev : Z) (gb : sgraph * bool) : sgraph * bool :=
  let '(g, bad) := gb in
  if n_label =? 0 then gb
  else if my_label =? n_label then gb
  else
    let over := Z.max my_elev n_elev in
    let lo := if my_label >? n_label then n_label else my_label in
    let hi := if my_label >? n_label then my_label else n_label in
    if size <=? lo then (g, true)
    else match g lo hi with
         | None => (gput g lo hi over, bad)
         | Some v => if over <? v then (gput g lo hi over, bad) else gb
         end.

Definition l_meet (size : Z) (c ni : cellt) (s : lst) : lst :=
  let gb := WatershedsMeet size (l_lab s c) (l_lab s ni) (l_dem s c) (l_dem s ni) (l_g s, l_bad s) in
  mkL (l_dem s) (l_lab s) (l_pq s) (l_tr s) (l_dep s) (fst gb) (l_cur s) (snd gb).

(** Zhou2016pf.hpp:71-108, the body of the neighbour loop of ProcessTraceQue_onepass; [cz] is c.z, the flag is bInPQ. The loop
    over nn uses d8x[n], d8y[n], so that all its iterations look at the same cell. *)
Definition lt_visit (w h size cz : Z) (c : cellt) (sb : lst * bool) (n : nat) : lst * bool :=
  let '(s0, b) := sb in
  let ni := off c n in
  if negb (inR w h ni) then sb
  else
    let s := l_meet size c ni s0 in
    if negb (l_lab s ni =? 0) then (s, b)
    else if cz <? l_dem s ni then
      (mkL (l_dem s) (cset (l_lab s) ni (l_lab s c)) (l_pq s) (l_tr s ++ [(l_dem s ni, ni)]) (l_dep s) (l_g s) (l_cur s) (l_bad s), b)
    else if b then (s, b)
    else
      let notBoundary := existsb (fun nn : nat => let nni := off ni n in
                                   inR w h nni && negb (l_lab s nni =? 0) && (l_dem s nni <? l_dem s ni)) (dirs D8) in
      if notBoundary then (s, b)
      else (mkL (l_dem s) (l_lab s) ((cz, c) :: l_pq s) (l_tr s) (l_dep s) (l_g s) (l_cur s) (l_bad s), true).

(** Zhou2016pf.hpp:66-68 *)
Definition lt_pop (i : nat) (s : lst) : option ((Z * cellt) * lst) :=
  match l_tr s with [] => None | c :: q => Some (c, mkL (l_dem s) (l_lab s) (l_pq s) q (l_dep s) (l_g s) (l_cur s) (l_bad s)) end.

(** Zhou2016pf.hpp:65-110 *)
Definition ProcessTraceQueL (w h size : Z) (s : lst) : option lst :=
  while_pop lt_pop (fun c s => fst (fold_left (lt_visit w h size (fst c) (snd c)) (dirs D8) (s, false)))
    (S (Z.to_nat w * Z.to_nat h)) 0 s.

(** Zhou2016pf.hpp:118-138, the body of the neighbour loop of ProcessPit_onepass *)
Definition lp_visit (w h size cz : Z) (c : cellt) (s0 : lst) (n : nat) : lst :=
  let ni := off c n in
  if negb (inR w h ni) then s0
  else
    let s := l_meet size c ni s0 in
    if negb (l_lab s ni =? 0) then s
    else
      let lab := cset (l_lab s) ni (l_lab s c) in
      if l_dem s ni >? cz then mkL (l_dem s) lab (l_pq s) (l_tr s ++ [(l_dem s ni, ni)]) (l_dep s) (l_g s) (l_cur s) (l_bad s)
      else mkL (cset (l_dem s) ni cz) lab (l_pq s) (l_tr s) (l_dep s ++ [(cz, ni)]) (l_g s) (l_cur s) (l_bad s).

(** Zhou2016pf.hpp:114-116 *)
Definition lp_pop (i : nat) (s : lst) : option ((Z * cellt) * lst) :=
  match l_dep s with [] => None | c :: q => Some (c, mkL (l_dem s) (l_lab s) (l_pq s) (l_tr s) q (l_g s) (l_cur s) (l_bad s)) end.

(** Zhou2016pf.hpp:113-140 *)
Definition ProcessPitL (w h size : Z) (s : lst) : option lst :=
  while_pop lp_pop (fun c s => fold_left (lp_visit w h size (fst c) (snd c)) (dirs D8) s) (S (Z.to_nat w * Z.to_nat h)) 0 s.

(** Zhou2016pf.hpp:178-200, the body of the neighbour loop of the main loop; [c] is the pair popped *)
Definition lm_visit (w h size : Z) (c : Z * cellt) (os : option lst) (n : nat) : option lst :=
  match os with
  | None => None
  | Some s0 =>
      let ni := off (snd c) n in
      if negb (inR w h ni) then os
      else
        let s := l_meet size (snd c) ni s0 in
        if negb (l_lab s ni =? 0) then Some s
        else
          let lab := cset (l_lab s) ni (l_lab s (snd c)) in
          let r := if l_dem s ni <=? fst c
                   then ProcessPitL w h size (mkL (cset (l_dem s) ni (fst c)) lab (l_pq s) (l_tr s) (l_dep s ++ [(fst c, ni)]) (l_g s) (l_cur s) (l_bad s))
                   else Some (mkL (l_dem s) lab (l_pq s) (l_tr s ++ [(l_dem s ni, ni)]) (l_dep s) (l_g s) (l_cur s) (l_bad s)) in
          match r with Some s' => ProcessTraceQueL w h size s' | None => None end
  end.

(** Zhou2016pf.hpp:176 *)
Definition l_start (w h : Z) (c : cellt) (q : list (Z * cellt)) (s : lst) : lst :=
  let '(l, cur) := GetNewLabelZhou w h c s in
  mkL (l_dem s) (cset (l_lab s) c l) q (l_tr s) (l_dep s) (l_g s) cur (l_bad s).

(** Zhou2016pf.hpp:172-201; [None]: the fuel of some loop is exhausted *)
Fixpoint lm_loop (tb : nat -> nat) (w h size : Z) (fuel i : nat) (s : lst) : option lst :=
  match pq_pop (fun a b : Z * cellt => fst a >? fst b) (tb i) (l_pq s) with
  | None => Some s
  | Some (c, q) =>
      match fuel with
      | O => None
      | S f => match fold_left (lm_visit w h size c) (dirs D8) (Some (l_start w h (snd c) q s)) with
               | Some s' => lm_loop tb w h size f (S i) s'
               | None => None
               end
      end
  end.

(** Zhou2016pf.hpp:160-170 *)
Definition l_seeds (w h : Z) : list cellt :=
  flat_map (fun x => [(x, 0); (x, h - 1)]) (zrange 0 (Z.to_nat w)) ++
  flat_map (fun y => [(0, y); (w - 1, y)]) (zrange 1 (Z.to_nat (h - 2))).

(** the bits GRID_TOP, GRID_BOTTOM, GRID_LEFT, GRID_RIGHT of TileInfo::edge *)
Record edges := mkE { e_top : bool; e_bot : bool; e_left : bool; e_right : bool }.

(** Zhou2016pf.hpp:206-224: the cells that are connected to Special Watershed 1, in order *)
Definition outside (w h : Z) (e : edges) (flipH flipV : bool) : list cellt :=
  (if e_top e && negb flipV || e_bot e && flipV then map (fun x => (x, 0)) (zrange 0 (Z.to_nat w)) else []) ++
  (if e_bot e && negb flipV || e_top e && flipV then map (fun x => (x, h - 1)) (zrange 0 (Z.to_nat w)) else []) ++
  (if e_left e && negb flipH || e_right e && flipH then map (fun y => (0, y)) (zrange 0 (Z.to_nat h)) else []) ++
  (if e_right e && negb flipH || e_left e && flipH then map (fun y => (w - 1, y)) (zrange 0 (Z.to_nat h)) else []).
Definition l_outside (size : Z) (lab dem : cellt -> Z) (gb : sgraph * bool) (c : cellt) : sgraph * bool :=
  WatershedsMeet size (lab c) 1 (dem c) (dem c) gb.

(** what a consumer holds after the flood: dem, labels, and spillover_graph with its size *)
Record tile := mkT { t_dem : cellt -> Z; t_lab : cellt -> Z; t_g : sgraph; t_n : Z }.

(** Zhou2016pf.hpp:143-227, called with a graph of [size] empty rows *)
Definition Zhou2015Labels (tb : nat -> nat) (w h size : Z) (e : edges) (flipH flipV : bool) (dem : grid Z) : res tile :=
  let d := fun c : cellt => dem (fst c) (snd c) in
  match lm_loop tb w h size (length (l_seeds w h) + Z.to_nat w * Z.to_nat h) 0
          (mkL d (fun _ => 0) (rev (map (fun c => (d c, c)) (l_seeds w h))) [] [] (fun _ _ => None) 2 false) with
  | None => Undef  (* fuel; never happens *)
  | Some s =>
      let gb := fold_left (l_outside size (l_lab s) (l_dem s)) (outside w h e flipH flipV) (l_g s, l_bad s) in
      if snd gb then Thrown else Ok (mkT (l_dem s) (l_lab s) (fst gb) (l_cur s))
  end.

(** ** main.cpp *)
(** The tiles: [bw] x [bh] cells, except for the last column and row in mode "one", if the raster of [W] x [H] cells is not a
    multiple. In mode "many" each tile is a file, [nul] are the missing ones; [files tx ty] is the data as stored.
    [ties tx ty] resolves the order of equal elevations when tile (tx,ty) is flooded. *)
Record layout := mkLay { W : Z; H : Z; bw : Z; bh : Z; many : bool; nul : Z -> Z -> bool; flipH : bool; flipV : bool;
                         files : Z -> Z -> grid Z; ties : Z -> Z -> nat -> nat }.
Section Program.
  Variable L : layout.
  (** main.cpp:1005,1007 in mode "one"; the number of rows and columns of the layout file in mode "many" *)
  Definition gridwidth : Z := (W L + bw L - 1) / bw L.
  Definition gridheight : Z := (H L + bh L - 1) / bh L.
  (** main.cpp:1050-1051; main.cpp:932-933 *)
  Definition tw (tx : Z) : Z := if W L - tx * bw L >=? bw L then bw L else W L - tx * bw L.
  Definition th (ty : Z) : Z := if H L - ty * bh L >=? bh L then bh L else H L - ty * bh L.

  (** main.cpp:963-975 and 1065-1072 *)
  Definition tile_edges (tx ty : Z) : edges :=
    mkE (many L && (ty - 1 >? 0) && (tx >? 0) && nul L tx (ty - 1) || (ty =? 0))
        (many L && (ty + 1 <? gridheight) && (tx >? 0) && nul L tx (ty + 1) || (ty =? gridheight - 1))
        (many L && (ty >? 0) && (tx - 1 >? 0) && nul L (tx - 1) ty || (tx =? 0))
        (many L && (ty >? 0) && (tx + 1 <? gridwidth) && nul L (tx + 1) ty || (tx =? gridwidth - 1)).

  (** main.cpp:718-726 and 769-779: the tiles in the order in which their jobs are sent *)
  Definition tiles : list (Z * Z) := filter (fun t => negb (nul L (fst t) (snd t))) (scan gridwidth gridheight).

  (** main.cpp:142-179 LoadFromEvict *)
  Definition LoadFromEvict (t : Z * Z) : res tile :=
    Zhou2015Labels (ties L (fst t) (snd t)) (tw (fst t)) (th (snd t)) (2 * tw (fst t) + 2 * th (snd t)) (tile_edges (fst t) (snd t))
      (flipH L) (flipV L) (files L (fst t) (snd t)).

  (** main.cpp:88-114 Job1: perimeters as functions of the index, with the lengths of rows and columns *)
  Record job := mkJ { j_w : Z; j_h : Z; j_te : Z -> Z; j_be : Z -> Z; j_le : Z -> Z; j_re : Z -> Z;
                      j_tl : Z -> Z; j_bl : Z -> Z; j_ll : Z -> Z; j_rl : Z -> Z; j_g : sgraph; j_n : Z }.
  Definition revv (n : Z) (f : Z -> Z) : Z -> Z := fun i => f (n - 1 - i).
  (** main.cpp:238-245 *)
  Definition jflipV (j : job) : job :=
    mkJ (j_w j) (j_h j) (j_be j) (j_te j) (revv (j_h j) (j_le j)) (revv (j_h j) (j_re j))
        (j_bl j) (j_tl j) (revv (j_h j) (j_ll j)) (revv (j_h j) (j_rl j)) (j_g j) (j_n j).
  (** main.cpp:246-253 *)
  Definition jflipH (j : job) : job :=
    mkJ (j_w j) (j_h j) (revv (j_w j) (j_te j)) (revv (j_w j) (j_be j)) (j_re j) (j_le j)
        (revv (j_w j) (j_tl j)) (revv (j_w j) (j_bl j)) (j_rl j) (j_ll j) (j_g j) (j_n j).
  (** main.cpp:217-254 FirstRound *)
  Definition FirstRound (t : Z * Z) (r : tile) : job :=
    let w := tw (fst t) in let h := th (snd t) in
    let j := mkJ w h (fun i => t_dem r (i, 0)) (fun i => t_dem r (i, h - 1)) (fun i => t_dem r (0, i)) (fun i => t_dem r (w - 1, i))
                 (fun i => t_lab r (i, 0)) (fun i => t_lab r (i, h - 1)) (fun i => t_lab r (0, i)) (fun i => t_lab r (w - 1, i)) (t_g r) (t_n r) in
    let j := if flipV L then jflipV j else j in
    if flipH L then jflipH j else j.

  (** an element of jobs1 that was never received: main.cpp:738 *)
  Definition nojob : job := mkJ 0 0 (fun _ => 0) (fun _ => 0) (fun _ => 0) (fun _ => 0) (fun _ => 0) (fun _ => 0) (fun _ => 0) (fun _ => 0) (fun _ _ => None) 0.

  Definition shift (offset l : Z) : Z := if l >? 1 then l + offset else l.

  (** main.cpp:315-318, 335-338: record the edge if it is new or lower; [max] is the size of mastergraph *)
  Definition lower (max a b over : Z) (mg : sgraph) : res sgraph :=
    if negb ((0 <=? a) && (a <? max)) then Thrown
    else if match mg a b with None => true | Some v => over <? v end
    then if negb ((0 <=? b) && (b <? max)) then Undef else Ok (gput (gput mg a b over) b a over)
    else Ok mg.

  (** main.cpp:285-321 HandleEdge *)
  Definition HandleEdge (max len_a len_b : Z) (ea eb la lb : Z -> Z) (oa ob : Z) (mg : sgraph) : res sgraph :=
    if negb (len_a =? len_b) then Undef (* assert *)
    else forM (zrange 0 (Z.to_nat len_a)) (fun i mg =>
      forM (zrange (i - 1) 3) (fun ni mg =>
        if (ni <? 0) || (ni =? len_a) then Ok mg
        else
          let cl := shift oa (la i) in let nl := shift ob (lb ni) in
          if cl =? nl then Ok mg else lower max cl nl (Z.max (ea i) (eb ni)) mg) mg) mg.

  (** main.cpp:323-339 HandleCorner *)
  Definition HandleCorner (max ea eb la lb oa ob : Z) (mg : sgraph) : res sgraph :=
    lower max (shift oa la) (shift ob lb) (Z.max ea eb) mg.

  (** the state of main.cpp:364-390: label_offset, TileInfo::label_offset, mastergraph *)
  Definition jset {A} (f : Z -> Z -> A) (t : Z * Z) (a : A) : Z -> Z -> A := gset f (fst t) (snd t) a.

  (** main.cpp:374-386 *)
  Definition merge (max offset : Z) (j : job) (mg : sgraph) : res sgraph :=
    forM (zrange 0 (Z.to_nat (j_n j))) (fun l mg =>
      forM (zrange 0 (Z.to_nat (j_n j))) (fun k mg =>
        match j_g j l k with
        | None => Ok mg
        | Some v =>
            let a := shift offset l in let b := shift offset k in
            if (a <? max) && (b <? max) then Ok (gput (gput mg a b v) b a v) else Thrown
        end) mg) mg.

  (** main.cpp:364-390 *)
  Definition merge_all (max : Z) (jobs : Z -> Z -> job) : res (Z * ((Z -> Z -> Z) * sgraph)) :=
    forM tiles (fun t s =>
      let '(offset, (offs, mg)) := s in
      let j := jobs (fst t) (snd t) in
      do mg' <- merge max offset j mg;
      Ok (offset + j_n j, (jset offs t offset, mg'))) (0, (fun _ _ => 0, fun _ _ => None)).

  (** main.cpp:393-429: the body of the loop over the tiles *)
  Definition handle (max : Z) (jobs : Z -> Z -> job) (offs : Z -> Z -> Z) (t : Z * Z) (mg : sgraph) : res sgraph :=
    let x := fst t in let y := snd t in
    let c := jobs x y in let oc := offs x y in
    do mg <- (if (y >? 0) && negb (nul L x (y - 1)) then let d := jobs x (y - 1) in HandleEdge max (j_w c) (j_w d) (j_te c) (j_be d) (j_tl c) (j_bl d) oc (offs x (y - 1)) mg else Ok mg);
    do mg <- (if (y <? gridheight - 1) && negb (nul L x (y + 1)) then let d := jobs x (y + 1) in HandleEdge max (j_w c) (j_w d) (j_be c) (j_te d) (j_bl c) (j_tl d) oc (offs x (y + 1)) mg else Ok mg);
    do mg <- (if (x >? 0) && negb (nul L (x - 1) y) then let d := jobs (x - 1) y in HandleEdge max (j_h c) (j_h d) (j_le c) (j_re d) (j_ll c) (j_rl d) oc (offs (x - 1) y) mg else Ok mg);
    do mg <- (if (x <? gridwidth - 1) && negb (nul L (x + 1) y) then let d := jobs (x + 1) y in HandleEdge max (j_h c) (j_h d) (j_re c) (j_le d) (j_rl c) (j_ll d) oc (offs (x + 1) y) mg else Ok mg);
    do mg <- (if (y >? 0) && (x >? 0) && negb (nul L (x - 1) (y - 1)) then let d := jobs (x - 1) (y - 1) in
               HandleCorner max (j_te c 0) (j_be d (j_w d - 1)) (j_tl c 0) (j_bl d (j_w d - 1)) oc (offs (x - 1) (y - 1)) mg else Ok mg);
    do mg <- (if (y <? gridheight - 1) && (x <? gridwidth - 1) && negb (nul L (x + 1) (y + 1)) then let d := jobs (x + 1) (y + 1) in
               HandleCorner max (j_be c (j_w c - 1)) (j_te d 0) (j_bl c (j_w c - 1)) (j_tl d 0) oc (offs (x + 1) (y + 1)) mg else Ok mg);
    do mg <- (if (y >? 0) && (x <? gridwidth - 1) && negb (nul L (x + 1) (y - 1)) then let d := jobs (x + 1) (y - 1) in
               HandleCorner max (j_te c (j_w c - 1)) (j_be d 0) (j_tl c (j_w c - 1)) (j_bl d 0) oc (offs (x + 1) (y - 1)) mg else Ok mg);
    (if (x >? 0) && (y <? gridheight - 1) && negb (nul L (x - 1) (y + 1)) then let d := jobs (x - 1) (y + 1) in
               HandleCorner max (j_be c 0) (j_te d (j_w d - 1)) (j_bl c 0) (j_tl d (j_w d - 1)) oc (offs (x - 1) (y + 1)) mg else Ok mg).

  (** the aggregated priority flood: open, visited, graph_elev. [pit] stays empty: its only use is commented out. *)
  Record ast := mkA { a_open : list (Z * Z); a_vis : Z -> bool; a_ge : Z -> Z }.
  Definition zset {A} (f : Z -> A) (k : Z) (a : A) : Z -> A := fun k' => if k' =? k then a else f k'.
  (** main.cpp:527-532. The rows have keys below [max] only, as both directions of each edge are stored. *)
  Definition a_visit (mg : sgraph) (my_elev v : Z) (s : ast) (n : Z) : ast :=
    match mg v n with
    | None => s
    | Some n_elev => if a_vis s n then s else mkA ((Z.max my_elev n_elev, n) :: a_open s) (a_vis s) (a_ge s)
    end.
  (** main.cpp:519-543 *)
  Definition a_body (max : Z) (mg : sgraph) (c : Z * Z) (s : ast) : ast :=
    let '(my_elev, v) := c in
    if a_vis s v then s
    else fold_left (a_visit mg my_elev v) (zrange 0 (Z.to_nat max)) (mkA (a_open s) (zset (a_vis s) v true) (zset (a_ge s) v my_elev)).
  Definition a_pop (tb : nat -> nat) (i : nat) (s : ast) : option ((Z * Z) * ast) :=
    match pq_pop (fun a b : Z * Z => fst a >? fst b) (tb i) (a_open s) with
    | None => None
    | Some (c, q) => Some (c, mkA q (a_vis s) (a_ge s))
    end.
  (** main.cpp:442-543 *)
  Definition aggregated (tb : nat -> nat) (lowest max : Z) (mg : sgraph) : option ast :=
    while_pop (a_pop tb) (a_body max mg) (S (Z.to_nat max * Z.to_nat max)) 0 (mkA [(lowest, 1)] (fun _ => false) (fun _ => 0)).

  (** main.cpp:342-547 Calculations: label_offset of the tiles and graph_elev *)
  Definition Calculations (tb : nat -> nat) (lowest : Z) (jobs : Z -> Z -> job) : res ((Z -> Z -> Z) * (Z -> Z)) :=
    let max := fold_left (fun m t => m + j_n (jobs (fst t) (snd t))) (scan gridwidth gridheight) 0 in
    do s <- merge_all max jobs;
    let '(_, (offs, mg)) := s in
    do mg <- forM tiles (handle max jobs offs) mg;
    if max <=? 1 then Undef (* visited[1], graph_elev[1] *)
    else match aggregated tb lowest max mg with None => Undef (* fuel; never happens *) | Some s => Ok (offs, a_ge s) end.

  (** main.cpp:256-271 SecondRound; job2 has [n] elements (main.cpp:549-554 DistributeJob2) *)
  Definition SecondRound (t : Z * Z) (dl : (cellt -> Z) * (cellt -> Z)) (n : Z) (job2 : Z -> Z) : res (cellt -> Z) :=
    let '(dem, lab) := dl in
    forM (scan (tw (fst t)) (th (snd t))) (fun c d =>
      if lab c >? 1 then
        if lab c <? n then Ok (if d c <? job2 (lab c) then cset d c (job2 (lab c)) else d) else Thrown
      else Ok d) dem.

  (** TileInfo::retention: "@evict", "@retain", or a path *)
  Inductive retention := Evict | Retain | Cache.
  Definition held : Type := (cellt -> Z) * (cellt -> Z).
  (** The file system: only the files named retention+"dem.dat" and retention+"labels.dat" of each tile (the path has the
      tile's name in it); a file holds an array dumped by Array2D::saveToCache. *)
  Inductive fname := Demdat (t : Z * Z) | Labelsdat (t : Z * Z).
  Definition teqb (a b : Z * Z) : bool := (fst a =? fst b) && (snd a =? snd b).
  Definition feqb (a b : fname) : bool :=
    match a, b with Demdat t, Demdat u => teqb t u | Labelsdat t, Labelsdat u => teqb t u | _, _ => false end.
  Definition fwrite {A} (fs : fname -> option A) (n : fname) (a : A) : fname -> option A := fun m => if feqb m n then Some a else fs m.

  (** What is left behind after the first round: the consumers' storage (by consumer and tile), the files *)
  Record world := mkW { w_store : Z -> Z * Z -> option held; w_fs : fname -> option (cellt -> Z) }.
  (** main.cpp:185-192 SaveToCache: both arrays go to dem.dat *)
  Definition SaveToCache (t : Z * Z) (r : tile) (fs : fname -> option (cellt -> Z)) : fname -> option (cellt -> Z) :=
    fwrite (fwrite fs (Demdat t) (t_dem r)) (Demdat t) (t_lab r).
  (** main.cpp:201-207 SaveToRetain by consumer [k] *)
  Definition SaveToRetain (k : Z) (t : Z * Z) (r : tile) (st : Z -> Z * Z -> option held) : Z -> Z * Z -> option held :=
    fun k' t' => if (k' =? k) && teqb t' t then Some (t_dem r, t_lab r) else st k' t'.

  (** main.cpp:622-654: the first job of tile [t], the [i]-th to be sent, done by consumer i mod limit + 1 *)
  Definition first_job (m : retention) (limit : Z) (it : Z * (Z * Z)) (s : world * list ((Z * Z) * job)) : res (world * list ((Z * Z) * job)) :=
    let '(i, t) := it in let '(wd, js) := s in
    do r <- LoadFromEvict t;
    let wd' := match m with
               | Evict => wd
               | Retain => mkW (SaveToRetain (i mod limit + 1) t r (w_store wd)) (w_fs wd)
               | Cache => mkW (w_store wd) (SaveToCache t r (w_fs wd))
               end in
    Ok (wd', js ++ [(t, FirstRound t r)]).

  (** main.cpp:665-670 *)
  Definition reload (m : retention) (limit : Z) (it : Z * (Z * Z)) (wd : world) : res held :=
    let '(i, t) := it in
    match m with
    | Evict => do r <- LoadFromEvict t; Ok (t_dem r, t_lab r)
    | Retain => match w_store wd (i mod limit + 1) t with Some d => Ok d | None => Thrown (* storage.at *) end
    | Cache => match w_fs wd (Demdat t), w_fs wd (Labelsdat t) with Some d, Some l => Ok (d, l) | _, _ => Thrown end
    end.

  Definition numbered {A} (l : list A) : list (Z * A) := combine (zrange 0 (length l)) l.

  (** main.cpp:739-744: the replies are received in the order [arrive] *)
  Definition receive (arrive : list ((Z * Z) * job)) : Z -> Z -> job :=
    fold_left (fun jobs a => jset jobs (fst a) (snd a)) arrive (fun _ _ => nojob).

  (** The program, main.cpp:697-823 with the consumers: [arrive] permutes the replies of the first round, [wd0] are the files
      that exist at the start. The result is the output file of each tile. *)
  Definition run (m : retention) (limit : Z) (tb : nat -> nat) (lowest : Z) (arrive : list ((Z * Z) * job) -> list ((Z * Z) * job))
      (fs0 : fname -> option (cellt -> Z)) : res (Z -> Z -> option (cellt -> Z)) :=
    do s <- forM (numbered tiles) (first_job m limit) (mkW (fun _ _ => None) fs0, []);
    let '(wd, js) := s in
    let jobs := receive (arrive js) in
    do og <- Calculations tb lowest jobs;
    let '(offs, ge) := og in
    forM (numbered tiles) (fun it outp =>
      let t := snd it in
      do d <- reload m limit it wd;
      do o <- SecondRound t d (j_n (jobs (fst t) (snd t))) (fun l => ge (offs (fst t) (snd t) + l));
      Ok (jset outp t (Some o))) (fun _ _ => None).
End Program.
