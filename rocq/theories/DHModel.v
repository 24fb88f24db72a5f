(** The depression hierarchy: include/richdem/depressions/depression_hierarchy.hpp.
    Elevations are integers standing for the totally ordered, NaN-free elevation values (in the volume
    computations: integers whose sums and products are exact). Cells are (x,y) pairs where the code uses
    flat indices (PropertiesArr: C11 shows that the two are in bijection). Logging is omitted. *)
From Coq Require Import ZArith List Lia Bool.
From Verif Require Import Base Res UFModel FlowModel FlatsModel.
Open Scope Z_scope.

(** depression_hierarchy.hpp:34-35, 163, 166 *)
Definition NO_VALUE : Z := 2 ^ 32 - 1.
Definition NO_PARENT : Z := 2 ^ 32 - 1.
Definition NO_DEP : Z := 2 ^ 32 - 1.
Definition OCEAN : Z := 0.

(** depression_hierarchy.hpp:44-93 struct Depression. [None] stands for NO_VALUE in the cell fields and
    for an infinite elevation in the elevation fields. water_vol is in FSMModel.v. *)
Record dep := mkDep {
  d_pit : option cellt;        (* pit_cell *)
  d_out : option cellt;        (* out_cell *)
  d_parent : Z; d_odep : Z; d_geolink : Z;
  d_pit_elev : option Z; d_out_elev : option Z;
  d_lchild : Z; d_rchild : Z;
  d_ocean_parent : bool;
  d_ocean_linked : list Z;
  d_label : Z;                 (* dep_label *)
  d_count : Z;                 (* cell_count *)
  d_vol : option Z;            (* dep_vol; None: not a finite number *)
  d_total : Z }.               (* total_elevation *)

Definition new_dep : dep :=
  mkDep None None NO_PARENT NO_VALUE NO_VALUE None None NO_VALUE NO_VALUE false [] 0 0 (Some 0) 0.

(** depression_hierarchy.hpp:113-131 struct Outlet; the constructor orders the labels *)
Record outlet := mkOut { o_a : Z; o_b : Z; o_cell : cellt; o_elev : Z }.
Definition new_outlet (a b : Z) (c : cellt) (e : Z) : outlet :=
  if a >? b then mkOut b a c e else mkOut a b c e.

(** ** Phase 1: flooding from the ocean and from all pits (lines 281-533) *)
Record fstate := mkF {
  f_lab : grid Z; f_fd : grid Z;
  f_pq : list (Z * cellt);     (* pq: key, cell *)
  f_last : option Z;           (* radix heap: last key extracted *)
  f_deps : list dep;
  f_db : list outlet }.        (* outlet_database: one outlet per pair of labels *)

Definition key_gt (a b : Z * cellt) : bool := fst a >? fst b.

(** pq.top_value(), pq.top_key(), pq.pop(): an element of least key. radix_heap.hpp returns the most
    recently added of them; here any choice [tb] is allowed. *)
Definition dh_pop (tb : nat -> nat) (i : nat) (s : fstate) : option ((Z * cellt) * fstate) :=
  match pq_pop key_gt (tb i) (f_pq s) with
  | Some (c, q) => Some (c, mkF (f_lab s) (f_fd s) q (Some (fst c)) (f_deps s) (f_db s))
  | None => None
  end.

(** pq.emplace(key, cell): radix_heap.hpp:283-293 requires that the key is not below the last key
    extracted (assert; without it the heap order is broken). *)
Definition dh_push (k : Z) (c : cellt) (s : fstate) : res fstate :=
  if match f_last s with Some l => k <? l | None => false end then Undef
  else Ok (mkF (f_lab s) (f_fd s) ((k, c) :: f_pq s) (f_last s) (f_deps s) (f_db s)).

(** lines 520-529: look up and update the outlet between labels [a] and [b] *)
Definition db_key (o : outlet) (a b : Z) : bool := (o_a o =? Z.min a b) && (o_b o =? Z.max a b).
Fixpoint db_update (db : list outlet) (a b : Z) (c : cellt) (e : Z) : list outlet :=
  match db with
  | [] => [new_outlet a b c e]
  | o :: db' => if db_key o a b
                then (if o_elev o >? e then mkOut (o_a o) (o_b o) c e else o) :: db'
                else o :: db_update db' a b c e
  end.

Section Hierarchy.
  Variables (t : topology) (w h : Z) (dem : grid Z).

  Definition nbr (c : cellt) (n : nat) : cellt := (fst c + dx t n, snd c + dy t n).

  (** lines 290-296: only OCEAN and NO_DEP labels are accepted. (The exception is thrown inside an OpenMP
      region, so that in a build with OpenMP the program terminates instead.) *)
  Definition check_labels (lab0 : grid Z) : res unit :=
    forM (scan w h) (fun c _ =>
      do l <- gat w h lab0 (fst c) (snd c);
      if l =? OCEAN then Ok tt else if l =? NO_DEP then Ok tt else Thrown) tt.

  (** lines 298-309: ocean cells with a non-ocean neighbour; sorted by flat index (line 370) *)
  Definition ocean_seeds (lab0 : grid Z) : res (list cellt) :=
    collectM (scan w h) (fun c =>
      do l <- gat w h lab0 (fst c) (snd c);
      if negb (l =? OCEAN) then Ok None
      else do b <- anyM (dirs t) (fun n =>
             if negb (inGrid w h (fst (nbr c n)) (snd (nbr c n))) then Ok false
             else do l' <- gat w h lab0 (fst (nbr c n)) (snd (nbr c n)); Ok (negb (l' =? OCEAN)));
           Ok (if b then Some c else None)).

  (** lines 340-364: land cells without a lower neighbour; sorted by flat index (line 371) *)
  Definition land_seeds (lab0 : grid Z) : res (list cellt) :=
    collectM (scan w h) (fun c =>
      do l <- gat w h lab0 (fst c) (snd c);
      if l =? OCEAN then Ok None
      else do e <- gat w h dem (fst c) (snd c);
           do b <- anyM (dirs t) (fun n =>
             if negb (inGrid w h (fst (nbr c n)) (snd (nbr c n))) then Ok false
             else do e' <- gat w h dem (fst (nbr c n)) (snd (nbr c n)); Ok (e' <? e));
           Ok (if b then None else Some c)).

  (** lines 318-325 *)
  Definition ocean_dep : dep := new_dep.
  (** lines 451-456 *)
  Definition leaf_dep (c : cellt) (e : Z) (label : Z) : dep :=
    mkDep (Some c) None NO_PARENT NO_VALUE NO_VALUE (Some e) None NO_VALUE NO_VALUE false [] label 0 (Some 0) 0.

  (** lines 380-386: all seeds are pushed *)
  Definition push_seeds (l : list cellt) (s : fstate) : res fstate :=
    forM l (fun c s => do e <- gat w h dem (fst c) (snd c); dh_push e c s) s.

  (** lines 469-531: neighbour [n] of the cell [c] of elevation [ce] and label [cl] *)
  Definition dh_visit (c : cellt) (ce cl : Z) (n : nat) (s : fstate) : res fstate :=
    let q := nbr c n in
    if negb (inGrid w h (fst q) (snd q)) then Ok s
    else do nl <- gat w h (f_lab s) (fst q) (snd q);
      if nl =? NO_DEP then
        do e <- gat w h dem (fst q) (snd q);
        dh_push e q (mkF (gset (f_lab s) (fst q) (snd q) cl)
                         (gset (f_fd s) (fst q) (snd q) (Z.of_nat (dinverse t n)))
                         (f_pq s) (f_last s) (f_deps s) (f_db s))
      else if nl =? cl then Ok s
      else
        do e <- gat w h dem (fst q) (snd q);
        let '(oc, oe) := if e >? ce then (q, e) else (c, ce) in
        Ok (mkF (f_lab s) (f_fd s) (f_pq s) (f_last s) (f_deps s) (db_update (f_db s) cl nl oc oe)).

  (** lines 431-466: the label of the cell taken off the queue; a cell without label founds a depression *)
  Definition dh_label (kc : Z * cellt) (s : fstate) : res (Z * fstate) :=
    let '(ce, c) := kc in
    do l <- gat w h (f_lab s) (fst c) (snd c);
    if l =? OCEAN then Ok (l, s)
    else if l =? NO_DEP then
      let cl := w32 (Z.of_nat (length (f_deps s))) in
      Ok (cl, mkF (gset (f_lab s) (fst c) (snd c) cl) (f_fd s) (f_pq s) (f_last s)
                  (f_deps s ++ [leaf_dep c ce cl]) (f_db s))
    else Ok (l, s).

  Definition dh_body (kc : Z * cellt) (s : fstate) : res fstate :=
    do r <- dh_label kc s;
    forM (dirs t) (dh_visit (snd kc) (fst kc) (fst r)) (snd r).

  (** lines 245-533 up to the end of the flood; [fd0]: the caller's flow directions. *)
  Definition dh_flood (tb : nat -> nat) (lab0 fd0 : grid Z) : option (res fstate) :=
    match (do _ <- check_labels lab0;
           do os <- ocean_seeds lab0;
           if Nat.eqb (length os) 0 then Thrown
           else do ls <- land_seeds lab0;
             do s1 <- push_seeds os (mkF lab0 fd0 [] None [ocean_dep] []);
             push_seeds ls s1) with
    | Ok s => whileR (dh_pop tb) dh_body (2 * (Z.to_nat w * Z.to_nat h)) 0 s
    | Thrown => Some Thrown
    | Undef => Some Undef
    end.
End Hierarchy.

(** ** Phase 2: the hierarchy (lines 557-703) *)

(** std::vector::at *)
Definition at_ {A} (l : list A) (i : Z) : res A :=
  if (0 <=? i) && (i <? Z.of_nat (length l)) then rd l i else Thrown.

(** a call into the union-find structure; running out of stack counts as undefined behaviour *)
Definition uf_call {A} (o : outcome A uf) : res (A * uf) :=
  match o with Ret a s => Ok (a, s) | Throw _ => Thrown | UB => Undef | Deep => Undef end.

Definition with_ocean (d : dep) (parent : Z) (o : outlet) : dep :=
  mkDep (d_pit d) (Some (o_cell o)) parent NO_VALUE parent (d_pit_elev d) (Some (o_elev o)) (d_lchild d) (d_rchild d)
        true (d_ocean_linked d) (d_label d) (d_count d) (d_vol d) (d_total d).
Definition with_linked (d : dep) (k : Z) : dep :=
  mkDep (d_pit d) (d_out d) (d_parent d) (d_odep d) (d_geolink d) (d_pit_elev d) (d_out_elev d) (d_lchild d) (d_rchild d)
        (d_ocean_parent d) (d_ocean_linked d ++ [k]) (d_label d) (d_count d) (d_vol d) (d_total d).
Definition with_parent (d : dep) (parent odep geolink : Z) (o : outlet) : dep :=
  mkDep (d_pit d) (Some (o_cell o)) parent odep geolink (d_pit_elev d) (Some (o_elev o)) (d_lchild d) (d_rchild d)
        (d_ocean_parent d) (d_ocean_linked d) (d_label d) (d_count d) (d_vol d) (d_total d).
(** lines 693-697 *)
Definition meta_dep (l r label : Z) (pit : option cellt) : dep :=
  mkDep pit None NO_PARENT NO_VALUE NO_VALUE None None l r false [] label 0 (Some 0) 0.

(** a failing assert() counts as undefined behaviour *)
Definition assert_ (b : bool) : res unit := if b then Ok tt else Undef.
Definition none_cell (c : option cellt) : bool := match c with None => true | Some _ => false end.

Notation hstate := (list dep * uf)%type.

(** lines 620-665: [a] is the metalabel that has found the ocean, [b] the label on the other side *)
Definition link_ocean (a b : Z) (o : outlet) (s : hstate) : res hstate :=
  let '(deps, u) := s in
  do d <- at_ deps a;
  do _ <- assert_ (none_cell (d_out d) && (d_odep d =? NO_VALUE));
  do deps1 <- wr deps a (with_ocean d b o);
  do e <- at_ deps1 b;
  do deps2 <- wr deps1 b (with_linked e a);
  do r <- uf_call (mergeAintoB a OCEAN u);
  Ok (deps2, snd r).

(** lines 666-701: metalabels [a], [b]; labels [la], [lb] on the two sides *)
Definition join_deps (a b la lb : Z) (o : outlet) (s : hstate) : res hstate :=
  let '(deps, u) := s in
  do da <- at_ deps a;
  do db <- at_ deps b;
  do _ <- assert_ ((d_odep da =? NO_VALUE) && (d_odep db =? NO_VALUE));
  let new := w32 (Z.of_nat (length deps)) in
  do deps1 <- wr deps a (with_parent da new b lb o);
  do deps2 <- wr deps1 b (with_parent db new a la o);
  do r1 <- uf_call (mergeAintoB a new u);
  do r2 <- uf_call (mergeAintoB b new (snd r1));
  Ok (deps2 ++ [meta_dep a b new (d_pit da)], snd r2).

(** lines 610-702, one outlet *)
Definition build_step (fuel : nat) (o : outlet) (s : hstate) : res hstate :=
  let '(deps, u) := s in
  do ra <- uf_call (findSet fuel (o_a o) u);
  do rb <- uf_call (findSet fuel (o_b o) (snd ra));
  let '(a, b, u2) := (fst ra, fst rb, snd rb) in
  if a =? b then Ok (deps, u2)
  else if (a =? OCEAN) || (b =? OCEAN) then
    if a =? OCEAN then link_ocean b (o_a o) o (deps, u2)
    else link_ocean a (o_b o) o (deps, u2)
  else join_deps a b (o_a o) (o_b o) o (deps, u2).

(** lines 574-703. [outlets]: the database sorted by elevation (the order among equals is arbitrary) *)
Definition build (outlets : list outlet) (deps : list dep) : res (list dep) :=
  do s <- forM outlets (build_step (S (2 * length deps))) (deps, uf_new (Z.of_nat (length deps)));
  Ok (fst s).

(** ** Phase 3: volumes *)

(** lines 729-790 struct CachingOutletChecker *)
Record coc := mkCoc { c_leaf : Z; c_outlets : list (option Z * Z) }.   (* outlets: back first *)
Definition coc_new : coc := mkCoc NO_DEP [].
Definition coc_reset (leaf : Z) : coc := mkCoc leaf [].
(** comparison [e <= outlet elevation], None being infinity *)
Definition le_out (e : Z) (o : option Z) : bool := match o with Some z => e <=? z | None => true end.
Fixpoint pop_outlets (e : Z) (l : list (option Z * Z)) : list (option Z * Z) :=
  match l with [] => [] | (z, k) :: l' => if le_out e z then pop_outlets e l' else l end.
(** lines 769-789 find_start *)
Definition find_start (leaf e : Z) (s : coc) : Z * coc :=
  if negb (c_leaf s =? leaf) then (leaf, coc_reset leaf)
  else match pop_outlets e (c_outlets s) with
       | [] => (leaf, coc_reset leaf)
       | (z, k) :: l => (k, mkCoc (c_leaf s) ((z, k) :: l))
       end.

(** lines 827-847: the search loop; [fuel] bounds the number of iterations *)
Fixpoint mv_search (fuel : nat) (deps : list dep) (e k : Z) (s : coc) : option (res (Z * coc)) :=
  if k =? OCEAN then Some (Ok (k, s))
  else match fuel with
       | O => None
       | S f =>
           match at_ deps k with
           | Ok d =>
               let s' := mkCoc (c_leaf s) ((d_out_elev d, k) :: c_outlets s) in
               if le_out e (d_out_elev d) then Some (Ok (k, s'))
               else if d_ocean_parent d then Some (Ok (OCEAN, s'))
               else mv_search f deps e (d_parent d) s'
           | Thrown => Some Thrown
           | Undef => Some Undef
           end
       end.

(** The same search without the cache, i.e. starting at the cell's own leaf (the comment in lines 819-826) *)
Fixpoint plain_search (fuel : nat) (deps : list dep) (e k : Z) : option (res Z) :=
  if k =? OCEAN then Some (Ok k)
  else match fuel with
       | O => None
       | S f =>
           match at_ deps k with
           | Ok d => if le_out e (d_out_elev d) then Some (Ok k)
                     else if d_ocean_parent d then Some (Ok OCEAN)
                     else plain_search f deps e (d_parent d)
           | Thrown => Some Thrown
           | Undef => Some Undef
           end
       end.

(** per-thread counters cell_counts, total_elevations *)
Definition zupd (f : Z -> Z) (i v : Z) : Z -> Z := fun j => if j =? i then v else f j.
Notation counters := ((Z -> Z) * (Z -> Z))%type.

(** lines 811-857: one cell; the thread's state is its checker and its counters. uint32_t counters. *)
Definition mv_cell (w h : Z) (dem lab : grid Z) (deps : list dep) (c : cellt) (s : coc * counters) : option (res (coc * counters)) :=
  match (do e <- gat w h dem (fst c) (snd c); do l <- gat w h lab (fst c) (snd c); Ok (e, l)) with
  | Ok (e, l) =>
      let '(k0, s0) := find_start l e (fst s) in
      match mv_search (length deps) deps e k0 s0 with
      | Some (Ok (k, s1)) =>
          if k =? OCEAN then Some (Ok (s1, snd s))
          else if (0 <=? k) && (k <? Z.of_nat (length deps))
          then Some (Ok (s1, (zupd (fst (snd s)) k (w32 (fst (snd s) k + 1)), zupd (snd (snd s)) k (snd (snd s) k + e))))
          else Some Undef
      | Some Thrown => Some Thrown
      | Some Undef => Some Undef
      | None => None
      end
  | Thrown => Some Thrown
  | Undef => Some Undef
  end.

(** lines 860-864: the critical section of one thread *)
Definition add_counts (cs : counters) (deps : list dep) : list dep :=
  map (fun p => let '(i, d) := p in
         mkDep (d_pit d) (d_out d) (d_parent d) (d_odep d) (d_geolink d) (d_pit_elev d) (d_out_elev d) (d_lchild d)
               (d_rchild d) (d_ocean_parent d) (d_ocean_linked d) (d_label d) (w32 (d_count d + fst cs i)) (d_vol d)
               (d_total d + snd cs i))
      (combine (zrange 0 (length deps)) deps).

Fixpoint forO {I S} (is : list I) (body : I -> S -> option (res S)) (s : S) : option (res S) :=
  match is with
  | [] => Some (Ok s)
  | i :: is' => match body i s with
                | Some (Ok s') => forO is' body s'
                | Some Thrown => Some Thrown | Some Undef => Some Undef | None => None
                end
  end.

(** lines 793-868. [parts]: the cells handled by each thread, in the order handled; the threads are
    listed in the order in which they enter the critical section. The critical sections change only
    cell_count and total_elevation, which the search does not read. *)
Definition CalculateMarginalVolumes (w h : Z) (dem lab : grid Z) (parts : list (list cellt)) (deps : list dep) : option (res (list dep)) :=
  forO parts (fun p ds =>
    match forO p (mv_cell w h dem lab deps) (coc_new, (fun _ => 0, fun _ => 0)) with
    | Some (Ok s) => Some (Ok (add_counts (snd s) ds))
    | Some Thrown => Some Thrown | Some Undef => Some Undef | None => None
    end) deps.

(** lines 871-901 CalculateTotalVolumes. [0 * infinity] and [infinity] volumes are [None].
    The tolerance of 1e-6 in the last assert is dropped (a stronger assert). *)
Definition vol_le (a b c : option Z) : bool := match a, b, c with Some x, Some y, Some z => x + y <=? z | _, _, _ => false end.
Definition total_step (i : Z) (deps : list dep) : res (list dep) :=
  do d <- at_ deps i;
  do ct <- (if negb (d_lchild d =? NO_VALUE)
            then do _ <- assert_ (negb (d_rchild d =? NO_VALUE) && (d_lchild d <? i) && (d_rchild d <? i));
                 do l <- at_ deps (d_lchild d);
                 do r <- at_ deps (d_rchild d);
                 Ok (w32 (d_count d + d_count l + d_count r), d_total d + d_total l + d_total r)
            else Ok (d_count d, d_total d));
  let vol := match d_out_elev d with Some z => Some (fst ct * z - snd ct) | None => None end in
  do _ <- (if negb (d_lchild d =? NO_VALUE)
           then do l <- at_ deps (d_lchild d); do r <- at_ deps (d_rchild d); assert_ (vol_le (d_vol l) (d_vol r) vol)
           else Ok tt);
  wr deps i (mkDep (d_pit d) (d_out d) (d_parent d) (d_odep d) (d_geolink d) (d_pit_elev d) (d_out_elev d) (d_lchild d)
               (d_rchild d) (d_ocean_parent d) (d_ocean_linked d) (d_label d) (fst ct) vol (snd ct)).
Definition CalculateTotalVolumes (deps : list dep) : res (list dep) :=
  forM (zrange 0 (length deps)) total_step deps.

(** lines 243-725 GetDepressionHierarchy: labels, flow directions and hierarchy. [sorted]: the outlets
    in the order in which std::sort leaves them. *)
Definition GetDepressionHierarchy (t : topology) (w h : Z) (dem : grid Z) (tb : nat -> nat)
    (sorted : list outlet -> list outlet) (parts : list (list cellt)) (lab0 fd0 : grid Z) :
    option (res (grid Z * grid Z * list dep)) :=
  match dh_flood t w h dem tb lab0 fd0 with
  | Some (Ok s) =>
      match build (sorted (f_db s)) (f_deps s) with
      | Ok deps =>
          match CalculateMarginalVolumes w h dem (f_lab s) parts deps with
          | Some (Ok deps1) =>
              match CalculateTotalVolumes deps1 with
              | Ok deps2 => Some (Ok (f_lab s, f_fd s, deps2))
              | Thrown => Some Thrown | Undef => Some Undef
              end
          | Some Thrown => Some Thrown | Some Undef => Some Undef | None => None
          end
      | Thrown => Some Thrown | Undef => Some Undef
      end
  | Some Thrown => Some Thrown | Some Undef => Some Undef | None => None
  end.
