(** Textbook LRU list: most recent first. *)
From Coq Require Import ZArith List.
From Verif Require Import Base LRUModel.
Open Scope Z_scope.

Record ref := mkR { r_list : list Z; r_cap : Z (* -1 = unbounded *) }.

Definition ref_step (o : lop) (r : ref) : ref :=
  match o with
  | LInsert e => mkR (e :: filter (fun a => negb (a =? e)) (r_list r)) (r_cap r)
  | LPopBack => mkR (removelast (r_list r)) (r_cap r)
  | LPrune => mkR (if r_cap r =? -1 then r_list r else firstn (Z.to_nat (r_cap r)) (r_list r)) (r_cap r)
  | LSetCap n => mkR (r_list r) n
  end.
Definition ref_run (l : list lop) (r : ref) : ref := fold_left (fun r o => ref_step o r) l r.

(** Histories which (1) never evict from an empty cache or set a nonsensical capacity and (2) never re-insert
    an item that is the most recently inserted one ([last]; initially the uninitialised value [junk])
    but no longer the most recent one in the cache, i.e. was evicted. *)
Fixpoint sane (l : list lop) (last : Z) (r : ref) : Prop :=
  match l with
  | [] => True
  | o :: l' =>
      match o with
      | LInsert e => e = last -> hd_error (r_list r) = Some e
      | LPopBack => r_list r <> []
      | LPrune => True
      | LSetCap n => -1 <= n
      end /\
      sane l' (match o with LInsert e => e | _ => last end) (ref_step o r)
  end.

(** First occurrences. *)
Fixpoint firsts (l : list Z) : list Z :=
  match l with [] => [] | a :: l' => a :: filter (fun b => negb (b =? a)) (firsts l') end.
