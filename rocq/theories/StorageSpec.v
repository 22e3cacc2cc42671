(* Specification vocabulary for the point stores.  It does not mention keys, bytes or the
   store's programs. *)
From Verif Require Import Rust Prog Gorilla GorillaSpec Storage.

(* an append request: series id and point *)
Definition areq := (Z * tp)%type.
Definition app_ok (a : areq) : Prop := 0 <= fst a < 2 ^ 64 /\ tp_ok (snd a).

(* the points appended to series id, in order *)
Definition points_of (id : Z) (h : list areq) : list tp :=
  map snd (filter (fun a => fst a =? id) h).

(* the points of a closed time interval *)
Definition within (s e : Z) (l : list tp) : list tp :=
  filter (fun p => (s <=? tp_ts p) && (tp_ts p <=? e)) l.

(* strictly increasing in time *)
Fixpoint increasing (l : list tp) : Prop :=
  match l with
  | [] => True
  | p :: l' => Forall (fun q => tp_ts p < tp_ts q) l' /\ increasing l'
  end.

(* documented contract of slice::binary_search on a slice sorted by timestamp: Ok(i) names an
   element equal to the target; Err(i) means that there is none and i is where it would be
   inserted *)
Definition sorted_ts (l : list tp) : Prop :=
  forall i j p q, (i <= j)%nat -> nth_error l i = Some p -> nth_error l j = Some q ->
    tp_ts p <= tp_ts q.
Definition bs_contract (bs : bsearch) : Prop :=
  forall l t, sorted_ts l ->
    match bs l t with
    | Found i => exists p, nth_error l i = Some p /\ tp_ts p = t
    | Missing i => (i <= length l)%nat /\
        (forall j p, nth_error l j = Some p -> (j < i)%nat -> tp_ts p < t) /\
        (forall j p, nth_error l j = Some p -> (i <= j)%nat -> t < tp_ts p)
    end.

(* one concrete search with that contract: from the left *)
Fixpoint scan (l : list tp) (t : Z) (i : nat) : found :=
  match l with
  | [] => Missing i
  | p :: l' => if tp_ts p =? t then Found i
               else if t <? tp_ts p then Missing i else scan l' t (S i)
  end.
Definition scan_bs : bsearch := fun l t => scan l t 0.

(* the read answer for a series with the given points, for increasing series and s <= e *)
Definition read_spec (pts : list tp) (s e : Z) : res (list tp) :=
  match pts with
  | [] => Err NotFoundErr
  | f :: _ =>
      let l := last pts f in
      if (e <? tp_ts f) || (tp_ts l <? s) then Err (OutOfRangeErr (tp_ts f) (tp_ts l))
      else Ok (within s e pts)
  end.

(* a client appending a history, dropping the results *)
Fixpoint apply_apps (st : storage) (h : list areq) (s : kv) : kv :=
  match h with
  | [] => s
  | (id, p) :: h' => apply_apps st h' (snd (krun (write_time_point st id (tp_ts p) (tp_val p)) s))
  end.

(* the points of series id that a store refusing non-increasing timestamps keeps *)
Fixpoint accepted (l : list tp) (kept : list tp) : list tp :=
  match l with
  | [] => kept
  | p :: l' =>
      accepted l'
        (match kept with
         | [] => [p]
         | q :: _ => if tp_ts (last kept q) <? tp_ts p then kept ++ [p] else kept
         end)
  end.
