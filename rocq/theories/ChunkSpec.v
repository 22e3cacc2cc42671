(* Specification vocabulary for chunks: a chunk is a list of (label set, points), in order of
   first insertion.  No ids, keys, stores or locks. *)
From Verif Require Import Rust Prog Gorilla GorillaSpec Storage StorageSpec Labels IndexSpec Chunk.

(* an insert request *)
Definition ireq := (list label * tp)%type.
Definition ireq_ok (r : ireq) : Prop := set_ok (fst r) /\ tp_ok (snd r).

(* the content of a chunk *)
Definition content := list (list label * list tp).

(* does the store keep a point after the given ones?  sled keeps every point, TiKV only points
   later than the last one *)
Definition keeps (st : storage) (pts : list tp) (p : tp) : bool :=
  match st with
  | SledStorage => true
  | TiKvStorage _ => match pts with [] => true | q :: _ => tp_ts (last pts q) <? tp_ts p end
  end.

Fixpoint add_point (st : storage) (A : content) (ls : list label) (p : tp) : content :=
  match A with
  | [] => [(ls, [p])]
  | (ls', pts) :: A' =>
      if same_setb ls' ls
      then (ls', if keeps st pts p then pts ++ [p] else pts) :: A'
      else (ls', pts) :: add_point st A' ls p
  end.

(* strictly inside the window *)
Definition in_window (ch : chunk) (t : Z) : Prop := c_start ch < t < c_end ch.
Definition in_windowb (ch : chunk) (t : Z) : bool := (c_start ch <? t) && (t <? c_end ch).

Definition ins (ch : chunk) (A : content) (r : ireq) : content :=
  if in_windowb ch (tp_ts (snd r)) then add_point (c_storage ch) A (fst r) (snd r) else A.
(* the content after a history of inserts *)
Definition content_of (ch : chunk) (h : list ireq) : content := fold_left (ins ch) h [].

(* running alone *)
Definition crun {A} (ch : chunk) (p : prog ccmd A) (w : cworld) : option (A * cworld) :=
  run (chandler ch) p w.
(* the state of a new chunk after a history of inserts (None: some insert never returns) *)
Fixpoint after_from (ch : chunk) (h : list ireq) (w : cworld) : option cworld :=
  match h with
  | [] => Some w
  | r :: h' => match crun ch (chunk_insert ch (fst r) (snd r)) w with
               | Some (_, w') => after_from ch h' w'
               | None => None
               end
  end.
Definition after (ch : chunk) (h : list ireq) : option cworld := after_from ch h (new_world [] []).

(* the series of a content, numbered from 1 *)
Fixpoint numbered (n : Z) (A : content) : list (Z * (list label * list tp)) :=
  match A with [] => [] | e :: A' => (n, e) :: numbered (n + 1) A' end.

(* label l occurs in some series *)
Definition occurs (A : content) (l : label) : bool := existsb (fun e => has (fst e) l) A.
(* the series matching a search: they have every searched label that occurs at all; none if no
   searched label occurs *)
Definition matches (A : content) (q : list label) (ls : list label) : bool :=
  existsb (occurs A) q && forallb (fun l => negb (occurs A l) || has ls l) q.
Definition matching (A : content) (q : list label) : list (Z * (list label * list tp)) :=
  filter (fun e => matches A q (fst (snd e))) (numbered 1 A).

(* answer a query: read each matching series; the first failing read fails the query; empty
   answers are left out; labels are reported in name order *)
Fixpoint collect (rd : list tp -> res (list tp)) (m : list (Z * (list label * list tp)))
  : res (list series) :=
  match m with
  | [] => Ok []
  | (id, (ls, pts)) :: m' =>
      let* d := rd pts in
      let* rest := collect rd m' in
      Ok (match d with [] => rest | _ => mkSeries id (sort_labels ls) d :: rest end)
  end.
(* the query answer of a chunk with content A, for increasing series and s <= e *)
Definition query_spec (ch : chunk) (A : content) (q : list label) (s e : Z) : res (list series) :=
  if (e <? c_start ch) || (c_end ch <? s) then Err (OutOfRangeErr (c_start ch) (c_end ch))
  else collect (fun pts => read_spec pts s e) (matching A q).

(* every series is strictly increasing in time *)
Definition all_increasing (A : content) : Prop := Forall (fun e => increasing (snd e)) A.

(* the answer of a point store holding one series with the given points, in any order *)
Definition stored_read (st : storage) (bs : bsearch) (s e : Z) (pts : list tp) : res (list tp) :=
  fst (krun (read_time_series st bs 0 s e) (apply_apps st (map (pair 0) pts) [])).

(* some point not after e and some point not before s *)
Definition touches (s e : Z) (pts : list tp) : Prop :=
  (exists p, In p pts /\ tp_ts p <= e) /\ (exists p, In p pts /\ s <= tp_ts p).
