(* Specification vocabulary for queries that run while other threads insert into the same chunk. *)
From Verif Require Import Rust Prog Gorilla GorillaSpec Storage StorageSpec Labels IndexSpec Chunk ChunkSpec ConcSpec.

(* a call of a client thread on a chunk; [o] is the timing of the query's intersection threads *)
Inductive cop := Ins (r : ireq) | Ask (o : timing) (q : list label) (s e : Z).
Definition cop_prog (ch : chunk) (bs : bsearch) (c : cop) : prog ccmd answer :=
  match c with
  | Ins r => bind (chunk_insert ch (fst r) (snd r)) (fun x => Ret (Inserted x))
  | Ask o q s e => bind (chunk_query ch bs o q s e) (fun x => Ret (Queried x))
  end.
Definition cop_ok (c : cop) : Prop :=
  match c with Ins r => ireq_ok r | Ask _ q _ _ => Forall lab_ok q end.

(* the insert requests of the calls named *)
Fixpoint reqs_of (ops : list cop) (order : list nat) : list ireq :=
  match order with
  | [] => []
  | i :: order' => match nth_error ops i with Some (Ins r) => [r] | _ => [] end ++ reqs_of ops order'
  end.

(* the inserts that have taken the write lock along a schedule, in that order *)
Definition begun (ch : chunk) (bs : bsearch) (ops : list cop) (sched : list nat) (w : cworld) : list nat :=
  lock_order (chandler ch) sched (map (cop_prog ch bs) ops) w.
(* the threads after a schedule *)
Definition threads (ch : chunk) (bs : bsearch) (ops : list cop) (sched : list nat) (w : cworld) : list (prog ccmd answer) :=
  fst (interleave (chandler ch) sched (map (cop_prog ch bs) ops) w).
Definition returnedb {A} (t : option (prog ccmd A)) : bool := match t with Some (Ret _) => true | _ => false end.
(* those of them that had returned after the first part of the schedule *)
Definition acked (ch : chunk) (bs : bsearch) (ops : list cop) (s1 s2 : list nat) (w : cworld) : list nat :=
  filter (fun i => returnedb (nth_error (threads ch bs ops s1 w) i)) (begun ch bs ops (s1 ++ s2) w).

(* the result of an insert *)
Definition insert_result (ch : chunk) (r : ireq) : res unit :=
  if in_windowb ch (tp_ts (snd r)) then Ok tt else Err (OutOfRangeErr (c_start ch) (c_end ch)).

Definition prefix {A} (a b : list A) : Prop := exists c, b = a ++ c.

(* A1 has the series of A0, in the same places, each with points added at the end at most *)
Definition grown (A0 A1 : content) : Prop := forall i ls pts, nth_error A0 i = Some (ls, pts) ->
  exists pts', nth_error A1 i = Some (ls, pts') /\ prefix pts pts'.

(* what a query for [q] may look at while the content of the chunk grows from A0 to A1: a list of
   series, in order of first insertion *)
Record seen (A0 A1 : content) (q : list label) (M : list (Z * (list label * list tp))) : Prop := mkSeen {
  (* in order, each once *)
  se_order : ascending (map fst M);
  (* a series of the final content, with an initial part of its points *)
  se_real : forall id ls pts, In (id, (ls, pts)) M ->
    exists pts1, In (id, (ls, pts1)) (numbered 1 A1) /\ prefix pts pts1;
  (* with all the points it had at first *)
  se_points : forall id ls pts pts0, In (id, (ls, pts)) M -> In (id, (ls, pts0)) (numbered 1 A0) -> prefix pts0 pts;
  (* it has one of the searched labels, and every searched label that occurred at first *)
  se_some : forall id ls pts, In (id, (ls, pts)) M -> exists l, In l q /\ has ls l = true;
  se_every : forall id ls pts l, In (id, (ls, pts)) M -> In l q -> occurs A0 l = true -> has ls l = true;
  (* no series is missed that was there at first and matches in the end *)
  se_all : forall id ls pts0, In (id, (ls, pts0)) (numbered 1 A0) -> matches A1 q ls = true ->
    exists pts, In (id, (ls, pts)) M }.

(* the answer for the series looked at *)
Definition answer_from (ch : chunk) (rd : list tp -> res (list tp)) (M : list (Z * (list label * list tp))) (s e : Z)
  : res (list series) :=
  if (e <? c_start ch) || (c_end ch <? s) then Err (OutOfRangeErr (c_start ch) (c_end ch)) else collect rd M.

(* the content of the chunk when the inserts acknowledged by the end of s1 are done, after the history h;
   and when all those begun by the end of s1 ++ s2 are *)
Definition content_acked (ch : chunk) (bs : bsearch) (h : list ireq) (ops : list cop) (s1 s2 : list nat) (w : cworld) : content :=
  content_of ch (h ++ reqs_of ops (acked ch bs ops s1 s2 w)).
Definition content_begun (ch : chunk) (bs : bsearch) (h : list ireq) (ops : list cop) (sched : list nat) (w : cworld) : content :=
  content_of ch (h ++ reqs_of ops (begun ch bs ops sched w)).
