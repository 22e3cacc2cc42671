(* Specification vocabulary for clients, queries and the swap thread at work at the same time. *)
From Verif Require Import Rust Prog Gorilla Storage Labels IndexSpec Indexer Chunk ChunkSpec TiKvInit Db DbSpec SwapSpec.

(* what a client asks for *)
Inductive wcall :=
| WPoint (ls : list label) (p : tp)
| WBatch (ls : list label) (pts : list tp).
Definition wcall_prog (c : wcall) : prog dcmd (res unit) :=
  match c with
  | WPoint ls p => db_write_point ls p
  | WBatch ls pts => db_write_points ls pts
  end.
(* what a thread returns: the results of its calls, in order *)
Inductive wanswer :=
| Wrote (rs : list (res unit))
| Rotated (rs : list (res unit))
| Answered (rs : list (res (list (list label * list tp)))).

(* calls one after the other; a panic ends the thread *)
Fixpoint sequence {A} (ps : list (prog dcmd (res A))) : prog dcmd (list (res A)) :=
  match ps with
  | [] => Ret []
  | p :: ps' =>
      let! r := p in
      match r with
      | Panic => Ret [Panic]
      | _ => let! rs := sequence ps' in Ret (r :: rs)
      end
  end.
(* a thread writing; the swap thread, given the starts of the coming chunks; a thread querying *)
Definition client (cs : list wcall) : prog dcmd wanswer :=
  let! rs := sequence (map wcall_prog cs) in Ret (Wrote rs).
Definition rotator (cf : config) (starts : list Z) : prog dcmd wanswer :=
  let! rs := sequence (map (db_swap cf) starts) in Ret (Rotated rs).
Definition ask_prog (a : ask) : prog dcmd (res (list (list label * list tp))) :=
  db_query (k_hs a) (k_bs a) (k_timing a) (k_labels a) (k_from a) (k_to a).
Definition querier (qs : list ask) : prog dcmd wanswer :=
  let! rs := sequence (map ask_prog qs) in Ret (Answered rs).
(* the swap thread is number 0, then the clients, then the queries *)
Definition threads (cf : config) (starts : list Z) (cs : list (list wcall)) (qs : list (list ask)) : list (prog dcmd wanswer) :=
  rotator cf starts :: map client cs ++ map querier qs.

(* one operation of one thread, and its result *)
Record event := mkEv { e_who : nat; e_op : dop; e_res : res unit }.
(* the operations of one thread, in order *)
Definition of_thread (i : nat) (log : list event) : list (dop * res unit) :=
  map (fun e => (e_op e, e_res e)) (filter (fun e => (e_who e =? i)%nat) log).
(* one after the other, from w to w' *)
Definition one_by_one (cf : config) (log : list event) (w w' : dworld) : Prop :=
  db_after_from cf (map e_op log) w = Some (map e_res log, w').

(* the operations a client's calls consist of: a batch is its points, one by one, and fails when
   one of them fails *)
Definition is_err {A} (r : res A) : bool := match r with Err _ => true | _ => false end.
Inductive session : list wcall -> list (dop * res unit) -> list (res unit) -> Prop :=
| Se_end : session [] [] []
| Se_point ls p r cs es rs : session cs es rs -> session (WPoint ls p :: cs) ((OpPoint ls p, r) :: es) (r :: rs)
| Se_batch ls pts us cs es rs : length us = length pts -> session cs es rs ->
    session (WBatch ls pts :: cs) (map (fun pu => (OpBatch ls [fst pu], snd pu)) (combine pts us) ++ es)
            ((if existsb is_err us then Err InternalErr else Ok tt) :: rs).
(* the swaps of the swap thread; a panic ends it *)
Inductive rotations : list Z -> list (dop * res unit) -> list (res unit) -> Prop :=
| Ro_end : rotations [] [] []
| Ro_swap s r ss es rs : r <> Panic -> rotations ss es rs -> rotations (s :: ss) ((OpSwap s, r) :: es) (r :: rs)
| Ro_panic s ss : rotations (s :: ss) [(OpSwap s, Panic)] [Panic].

(* the label set of a call *)
Definition call_labels (c : wcall) : list label := match c with WPoint ls _ => ls | WBatch ls _ => ls end.
(* Uuid::new_v4 returns 16 bytes *)
Definition uuids_ok (f : fworld) : Prop := forall n, length (f_uuid f n) = 16%nat.
(* label sets the index can tell apart; sled's index needs nothing for what follows *)
Definition calls_ok (cf : config) (cs : list (list wcall)) : Prop :=
  cf_ix cf = Sled \/ Forall (Forall (fun c => set_ok (call_labels c))) cs.
Definition ops_fit (cf : config) (ops : list dop) : Prop :=
  cf_ix cf = Sled \/ Forall (fun o => match o with OpPoint ls _ => set_ok ls | OpBatch ls _ => set_ok ls | OpSwap _ => True end) ops.

(* some operations as events of one thread *)
Definition evs (i : nat) (es : list (dop * res unit)) : list event := map (fun e => mkEv i (fst e) (snd e)) es.
(* a history in the making: at its n-th step the schedule lets a thread move, which then performs the
   operations [nth_error E n] *)
Definition logged (sched : list nat) (E : list (list (dop * res unit))) : list event :=
  concat (map (fun x => evs (fst x) (snd x)) (combine sched E)).
(* has thread i returned after the first n steps? *)
Definition returned (ts : list (prog dcmd wanswer)) (w : dworld) (sched : list nat) (n i : nat) : Prop :=
  exists a, nth_error (fst (interleave dhandler (firstn n sched) ts w)) i = Some (Ret a).
