(* Specification vocabulary for what queries answer while clients write and the swap thread works. *)
From Coq Require Import Permutation.
From Verif Require Import Rust Prog Gorilla GorillaSpec Storage StorageSpec Labels IndexSpec Indexer Chunk ChunkSpec ConcSpec
  TiKvInit Db DbSpec RangeSpec SwapSpec WritersSpec FaultsSpec ReadsSpec.

(* the points a client writes *)
Definition call_points (c : wcall) : list ireq :=
  match c with WPoint ls p => [(ls, p)] | WBatch ls pts => map (pair ls) pts end.
Definition points_of (cs : list wcall) : list ireq := concat (map call_points cs).

(* the work at hand, after the history ops: the swap thread goes forward in time, the points are
   well formed, and there are not too many of them *)
Definition work_ok (cf : config) (t0 : Z) (ops : list dop) (starts : list Z) (cs : list (list wcall)) : Prop :=
  starts_ok cf (last_start t0 ops) (map OpSwap starts) /\ Forall (fun c => Forall ireq_ok (points_of c)) cs /\
  Z.of_nat (length (written ops) + length (concat (map points_of cs))) < 2 ^ 64 - 1.

(* the chunks after the history ops and the events of a log; a swap that failed has not happened *)
Definition chunks_after (cf : config) (t0 : Z) (ops : list dop) (rs : list (res unit)) (log : list event) : list part :=
  parts cf t0 (performed (ops ++ map e_op log) (rs ++ map e_res log)).

(* the log without the write in the making, if there is one: the last event of its client *)
Definition done_of (log acked : list event) (pend : option event) : Prop :=
  match pend with
  | None => acked = log
  | Some e => exists a b, log = a ++ e :: b /\ acked = a ++ b /\ e_who e <> 0%nat /\ Forall (fun x => e_who x <> e_who e) b
  end.

(* one visit of a chunk: its window, and the series looked at, numbered as in the chunk *)
Definition view := (chunk * list (Z * (list label * list tp)))%type.
(* the points the visit adds to the answer for the label set m (in name order): those of the range,
   unless the window misses the range or one of the series looked at does not reach it *)
Definition glimpse (v : view) (s e : Z) (m : list label) : list tp :=
  if (c_start (fst v) <=? e) && (s <=? c_end (fst v)) && forallb (fun x => touchesb s e (snd (snd x))) (snd v) then
    match find (fun x => labs_eqb (sort_labels (fst (snd x))) m) (snd v) with
    | Some x => within s e (snd (snd x))
    | None => []
    end
  else [].

Definition content_at (l : list part) (j : nat) : content :=
  match nth_error l j with Some c => snd c | None => [] end.

(* the visit brings a query from s back to e down: both instants lie in the window of the chunk, and one of the series
   looked at has points up to e, points from s on and points between, those looked at before it having points up to e
   and points from s on, but none between *)
Definition upset (v : view) (s e : Z) : Prop :=
  e < s /\ (c_start (fst v) <= e /\ s <= c_end (fst v)) /\
  exists before id ls pts after, snd v = before ++ (id, (ls, pts)) :: after /\
    (forall id' ls' pts', In (id', (ls', pts')) before -> touches s e pts' /\ ~ gap s e pts') /\ touches s e pts /\ gap s e pts.

(* vs are the visits of a query that ran while the chunks grew from l0 to l1.  It visited the chunk i,
   current at some moment, and then the chunks 0 .. k-1, at some moment the old ones; in each
   of them it saw something between what was there at first and what is there in the end ([seen],
   ReadsSpec.v) *)
Definition visits (l0 l1 : list part) (q : list label) (vs : list view) : Prop :=
  exists k i, (length l0 <= S i)%nat /\ (i <= k <= length l1)%nat /\ (i < length l1)%nat /\
    Forall2 (fun j v => exists A, nth_error l1 j = Some (fst v, A) /\ seen (content_at l0 j) A q (snd v)) (seq 0 k ++ [i]) vs.
(* r is the answer of such a query *)
Definition between (l0 l1 : list part) (q : list label) (s e : Z) (r : list (list label * list tp)) : Prop :=
  exists vs, visits l0 l1 q vs /\ (forall v, In v vs -> ~ upset v s e) /\ NoDup (map fst r) /\
    forall m pts, In (m, pts) r <-> pts <> [] /\ pts = concat (map (fun v => glimpse v s e m) vs).
(* one of the visits of such a query brought it down *)
Definition broke_down (l0 l1 : list part) (q : list label) (s e : Z) : Prop :=
  exists vs v, visits l0 l1 q vs /\ In v vs /\ upset v s e.
(* what became of such a query *)
Definition query_outcome (l0 l1 : list part) (q : list label) (s e : Z) (o : res (list (list label * list tp))) : Prop :=
  (exists r, o = Ok r /\ between l0 l1 q s e r) \/ (o = Panic /\ broke_down l0 l1 q s e).

(* has the label set a searched label? *)
Definition wanted (q : list label) (ls : list label) : Prop := exists l, In l q /\ has ls l = true.
(* the hash map never compares a label set with a searched label with a proper prefix of it (labels in
   name order), see DbSpec.v *)
Definition unmixed_sets (hs : hasher) (l : list part) (q : list label) : Prop :=
  tells_apart hs (fun m => exists c x, In c l /\ In x (snd c) /\ wanted q (fst x) /\ m = sort_labels (fst x)).

(* a query as a client may ask it *)
Definition asks (a : ask) : Prop :=
  hasher_ok (k_hs a) /\ bs_contract (k_bs a) /\ Forall lab_ok (k_labels a).

(* the chunks l1 are those of l0, with points added, and maybe further chunks *)
Definition grew (l0 l1 : list part) : Prop :=
  forall j c A, nth_error l0 j = Some (c, A) -> exists A', nth_error l1 j = Some (c, A') /\ grown A A'.
(* no series with a searched label came up in a chunk *)
Definition settled (l0 l1 : list part) (q : list label) : Prop :=
  forall j c A i x, nth_error l1 j = Some (c, A) -> nth_error A i = Some x -> (length (content_at l0 j) <= i)%nat -> ~ wanted q (fst x).
(* a label set has one series per chunk *)
Definition sets_once (l : list part) : Prop :=
  forall c, In c l -> NoDup (map (fun x => sort_labels (fst x)) (snd c)).

(* each client has label sets of its own, and writes the points of each in time order, later than
   those already there *)
Definition own_series (ops : list dop) (cs : list (list wcall)) : Prop :=
  timely (written ops) /\ Forall (fun c => timely (written ops ++ points_of c)) cs /\
  forall i j c c' r r', i <> j -> nth_error cs i = Some c -> nth_error cs j = Some c' ->
    In r (points_of c) -> In r' (points_of c') -> ~ Permutation (fst r) (fst r').

(* the log tells what the threads have done since w: with the results given, one operation after
   the other, each thread's operations in its own order; a thread that has returned reports them all *)
Definition explains (cf : config) (starts : list Z) (cs : list (list wcall)) (w : dworld)
    (now : list (prog dcmd wanswer) * dworld) (log : list event) : Prop :=
  (exists v, one_by_one cf log w v /\ ((forall p, In p (fst now) -> finished p) -> v = snd now)) /\
  Forall (fun e => e_who e <= length cs)%nat log /\
  (exists rest rs, rotations starts (of_thread 0 log ++ rest) rs /\
     forall a, nth_error (fst now) 0 = Some (Ret a) -> rest = [] /\ a = Rotated rs) /\
  forall i c, nth_error cs i = Some c -> exists rest rs, session c (of_thread (S i) log ++ rest) rs /\
     forall a, nth_error (fst now) (S i) = Some (Ret a) -> rest = [] /\ a = Wrote rs.

(* a single write that was answered with success: one of the history, or one of a client that has returned *)
Definition acknowledged (ops : list dop) (rs0 : list (res unit)) (cs : list (list wcall)) (ts : list (prog dcmd wanswer)) (ls : list label) (p : tp) : Prop :=
  (exists m, nth_error ops m = Some (OpPoint ls p) /\ nth_error rs0 m = Some (Ok tt)) \/
  (exists i c ws m, nth_error cs i = Some c /\ nth_error ts (S i) = Some (Ret (Wrote ws)) /\ nth_error c m = Some (WPoint ls p) /\ nth_error ws m = Some (Ok tt)).
(* ls is the only label set written to that has searched labels *)
Definition only_set (ops : list dop) (cs : list (list wcall)) (q ls : list label) : Prop :=
  forall r, In r (written ops ++ concat (map points_of cs)) -> wanted q (fst r) -> same_set (fst r) ls.
