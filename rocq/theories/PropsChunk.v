(* Properties C21-C29: one chunk, alone, concurrently and across a crash. *)
From Coq Require Import Permutation Sorted String.
From Verif Require Import Rust Prog Gorilla GorillaSpec Storage StorageSpec StorageProofs Labels Indexer IndexSpec
  Chunk ChunkSpec ChunkProofs ChunkFacts ConcSpec Conc CrashProofs.
Local Notation lab k v := (mkLabel (s2b k) (s2b v)).
Local Notation length := List.length.
Ltac labs_tac := repeat constructor; cbn; intuition discriminate.
Ltac set_tac := split; [labs_tac|split; [labs_tac|
  let l := fresh in let E := fresh in intros l E; first [discriminate E | injection E as <-; discriminate]]].
Ltac tp_tac := unfold tp_ok; cbn [fst snd tp_ts tp_val]; lia.
Ltac reqs_tac := unfold ireq, ireq_ok; repeat (apply Forall_cons; [split; [cbn [fst]; set_tac|tp_tac]|]); apply Forall_nil.
Ltac incr_tac := unfold all_increasing; vm_compute; repeat constructor.

(* a sled chunk and a history used in the examples *)
Definition ex_chunk : chunk := mkChunk SledStorage SledIndexer 10 100.
Definition ex_tikv : chunk := mkChunk (TiKvStorage [1; 2]) (TiKvIndexer [3]) 10 100.
Definition ex_hist : list ireq :=
  [([lab "job" "a"; lab "host" "x"], mkTp 20 7);
   ([lab "job" "a"; lab "host" "y"], mkTp 30 8);
   ([lab "host" "x"; lab "job" "a"], mkTp 40 9);
   ([lab "job" "b"], mkTp 100 1);
   ([lab "job" "a"; lab "host" "x"], mkTp 60 6)].
Lemma ex_hist_ok : Forall ireq_ok ex_hist.
Proof. unfold ex_hist. reqs_tac. Qed.
Definition no_timing : timing := fun _ => [].

(** C21 *)
Theorem C21_outside_refused : forall ch w ls p, w_locked w = false -> w_poisoned w = false ->
  ~ c_start ch < tp_ts p < c_end ch ->
  crun ch (chunk_insert ch ls p) w = Some (Err (OutOfRangeErr (c_start ch) (c_end ch)), w).
Proof. exact insert_outside. Qed.
Print Assumptions C21_outside_refused.
Theorem C21_inside_accepted : forall ch h ls p, Forall ireq_ok h -> Z.of_nat (length h) + 1 < 2 ^ 64 ->
  set_ok ls -> tp_ok p -> c_start ch < tp_ts p < c_end ch ->
  exists w w', after ch h = Some w /\ crun ch (chunk_insert ch ls p) w = Some (Ok tt, w') /\
    after ch (h ++ [(ls, p)]) = Some w'.
Proof. exact insert_inside. Qed.
Print Assumptions C21_inside_accepted.
Example C21_case : Forall ireq_ok ex_hist /\ set_ok [lab "job" "c"] /\ tp_ok (mkTp 99 3) /\
  (forall w, after ex_chunk ex_hist = Some w ->
    fst (match crun ex_chunk (chunk_insert ex_chunk [lab "job" "c"] (mkTp 99 3)) w with Some x => x | None => (Panic, w) end) = Ok tt /\
    crun ex_chunk (chunk_insert ex_chunk [lab "job" "c"] (mkTp 100 3)) w = Some (Err (OutOfRangeErr 10 100), w) /\
    crun ex_chunk (chunk_insert ex_chunk [lab "job" "c"] (mkTp 10 3)) w = Some (Err (OutOfRangeErr 10 100), w)).
Proof.
  split; [exact ex_hist_ok|]. split; [set_tac|]. split; [tp_tac|]. intros w E. vm_compute in E.
  injection E as <-. vm_compute. auto.
Qed.

(** C22 *)
Theorem C22_chunk_refines : forall ch bs o h q s e, bs_contract bs -> Forall ireq_ok h ->
  Z.of_nat (length h) < 2 ^ 64 -> Forall lab_ok q -> all_increasing (content_of ch h) -> s <= e ->
  exists w, after ch h = Some w /\
    crun ch (chunk_query ch bs o q s e) w = Some (query_spec ch (content_of ch h) q s e, w).
Proof. exact chunk_refines. Qed.
Print Assumptions C22_chunk_refines.
(* points in any order, any range, either backend: each series is read as if stored alone *)
Theorem C22_chunk_refines_any : forall ch bs o h q s e, Forall ireq_ok h -> Z.of_nat (length h) < 2 ^ 64 ->
  Forall lab_ok q ->
  exists w, after ch h = Some w /\
    crun ch (chunk_query ch bs o q s e) w =
    Some (if (e <? c_start ch) || (c_end ch <? s) then Err (OutOfRangeErr (c_start ch) (c_end ch))
          else collect (stored_read (c_storage ch) bs s e) (matching (content_of ch h) q), w).
Proof. exact chunk_refines_any. Qed.
Print Assumptions C22_chunk_refines_any.
Example C22_case : Forall ireq_ok ex_hist /\ all_increasing (content_of ex_chunk ex_hist) /\
  Forall lab_ok [lab "job" "a"] /\
  query_spec ex_chunk (content_of ex_chunk ex_hist) [lab "job" "a"] 25 50 =
  Ok [mkSeries 1 [lab "host" "x"; lab "job" "a"] [mkTp 40 9]; mkSeries 2 [lab "host" "y"; lab "job" "a"] [mkTp 30 8]].
Proof. split; [exact ex_hist_ok|]. split; [incr_tac|]. split; [labs_tac|]. vm_compute. reflexivity. Qed.

(** C23 (one chunk; the database: PropsDb) *)
Theorem C23_chunk_sound : forall ch bs o h q s e, Forall ireq_ok h -> Z.of_nat (length h) < 2 ^ 64 ->
  Forall lab_ok q ->
  exists w r, after ch h = Some w /\ crun ch (chunk_query ch bs o q s e) w = Some (r, w) /\
  forall l, r = Ok l -> forall x, In x l ->
    (forall p, In p (s_points x) -> exists ls, In (ls, p) h /\ same_set ls (s_meta x) /\ in_window ch (tp_ts p)) /\
    (forall lb, In lb q -> (exists ls p, In (ls, p) h /\ in_window ch (tp_ts p) /\ In lb ls) -> In lb (s_meta x)).
Proof. exact chunk_sound. Qed.
Print Assumptions C23_chunk_sound.
Theorem C23_chunk_in_range : forall ch bs o h q s e, bs_contract bs -> Forall ireq_ok h ->
  Z.of_nat (length h) < 2 ^ 64 -> Forall lab_ok q -> all_increasing (content_of ch h) -> s <= e ->
  exists w r, after ch h = Some w /\ crun ch (chunk_query ch bs o q s e) w = Some (r, w) /\
  forall l, r = Ok l -> forall x, In x l -> increasing (s_points x) /\ s_points x <> [] /\
    forall p, In p (s_points x) -> s <= tp_ts p <= e.
Proof. exact chunk_in_range. Qed.
Print Assumptions C23_chunk_in_range.
Example C23_case : exists w l, after ex_tikv ex_hist = Some w /\
  crun ex_tikv (chunk_query ex_tikv scan_bs no_timing [lab "host" "x"; lab "no" "1"] 15 45) w = Some (Ok l, w) /\
  l = [mkSeries 1 [lab "host" "x"; lab "job" "a"] [mkTp 20 7; mkTp 40 9]].
Proof. eexists _, _. split; [vm_compute; reflexivity|]. split; vm_compute; reflexivity. Qed.

(** C24 (one chunk) *)
Theorem C24_chunk_complete : forall ch bs o h q s e, bs_contract bs -> Forall ireq_ok h ->
  Z.of_nat (length h) < 2 ^ 64 -> Forall lab_ok q -> all_increasing (content_of ch h) -> s <= e ->
  c_start ch <= e -> s <= c_end ch ->
  let A := content_of ch h in
  exists w r, after ch h = Some w /\ crun ch (chunk_query ch bs o q s e) w = Some (r, w) /\
  ((forall ls pts, In (ls, pts) A -> matches A q ls = true -> touches s e pts) ->
     exists l, r = Ok l /\ forall ls pts, In (ls, pts) A -> matches A q ls = true -> within s e pts <> [] ->
       exists x, In x l /\ same_set ls (s_meta x) /\ s_points x = within s e pts) /\
  (~ (forall ls pts, In (ls, pts) A -> matches A q ls = true -> touches s e pts) ->
     exists a b, r = Err (OutOfRangeErr a b)).
Proof. exact chunk_complete. Qed.
Print Assumptions C24_chunk_complete.
(* every point inserted in the window under sled is in the content *)
Theorem C24_content_complete : forall ch h, c_storage ch = SledStorage -> Forall ireq_ok h -> forall ls p,
  In (ls, p) h -> in_window ch (tp_ts p) ->
  exists ls' pts, In (ls', pts) (content_of ch h) /\ same_set ls' ls /\ In p pts.
Proof. exact content_complete. Qed.
Print Assumptions C24_content_complete.
(* a query that fails as a whole although one series has points in the range *)
Example C24_case : exists w, after ex_chunk ex_hist = Some w /\
  (exists l, crun ex_chunk (chunk_query ex_chunk scan_bs no_timing [lab "job" "a"] 25 50) w = Some (Ok l, w)) /\
  crun ex_chunk (chunk_query ex_chunk scan_bs no_timing [lab "job" "a"] 35 50) w = Some (Err (OutOfRangeErr 30 30), w) /\
  (exists l, crun ex_chunk (chunk_query ex_chunk scan_bs no_timing [lab "host" "x"] 35 50) w = Some (Ok l, w) /\ l <> []).
Proof.
  eexists. split; [vm_compute; reflexivity|]. split; [eexists; vm_compute; reflexivity|].
  split; [vm_compute; reflexivity|]. eexists. split; [vm_compute; reflexivity|discriminate].
Qed.

(** C25 *)
Theorem C25_ids_unique : forall ch n0 ns sched w rs, 0 <= n0 -> w_next w = n0 -> n0 + Z.of_nat (total ns) < 2 ^ 64 ->
  fst (interleave (chandler ch) sched (map (fun n => draws n []) ns) w) = map (@Ret ccmd (list Z)) rs ->
  Permutation (concat rs) (upfrom n0 (total ns)) /\ NoDup (concat rs).
Proof. exact ids_unique. Qed.
Print Assumptions C25_ids_unique.
Example C25_case :
  fst (interleave (chandler ex_chunk) [0; 1; 1; 2; 0; 1]%nat (map (fun n => draws n []) [2; 3; 1]%nat) (new_world [] [])) =
  map (@Ret ccmd (list Z)) [[1; 5]; [2; 3; 6]; [4]].
Proof. reflexivity. Qed.

(** C26 *)
Theorem C26_insert_ignores_closed : forall ch ls p w b,
  crun ch (chunk_insert ch ls p) (set_closed w b) =
  option_map (fun x => (fst x, set_closed (snd x) b)) (crun ch (chunk_insert ch ls p) w).
Proof. exact insert_ignores_closed. Qed.
Print Assumptions C26_insert_ignores_closed.
Theorem C26_closed_refuses_refuted : exists ch h ls p w w1 w2 r,
  after ch h = Some w /\ crun ch chunk_close w = Some (Ok tt, w1) /\ crun ch chunk_is_closed w1 = Some (true, w1) /\
  crun ch (chunk_insert ch ls p) w1 = Some (Ok tt, w2) /\
  crun ch (chunk_query ch scan_bs no_timing ls (tp_ts p) (tp_ts p)) w2 = Some (Ok [r], w2) /\ s_points r = [p].
Proof.
  exists ex_chunk, ex_hist, [lab "job" "c"], (mkTp 50 5). eexists _, _, _, _.
  split; [vm_compute; reflexivity|]. split; [vm_compute; reflexivity|]. split; [vm_compute; reflexivity|].
  split; [vm_compute; reflexivity|]. split; vm_compute; reflexivity.
Qed.
Print Assumptions C26_closed_refuses_refuted.

(** C27 *)
Theorem C27_calls_serialised : forall ch ops sched w ts' w' rs, w_locked w = false ->
  interleave (chandler ch) sched (map (lop_prog ch) ops) w = (ts', w') -> ts' = map (@Ret ccmd (res unit)) rs ->
  let order := lock_order (chandler ch) sched (map (lop_prog ch) ops) w in
  Permutation order (seq 0 (length ops)) /\
  exists out, serial ch ops order w = Some (out, w') /\ map fst out = order /\
    forall i r, In (i, r) out -> nth_error rs i = Some r.
Proof. exact calls_serialised. Qed.
Print Assumptions C27_calls_serialised.
(* nothing but calls waiting for a finished one: no deadlock *)
Theorem C27_calls_progress : forall ch ops sched w ts' w', w_locked w = false ->
  interleave (chandler ch) sched (map (lop_prog ch) ops) w = (ts', w') ->
  (exists i p, nth_error ts' i = Some p /\ forall r, p <> Ret r) ->
  exists i p q w'', nth_error ts' i = Some p /\ step (chandler ch) p w' = Some (q, w'').
Proof. exact calls_progress. Qed.
Print Assumptions C27_calls_progress.
(* so concurrent inserts into a new chunk leave the state of some serial history of them *)
Theorem C27_inserts_some_order : forall ch reqs sched ts' w' rs,
  interleave (chandler ch) sched (map (fun r => chunk_insert ch (fst r) (snd r)) reqs) (new_world [] []) = (ts', w') ->
  ts' = map (@Ret ccmd (res unit)) rs ->
  exists h, Permutation h reqs /\ after ch h = Some w'.
Proof. exact inserts_some_order. Qed.
Print Assumptions C27_inserts_some_order.
(* three overlapping calls; thread 2 gets the lock first, thread 0 tries while it is taken *)
Example C27_case :
  let ops := [OpInsert [lab "a" "1"] (mkTp 20 0); OpClose; OpInsert [lab "a" "1"] (mkTp 30 1)] in
  let sched := ([2; 2; 0; 2; 1] ++ repeat 2 20 ++ [1; 0] ++ repeat 1 9 ++ repeat 0 20)%nat in
  let h := chandler ex_chunk in
  fst (interleave h sched (map (lop_prog ex_chunk) ops) (new_world [] [])) = map (@Ret ccmd (res unit)) [Ok tt; Ok tt; Ok tt] /\
  lock_order h sched (map (lop_prog ex_chunk) ops) (new_world [] []) = [2; 1; 0]%nat.
Proof. vm_compute. split; reflexivity. Qed.

(** C28 *)
Definition client (ch : chunk) (r : ireq) (q : list label) (s e : Z) : list (prog ccmd answer) :=
  [bind (chunk_insert ch (fst r) (snd r)) (fun x => Ret (Inserted x));
   bind (chunk_query ch scan_bs no_timing q s e) (fun x => Ret (Queried x))].
Theorem C28_query_not_atomic_refuted : exists ch h r q s e sched w w1 w2 before after_,
  after ch h = Some w /\ after ch (h ++ [r]) = Some w1 /\
  crun ch (chunk_query ch scan_bs no_timing q s e) w = Some (Ok before, w) /\ before <> [] /\
  crun ch (chunk_query ch scan_bs no_timing q s e) w1 = Some (Ok after_, w1) /\
  interleave (chandler ch) sched (client ch r q s e) w =
    ([Ret (Inserted (Ok tt)); Ret (Queried (Err NotFoundErr))], w2).
Proof.
  exists ex_chunk, ex_hist, ([lab "job" "a"; lab "host" "z"], mkTp 50 1), [lab "job" "a"], 25, 55,
    ([1] ++ repeat 0 10 ++ repeat 1 20 ++ repeat 0 20)%nat.
  eexists _, _, _, _, _. split; [vm_compute; reflexivity|]. split; [vm_compute; reflexivity|].
  split; [vm_compute; reflexivity|]. split; [discriminate|]. split; vm_compute; reflexivity.
Qed.
Print Assumptions C28_query_not_atomic_refuted.

(** C29 *)
Theorem C29_crash_store : forall ch h r n, Forall ireq_ok h -> ireq_ok r -> Z.of_nat (length h) + 1 < 2 ^ 64 ->
  exists w w1, after ch h = Some w /\ after ch (h ++ [r]) = Some w1 /\
    let w' := snd (crash_at (chandler ch) n (chunk_insert ch (fst r) (snd r)) w) in
    w_st w' = w_st w \/ w_st w' = w_st w1.
Proof. exact crash_store. Qed.
Print Assumptions C29_crash_store.
(* every series stored before is read back unchanged, or with the inserted point appended *)
Theorem C29_crash_points : forall ch bs h r n id ls pts, bs_contract bs -> Forall ireq_ok h -> ireq_ok r ->
  Z.of_nat (length h) + 1 < 2 ^ 64 ->
  all_increasing (content_of ch (h ++ [r])) -> In (id, (ls, pts)) (numbered 1 (content_of ch h)) -> increasing pts ->
  exists w pts', after ch h = Some w /\
    (pts' = pts \/ (pts' = pts ++ [snd r] /\ same_set ls (fst r) /\ in_window ch (tp_ts (snd r)))) /\
    forall s e, s <= e ->
      fst (krun (read_time_series (c_storage ch) bs id s e)
             (w_st (snd (crash_at (chandler ch) n (chunk_insert ch (fst r) (snd r)) w)))) =
      read_spec pts' s e.
Proof. exact crash_points. Qed.
Print Assumptions C29_crash_points.
Example C29_case :
  let r := ([lab "host" "x"; lab "job" "a"], mkTp 70 2) in
  ireq_ok r /\ all_increasing (content_of ex_chunk (ex_hist ++ [r])) /\
  In (1, ([lab "job" "a"; lab "host" "x"], [mkTp 20 7; mkTp 40 9; mkTp 60 6])) (numbered 1 (content_of ex_chunk ex_hist)).
Proof. cbv zeta. split; [split; [cbn [fst]; set_tac|tp_tac]|]. split; [incr_tac|]. vm_compute. auto. Qed.
(* but a query answered before may fail after the crash and a restart *)
Theorem C29_queries_survive_refuted : exists ch h r n q s e w l,
  Forall ireq_ok h /\ ireq_ok r /\ after ch h = Some w /\
  crun ch (chunk_query ch scan_bs no_timing q s e) w = Some (Ok l, w) /\ l <> [] /\
  let w' := snd (crash_at (chandler ch) n (chunk_insert ch (fst r) (snd r)) w) in
  let restarted := new_world (w_st w') (w_ix w') in
  crun ch (chunk_query ch scan_bs no_timing q s e) restarted = Some (Err NotFoundErr, restarted).
Proof.
  exists ex_chunk, ex_hist, ([lab "job" "a"; lab "host" "z"], mkTp 50 1), 10%nat, [lab "job" "a"], 25, 55.
  eexists _, _. split; [exact ex_hist_ok|]. split; [split; [cbn [fst]; set_tac|tp_tac]|]. split; [vm_compute; reflexivity|].
  split; [vm_compute; reflexivity|]. split; [discriminate|]. vm_compute. reflexivity.
Qed.
Print Assumptions C29_queries_survive_refuted.
