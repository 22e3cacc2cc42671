(* Properties C59 and C60 on a directory that earlier processes have left. *)
From Coq Require Import String Permutation.
From Verif Require Import Rust Prog Gorilla GorillaSpec Storage StorageSpec StorageProofs Labels Indexer IndexSpec LabelProofs
  Chunk ChunkSpec ChunkProofs ChunkFacts Utils DirSpec TiKvInit Db DbSpec DbProofs DbHist RangeSpec RangeProofs DbFacts ReopenSpec LossSpec LossDbSpec PropsChunk PropsDb PropsReopen PropsLossDb
  FaultsSpec SwapSpec SwapMain PropsSwap ReadsSpec WritersSpec WritersMain PropsWriters SharedSpec SharedFacts SharedAck PropsShared AgainSpec Again.
Local Notation lab k v := (mkLabel (s2b k) (s2b v)).
Local Notation length := List.length.

(** C59: after any earlier processes, each of which stopped or ended in a power failure, the
    directory is opened again; then any file operations fail.  The answers are those of the chunks
    left and of a database that was never asked for the swaps that failed *)
Theorem C59_reopened : forall f L cf w1, env_ok f -> empty_dir f -> monotone (f_clock f) ->
  lives_ok (f_clock f) (f_ticks f) 0 (-1) (map fst (once_more L cf)) -> live_off (once_more L cf) f = Some w1 ->
  let t0 := opened_at (f_clock f) (f_ticks f) 0 L in
  forall fl ops, ops_ok cf t0 ops ->
  exists rs w u, db_after_from cf ops (failing fl w1) = Some (rs, w) /\ reported cf t0 ops rs /\
    fl = u ++ f_faults (d_fs w) /\ (~ In true u -> performed ops rs = ops) /\
    forall hs bs o q s e, timely (life_written (map fst L)) -> timely (written ops) -> hasher_ok hs -> bs_contract bs -> Forall lab_ok q ->
      let chunks := left_parts (f_clock f) (f_ticks f) 0 L ++ parts cf t0 (performed ops rs) in
      unmixed hs chunks q s e -> exists r, drun (db_query hs bs o q s e) w = Some (r, w) /\ comes_to chunks q s e r.
Proof. exact faulty_again. Qed.
Print Assumptions C59_reopened.

(** C60: then any number of clients, queries and the swap thread work on it, interleaved in any
    way.  A query has an outcome between the chunks there when it started and those there when it was done,
    all of them after the chunks left by the earlier processes *)
Theorem C60_reopened : forall f L cf w1, env_ok f -> empty_dir f -> monotone (f_clock f) ->
  lives_ok (f_clock f) (f_ticks f) 0 (-1) (map fst (once_more L cf)) -> live_off (once_more L cf) f = Some w1 ->
  let t0 := opened_at (f_clock f) (f_ticks f) 0 L in
  forall fl ops rs0 starts cs qs w sched,
  ops_ok cf t0 ops -> db_after_from cf ops (failing fl w1) = Some (rs0, w) -> work_ok cf t0 ops starts cs -> timely (life_written (map fst L)) ->
  exists old, Forall2 reread (left_parts (f_clock f) (f_ticks f) 0 L) old /\
  let at_ n := interleave dhandler (firstn n sched) (threads cf starts cs qs) w in
  let chunks_of log := old ++ chunks_after cf t0 ops rs0 log in
  exists E, length E = length sched /\
    (forall n i a, nth_error sched n = Some i -> nth_error (fst (at_ n)) i = Some (Ret a) -> nth_error E n = Some []) /\
    (forall n, explains cf starts cs w (at_ n) (logged (firstn n sched) E)) /\
    forall k a n1 n2 rs, let j := S (length cs + k) in
      nth_error qs k = Some [a] -> asks a -> ~ In j (firstn n1 sched) -> nth_error (fst (at_ n2)) j = Some (Ret (Answered rs)) ->
      let before := logged (firstn n1 sched) E in let upto := logged (firstn n2 sched) E in
      unmixed_sets (k_hs a) (chunks_of upto) (k_labels a) -> timely (written (ops ++ map e_op upto)) ->
      exists acked pend r, rs = [r] /\ done_of before acked pend /\
        (forall e, pend = Some e -> exists p, nth_error (fst (at_ n1)) (e_who e) = Some p /\ ~ finished p) /\
        grew (chunks_of acked) (chunks_of upto) /\ sets_once (chunks_of upto) /\
        query_outcome (chunks_of acked) (chunks_of upto) (k_labels a) (k_from a) (k_to a) r.
Proof. exact shared_again. Qed.
Print Assumptions C60_reopened.

(** a write is found if it was answered with success before the query started: by this process, or
    by an earlier one that lost nothing when it ended *)
Theorem C60_reopened_acknowledged : forall f L cf w1, env_ok f -> empty_dir f -> monotone (f_clock f) ->
  lives_ok (f_clock f) (f_ticks f) 0 (-1) (map fst (once_more L cf)) -> live_off (once_more L cf) f = Some w1 ->
  let t0 := opened_at (f_clock f) (f_ticks f) 0 L in
  forall fl ops rs0 starts cs qs w sched k a n1 n2 rs ls p,
  ops_ok cf t0 ops -> db_after_from cf ops (failing fl w1) = Some (rs0, w) -> work_ok cf t0 ops starts cs -> timely (life_written (map fst L)) -> own_series ops cs ->
  let at_ n := fst (interleave dhandler (firstn n sched) (threads cf starts cs qs) w) in let j := S (length cs + k) in
  nth_error qs k = Some [a] -> asks a -> ~ In j (firstn n1 sched) -> nth_error (at_ n2) j = Some (Ret (Answered rs)) ->
  accepted_before (f_clock f) (f_ticks f) 0 L ls p \/ acknowledged ops rs0 cs (at_ n1) ls p -> k_labels a <> [] -> incl (k_labels a) ls ->
  only_set ops cs (k_labels a) ls -> (forall r, In r (life_written (map fst L)) -> wanted (k_labels a) (fst r) -> same_set (fst r) ls) -> k_from a <= tp_ts p <= k_to a ->
  exists r ps, rs = [Ok r] /\ In (sort_labels ls, ps) r /\ In p ps.
Proof. exact acknowledged_again. Qed.
Print Assumptions C60_reopened_acknowledged.

(* two processes, the first ended by a power failure; in the third one the first swap fails *)
Definition ag_lives : list (life * list nat) :=
  [(mkLife (ex_config Sled Sled) ex_ops, [1; 2]%nat);
   (mkLife (ex_config Sled Sled) [OpPoint [lab "host" "x"; lab "job" "a"] (mkTp 4050 10); OpSwap 4200; OpPoint [lab "host" "y"; lab "job" "a"] (mkTp 4250 11)], [])].
Definition ag_ops : list dop := [OpPoint [lab "host" "y"; lab "job" "a"] (mkTp 9010 12)].
Definition ag_calls : list (list wcall) :=
  [[WPoint [lab "host" "y"; lab "job" "a"] (mkTp 9050 13); WPoint [lab "host" "y"; lab "job" "a"] (mkTp 9060 14)];
   [WBatch [lab "job" "b"] [mkTp 9020 5; mkTp 9030 6]]].
Definition ag_ask : ask := mkAsk all_probe scan_bs no_timing [lab "host" "y"] 4000 9300.
Definition ag_sched : list nat := (repeat 1 95 ++ concat (repeat [0; 2; 3] 160))%list%nat.
Definition ag_w1 : dworld := match live_off (once_more ag_lives (ex_config Sled Sled)) slow_fs with Some w => w | None => sh_w0 end.
Definition ag_fl : list bool := [false; true].
Definition ag_w : dworld := match db_after_from (ex_config Sled Sled) ag_ops (failing ag_fl ag_w1) with Some (_, w) => w | None => ag_w1 end.
Definition ag_at (n : nat) : list (prog dcmd wanswer) :=
  fst (interleave dhandler (firstn n ag_sched) (threads (ex_config Sled Sled) [9102; 9203] ag_calls [[ag_ask]]) ag_w).
Example C60_reopened_case : let cf := ex_config Sled Sled in
  env_ok slow_fs /\ empty_dir slow_fs /\ monotone (f_clock slow_fs) /\ lives_ok (f_clock slow_fs) 0 0 (-1) (map fst (once_more ag_lives cf)) /\
  live_off (once_more ag_lives cf) slow_fs = Some ag_w1 /\ opened_at (f_clock slow_fs) 0 0 ag_lives = 9000 /\
  ops_ok cf 9000 ag_ops /\ db_after_from cf ag_ops (failing ag_fl ag_w1) = Some ([Ok tt], ag_w) /\ work_ok cf 9000 ag_ops [9102; 9203] ag_calls /\
  timely (life_written (map fst ag_lives)) /\ own_series ag_ops ag_calls /\ asks ag_ask /\ ~ In 3%nat (firstn 95 ag_sched) /\
  nth_error (ag_at 575) 0 = Some (Ret (Rotated [Err InternalErr; Ok tt])) /\
  (exists r, nth_error (ag_at 575) 3 = Some (Ret (Answered [Ok r])) /\
     r = [([lab "host" "y"; lab "job" "a"], [mkTp 4250 11; mkTp 9010 12; mkTp 9050 13; mkTp 9060 14; mkTp 9010 12; mkTp 9050 13; mkTp 9060 14])]) /\
  accepted_before (f_clock slow_fs) 0 0 ag_lives [lab "host" "y"; lab "job" "a"] (mkTp 4250 11) /\
  acknowledged ag_ops [Ok tt] ag_calls (ag_at 95) [lab "host" "y"; lab "job" "a"] (mkTp 9060 14) /\
  only_set ag_ops ag_calls (k_labels ag_ask) [lab "host" "y"; lab "job" "a"] /\
  (forall r, In r (life_written (map fst ag_lives)) -> wanted (k_labels ag_ask) (fst r) -> same_set (fst r) [lab "host" "y"; lab "job" "a"]).
Proof.
  cbv zeta. destruct C35_case as (H1 & H2 & H3 & H4 & H5 & _ & _). split; [exact H1|]. split; [exact H2|]. split; [exact H3|]. split; [exact H4|].
  split. { unfold ag_w1. assert (X: forall (x : option dworld) d, match x with Some _ => true | None => false end = true -> x = Some (match x with Some w => w | None => d end)) by (intros [w|] d; [reflexivity|discriminate]). apply X. vm_compute. reflexivity. }
  split; [vm_compute; reflexivity|].
  assert (O: ops_ok (ex_config Sled Sled) 9000 ag_ops).
  { split; [discriminate|]. split; [lia|]. split; [cbn; lia|]. split; [cbn; lia|]. split; [cbn; lia|]. split; [cbn [written ag_ops map app]; reqs_tac|]. cbn. lia. }
  split; [exact O|]. split; [apply world_eq; vm_compute; reflexivity|].
  assert (F: Forall (fun c => Forall ireq_ok (points_of c)) ag_calls).
  { constructor; [cbn [points_of call_points map concat app]; reqs_tac|]. constructor; [cbn [points_of call_points map concat app]; reqs_tac|constructor]. }
  split. { split; [cbn; lia|]. split; [exact F|]. vm_compute. reflexivity. }
  split; [exact H5|]. split.
  { inversion F as [|? ? F1 F']; subst. inversion F' as [|? ? F2 _]; subst. split; [|split].
    - apply timely_check; [apply O|vm_compute; reflexivity].
    - constructor; [|constructor; [|constructor]]; (apply timely_check; [apply Forall_app; split; [apply O|assumption]|vm_compute; reflexivity]).
    - intros i j c c' r r' Nij Hi Hj Hr Hr' P. apply Permutation_length in P as L.
      assert (C: forall n c0, nth_error ag_calls n = Some c0 -> (n = 0%nat /\ forall x, In x (points_of c0) -> length (fst x) = 2%nat) \/ (n = 1%nat /\ forall x, In x (points_of c0) -> length (fst x) = 1%nat)).
      { intros n c0 H. destruct n as [|[|n]]; [left|right|destruct n; discriminate]; (split; [reflexivity|]); injection H as <-; intros x Hx; cbn in Hx; repeat (destruct Hx as [<-|Hx]; [reflexivity|]); contradiction. }
      destruct (C _ _ Hi) as [[-> C1]|[-> C1]], (C _ _ Hj) as [[-> C2]|[-> C2]]; try congruence; rewrite (C1 _ Hr), (C2 _ Hr') in L; discriminate. }
  split. { split; [exact all_probe_ok|]. split; [exact scan_contract|]. cbn [k_labels ag_ask]; labs_tac. }
  split. { intros H. change (firstn 95 ag_sched) with (repeat 1%nat 95) in H. apply repeat_spec in H. discriminate. }
  split; [vm_compute; reflexivity|]. split. { eexists. split; [vm_compute; reflexivity|reflexivity]. }
  split. { right. left. split; [reflexivity|]. exists 2%nat. split; [reflexivity|]. vm_compute. reflexivity. }
  split. { right. exists 0%nat. eexists. exists [Ok tt; Ok tt], 1%nat. split; [reflexivity|]. split; [vm_compute; reflexivity|]. split; reflexivity. }
  split; intros r Hr (l & Hl & Hh); destruct Hl as [<-|[]]; cbn in Hr; repeat (destruct Hr as [<-|Hr]; [try (vm_compute in Hh; discriminate); try apply Permutation_refl; try apply perm_swap|]); contradiction.
Qed.
