(* Properties C34-C36: the windows of successive chunks, stopping and reopening. *)
From Coq Require Import Permutation Sorted String.
From Verif Require Import Rust Prog Gorilla GorillaSpec Storage StorageSpec StorageProofs Labels Indexer IndexSpec
  Chunk ChunkSpec ChunkProofs ChunkFacts Utils DirSpec TiKvInit Db DbSpec DbProofs DbHist RangeSpec RangeProofs DbFacts ReopenSpec ReopenProofs PropsChunk PropsDb.
Local Notation lab k v := (mkLabel (s2b k) (s2b v)).
Local Notation length := List.length.

(** C34 *)
Theorem C34_windows_disjoint : forall cf f ops, env_ok f -> empty_dir f ->
  let t0 := f_clock f (f_ticks f) in
  ops_ok cf t0 ops -> apart cf t0 ops ->
  exists rs w, db_after cf f ops = Some (rs, w) /\
    (forall i j a b, (i < j)%nat -> nth_error (d_heap w) i = Some a -> nth_error (d_heap w) j = Some b ->
       c_end (dc_chunk a) <= c_start (dc_chunk b)) /\
    (forall i ls p, nth_error ops i = Some (OpPoint ls p) -> nth_error rs i = Some (Ok tt) ->
       exists d, In d (d_heap w) /\ c_start (dc_chunk d) < tp_ts p < c_end (dc_chunk d)) /\
    (forall i j ls p ls' p', (i < j)%nat -> nth_error ops i = Some (OpPoint ls p) -> nth_error ops j = Some (OpPoint ls' p') ->
       nth_error rs i = Some (Ok tt) -> nth_error rs j = Some (Ok tt) -> tp_ts p = tp_ts p' ->
       forall k st, (i < k < j)%nat -> nth_error ops k <> Some (OpSwap st)).
Proof. exact windows_disjoint. Qed.
Print Assumptions C34_windows_disjoint.
(* three windows: (1000,1100), (1101,1201), (1300,1400); the point at 1250 is refused *)
Definition ex_swaps : list dop :=
  ex_ops ++ [OpPoint [lab "a" "1"] (mkTp 1250 0); OpSwap 1300; OpPoint [lab "a" "1"] (mkTp 1250 0); OpPoint [lab "a" "1"] (mkTp 1301 0)].
Example C34_case :
  ops_ok (ex_config Sled TiKvDry) 1000 ex_swaps /\ apart (ex_config Sled TiKvDry) 1000 ex_swaps /\
  (exists w, db_after (ex_config Sled TiKvDry) ex_fs ex_swaps = Some (outcomes (ex_config Sled TiKvDry) 1000 ex_swaps, w) /\
     map (fun d => (c_start (dc_chunk d), c_end (dc_chunk d))) (d_heap w) = [(1000, 1100); (1101, 1201); (1300, 1400)]) /\
  map (fun o => match o with Ok _ => true | _ => false end) (outcomes (ex_config Sled TiKvDry) 1000 ex_swaps) =
    [true; true; true; true; false; false; false; true; false; true].
Proof.
  split; [|split; [cbn; lia|split; [|vm_compute; reflexivity]]].
  - split; [discriminate|]. split; [lia|]. split; [cbn; lia|]. split; [cbn; lia|]. split; [cbn; lia|].
    split; [cbn [written ex_swaps ex_ops map app]; reqs_tac|]. cbn. lia.
  - destruct (db_after (ex_config Sled TiKvDry) ex_fs ex_swaps) as [[rs w]|] eqn:E; [|exfalso; revert E; vm_compute; discriminate].
    exists w. assert (K: option_map (fun x => (fst x, map (fun d => (c_start (dc_chunk d), c_end (dc_chunk d))) (d_heap (snd x))))
        (db_after (ex_config Sled TiKvDry) ex_fs ex_swaps) =
      Some (outcomes (ex_config Sled TiKvDry) 1000 ex_swaps, [(1000, 1100); (1101, 1201); (1300, 1400)])) by (vm_compute; reflexivity).
    rewrite E in K. cbn [option_map fst snd] in K. split; congruence.
Qed.

(* the same with the clock: the tick thread reads the clock at least one chunk size after the
   previous time.  After the reading n the window is the open interval from n+1 to n+1+size, before
   the first one it is the one from the opening: successive windows do not overlap, and a write of
   a point succeeds exactly when the timestamp is inside the window current at that moment *)
Theorem C34_clock : forall cf f ops, env_ok f -> empty_dir f -> cf_base cf <> [] -> 0 < cf_size cf ->
  let t0 := f_clock f (f_ticks f) in
  t0 + cf_size cf < 2 ^ 64 -> readings cf t0 ops -> Forall ireq_ok (asked_for ops) -> Z.of_nat (length (asked_for ops)) < 2 ^ 64 - 1 ->
  let windows k := (t0, t0 + cf_size cf) :: map (fun n => (n + 1, n + 1 + cf_size cf)) (ticks (firstn k ops)) in
  exists rs w, clocked cf f ops = Some (rs, w) /\ length rs = length ops /\
    map (fun d => (c_start (dc_chunk d), c_end (dc_chunk d))) (d_heap w) = windows (length ops) /\
    ForallOrdPairs (fun a b => snd a <= fst b) (windows (length ops)) /\
    (forall i now, nth_error ops i = Some (LTick now) -> nth_error rs i = Some (Ok tt)) /\
    (forall i ls p, nth_error ops i = Some (LPoint ls p) ->
       (nth_error rs i = Some (Ok tt) <-> let v := last (windows i) (0, 0) in fst v < tp_ts p < snd v)).
Proof. exact clock_windows. Qed.
Print Assumptions C34_clock.
(* readings 1100 and 1200, one chunk size apart: the second and the third window meet at 1201, which
   neither accepts *)
Definition ex_clocked : list lop :=
  [LPoint [lab "a" "1"] (mkTp 1050 1); LTick 1100; LPoint [lab "a" "1"] (mkTp 1101 2); LPoint [lab "a" "1"] (mkTp 1102 3); LTick 1200;
   LPoint [lab "a" "1"] (mkTp 1201 4); LBatch [lab "a" "1"] [mkTp 1202 5]].
Example C34_clock_case :
  readings (ex_config Sled Sled) 1000 ex_clocked /\ Forall ireq_ok (asked_for ex_clocked) /\ Z.of_nat (length (asked_for ex_clocked)) < 2 ^ 64 - 1 /\
  option_map fst (clocked (ex_config Sled Sled) ex_fs ex_clocked) =
    Some [Ok tt; Ok tt; Err (OutOfRangeErr 1101 1201); Ok tt; Ok tt; Err (OutOfRangeErr 1201 1301); Ok tt].
Proof.
  split; [cbn; lia|]. split; [cbn [asked_for ex_clocked map app]; reqs_tac|]. split; [cbn; lia|]. vm_compute. reflexivity.
Qed.
(* a client that stamps its point with the current time can be refused: here at the very time the
   chunk was made for *)
Theorem C34_now_accepted_refuted : exists cf f ops now ls p rs w, env_ok f /\ empty_dir f /\ cf_base cf <> [] /\ 0 < cf_size cf /\
  readings cf (f_clock f (f_ticks f)) ops /\ Forall ireq_ok (asked_for ops) /\
  clocked cf f ops = Some (rs, w) /\ nth_error ops 0 = Some (LTick now) /\ nth_error ops 1 = Some (LPoint ls p) /\ tp_ts p = now + 1 /\
  exists lo hi, nth_error rs 1 = Some (Err (OutOfRangeErr lo hi)).
Proof.
  exists (ex_config Sled Sled), ex_fs, [LTick 1100; LPoint [lab "a" "1"] (mkTp 1101 2)], 1100, [lab "a" "1"], (mkTp 1101 2). do 2 eexists.
  split; [exact ex_env|]. split; [exact ex_empty|]. split; [discriminate|]. split; [cbn; lia|]. split; [cbn; lia|]. split; [cbn [asked_for]; reqs_tac|].
  split; [vm_compute; reflexivity|]. split; [reflexivity|]. split; [reflexivity|]. split; [reflexivity|]. do 2 eexists. reflexivity.
Qed.
Print Assumptions C34_now_accepted_refuted.

(** C35 *)
Theorem C35_restart_keeps_answers : forall f L cf hs bs o q s e, env_ok f -> empty_dir f -> monotone (f_clock f) -> L <> [] ->
  lives_ok (f_clock f) (f_ticks f) 0 (-1) (L ++ [mkLife cf []]) -> timely (life_written L) ->
  hasher_ok hs -> bs_contract bs -> Forall lab_ok q ->
  unmixed hs (life_parts (f_clock f) (f_ticks f) 0 L) q s e ->
  exists w r w' r', live L f = Some w /\ drun (db_query hs bs o q s e) w = Some (r, w) /\
    live (L ++ [mkLife cf []]) f = Some w' /\ drun (db_query hs bs o q s e) w' = Some (r', w') /\ alike r r'.
Proof. exact restart_keeps_answers. Qed.
Print Assumptions C35_restart_keeps_answers.
Theorem C35_chunks_in_order : forall f L, env_ok f -> empty_dir f -> monotone (f_clock f) -> L <> [] ->
  lives_ok (f_clock f) (f_ticks f) 0 (-1) L ->
  exists w, live L f = Some w /\
    forall i j a b x y, (i < j)%nat -> nth_error (d_sec w ++ [d_cur w]) i = Some a -> nth_error (d_sec w ++ [d_cur w]) j = Some b ->
      nth_error (d_heap w) a = Some x -> nth_error (d_heap w) b = Some y -> c_start (dc_chunk x) < c_start (dc_chunk y).
Proof. exact lives_sorted. Qed.
Print Assumptions C35_chunks_in_order.
(* any number of restarts, with writes and swaps in between: the answers are those of all windows
   together, each label set once, points in time order, only what was written *)
Theorem C35_answers_across_restarts : forall f L hs bs o q s e, env_ok f -> empty_dir f -> monotone (f_clock f) -> L <> [] ->
  lives_ok (f_clock f) (f_ticks f) 0 (-1) L -> timely (life_written L) ->
  hasher_ok hs -> bs_contract bs -> Forall lab_ok q ->
  let P := life_parts (f_clock f) (f_ticks f) 0 L in
  unmixed hs P q s e ->
  exists w r, live L f = Some w /\ drun (db_query hs bs o q s e) w = Some (r, w) /\ comes_to P q s e r.
Proof. exact lives_refine. Qed.
Print Assumptions C35_answers_across_restarts.
Theorem C35_answers_in_time_order : forall f L hs bs o q s e, env_ok f -> empty_dir f -> monotone (f_clock f) -> L <> [] ->
  lives_ok (f_clock f) (f_ticks f) 0 (-1) L -> timely (life_written L) ->
  hasher_ok hs -> bs_contract bs -> Forall lab_ok q -> s <= e ->
  let P := life_parts (f_clock f) (f_ticks f) 0 L in
  unmixed hs P q s e ->
  exists w r, live L f = Some w /\ drun (db_query hs bs o q s e) w = Some (Ok r, w) /\
    (forall i j a b, nth_error r i = Some a -> nth_error r j = Some b -> same_set (fst a) (fst b) -> i = j) /\
    (forall m pts, In (m, pts) r -> increasing pts /\ pts <> []) /\
    (forall m pts p, In (m, pts) r -> In p pts -> s <= tp_ts p <= e /\ exists ls, In (ls, p) (life_written L) /\ same_set ls m).
Proof. exact lives_ordered. Qed.
Print Assumptions C35_answers_in_time_order.

(* a slow machine: one second between two readings of the clock; read_dir lists backwards *)
Definition slow_fs : fworld :=
  mkF None [] (fun l => rev l) (fun n => 1000 + 1000 * Z.of_nat (Nat.min n 500)) 0 (fun n => repeat (Z.of_nat n) 16) 0 [].
Definition ex_lives : list life :=
  [mkLife (ex_config Sled Sled) ex_ops;
   mkLife (ex_config Sled Sled) [OpPoint [lab "host" "x"; lab "job" "a"] (mkTp 4050 10); OpSwap 4200; OpPoint [lab "host" "y"; lab "job" "a"] (mkTp 4250 11)]].
Definition ask_lives (L : list life) (f : fworld) (q : list label) (s e : Z) :=
  match live L f with
  | Some w => option_map fst (drun (db_query all_probe scan_bs no_timing q s e) w)
  | None => None
  end.
Ltac stored_tac :=
  let p := fresh "p" in let Hp := fresh "Hp" in
  intros _ p Hp; destruct Hp as (c & ls & pts & Hc & Hl & Hp); vm_compute in Hc;
  repeat (destruct Hc as [Hc|Hc]; [subst c; vm_compute in Hl;
    repeat (destruct Hl as [Hl|Hl]; [injection Hl as <- <-; vm_compute in Hp; repeat (destruct Hp as [Hp|Hp]; [subst p; vm_compute; discriminate|]); contradiction|]); contradiction|]); contradiction.
Example C35_case :
  env_ok slow_fs /\ empty_dir slow_fs /\ monotone (f_clock slow_fs) /\
  lives_ok (f_clock slow_fs) 0 0 (-1) (ex_lives ++ [mkLife (ex_config Sled Sled) []]) /\ timely (life_written ex_lives) /\
  unmixed all_probe (life_parts (f_clock slow_fs) 0 0 ex_lives) [lab "job" "a"] 1000 5000 /\
  ask_lives ex_lives slow_fs [lab "job" "a"] 1000 5000 =
    Some (Ok [([lab "host" "y"; lab "job" "a"], [mkTp 1011 1; mkTp 1050 2; mkTp 4250 11]);
              ([lab "host" "x"; lab "job" "a"], [mkTp 1010 7; mkTp 1150 8; mkTp 1160 9; mkTp 4050 10])]) /\
  ask_lives (ex_lives ++ [mkLife (ex_config Sled Sled) []]) slow_fs [lab "job" "a"] 1000 5000 =
    Some (Ok [([lab "host" "y"; lab "job" "a"], [mkTp 1011 1; mkTp 1050 2; mkTp 4250 11]);
              ([lab "host" "x"; lab "job" "a"], [mkTp 1010 7; mkTp 1150 8; mkTp 1160 9; mkTp 4050 10])]).
Proof.
  split.
  { split; [intros l; symmetry; apply Permutation_rev|]. split; [intros n; apply repeat_length|].
    split; [|reflexivity]. intros n. unfold u64, slow_fs. cbn [f_clock]. lia. }
  split; [split; reflexivity|]. split.
  { intros i j H. unfold slow_fs. cbn [f_clock]. lia. }
  split.
  { cbn [app ex_lives lives_ok lf_cf lf_ops]. 
    assert (A: ascii (cf_base (ex_config Sled Sled))) by (unfold ascii; cbn; repeat constructor; lia).
    split; [reflexivity|]. split; [reflexivity|]. split; [exact A|]. split; [vm_compute; reflexivity|].
    split; [exact (ex_ops_ok Sled Sled)|]. split; [stored_tac|].
    split; [reflexivity|]. split; [reflexivity|]. split; [exact A|]. split; [vm_compute; reflexivity|].
    split.
    { split; [discriminate|]. split; [vm_compute; discriminate|]. split; [cbn; lia|]. split; [vm_compute; reflexivity|].
      split; [cbn [starts_ok]; repeat split; vm_compute; reflexivity|].
      split; [cbn [written map app]; reqs_tac|]. cbn. lia. }
    split; [stored_tac|].
    split; [reflexivity|]. split; [reflexivity|]. split; [exact A|]. split; [vm_compute; reflexivity|].
    split.
    { split; [discriminate|]. split; [vm_compute; discriminate|]. split; [cbn; lia|]. split; [vm_compute; reflexivity|].
      split; [exact I|]. split; [constructor|]. cbn. lia. }
    split; [intros K; contradiction|exact I]. }
  split.
  { apply timely_check; [cbn [life_written ex_lives ex_ops map lf_ops written app concat]; reqs_tac|vm_compute; reflexivity]. }
  split; [apply unmixed_check; vm_compute; reflexivity|].
  split; vm_compute; reflexivity.
Qed.

(* a point after the instant of the restart: answered before, invisible after *)
Theorem C35_future_refuted :
  exists cf f ops q s e r p, env_ok f /\ empty_dir f /\ monotone (f_clock f) /\
    cf_st cf = Sled /\ cf_ix cf = Sled /\ ascii (cf_base cf) /\
    ops_ok cf (f_clock f (f_ticks f)) ops /\ timely (written ops) /\ Forall lab_ok q /\ s <= e /\
    last_start (f_clock f (f_ticks f)) ops < f_clock f (f_ticks f + 2) /\
    unmixed all_probe (parts cf (f_clock f (f_ticks f)) ops) q s e /\
    ask_lives [mkLife cf ops] f q s e = Some (Ok [r]) /\ In p (snd r) /\ s <= tp_ts p <= e /\
    ask_lives [mkLife cf ops; mkLife cf []] f q s e = Some (Ok []).
Proof.
  set (ops := [OpPoint [lab "a" "1"] (mkTp 1050 5)]).
  exists (ex_config Sled Sled), ex_fs, ops, [lab "a" "1"], 1040, 1060, ([lab "a" "1"], [mkTp 1050 5]), (mkTp 1050 5).
  assert (O: ops_ok (ex_config Sled Sled) 1000 ops).
  { split; [discriminate|]. split; [lia|]. split; [cbn; lia|]. split; [cbn; lia|]. split; [cbn; lia|].
    split; [cbn [written ops map app]; reqs_tac|]. cbn. lia. }
  split; [exact ex_env|]. split; [exact ex_empty|].
  split; [intros i j H; unfold ex_fs; cbn [f_clock]; lia|]. split; [reflexivity|]. split; [reflexivity|].
  split; [unfold ascii; cbn; repeat constructor; lia|]. split; [exact O|].
  split; [apply timely_check; [apply O|vm_compute; reflexivity]|]. split; [labs_tac|]. split; [lia|].
  split; [vm_compute; reflexivity|]. split; [apply unmixed_check; vm_compute; reflexivity|].
  split; [vm_compute; reflexivity|]. split; [now left|]. split; [cbn; lia|]. vm_compute; reflexivity.
Qed.
Print Assumptions C35_future_refuted.

(** C36 *)
Theorem C36_reopen_iff_same_backends : forall cf cf' f ops, env_ok f -> empty_dir f ->
  let t0 := f_clock f (f_ticks f) in
  ops_ok cf t0 ops -> cf_base cf' <> [] -> 0 <= cf_size cf' ->
  (forall i, (f_ticks f < i)%nat -> last_start t0 ops < f_clock f i /\ f_clock f i + cf_size cf' < 2 ^ 64) ->
  exists rs w r w', db_after cf f ops = Some (rs, w) /\ db_open cf' (stopped cf w) = Some (r, w') /\
    (r = Ok tt <-> cf_st cf' = cf_st cf /\ cf_ix cf' = cf_ix cf) /\
    (r = Ok tt \/ r = Err OptionErr /\ d_fs w' = stopped cf w).
Proof. exact reopen_types. Qed.
Print Assumptions C36_reopen_iff_same_backends.
Definition reopen_result (st ix st' ix' : backend) : option (res unit) :=
  match db_after (ex_config st ix) slow_fs ex_ops with
  | Some (_, w) => option_map fst (db_open (ex_config st' ix') (stopped (ex_config st ix) w))
  | None => None
  end.
Example C36_case :
  (forall i, (0 < i)%nat -> last_start 1000 ex_ops < f_clock slow_fs i /\ f_clock slow_fs i + 100 < 2 ^ 64) /\
  reopen_result Sled TiKvDry Sled TiKvDry = Some (Ok tt) /\ reopen_result TiKvDry TiKvDry TiKvDry TiKvDry = Some (Ok tt) /\
  reopen_result Sled TiKvDry TiKvDry Sled = Some (Err OptionErr) /\ reopen_result Sled Sled Sled TiKvDry = Some (Err OptionErr).
Proof.
  split; [|vm_compute; repeat split; reflexivity]. intros i H. unfold slow_fs. cbn [f_clock last_start ex_ops]. lia.
Qed.
