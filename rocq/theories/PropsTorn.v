(* Property C75: the process ends in the middle of a write, and the directory is opened again. *)
From Coq Require Import Permutation Sorted String.
From Verif Require Import Rust Prog Gorilla GorillaSpec Storage StorageSpec StorageProofs Labels Indexer IndexSpec
  Chunk ChunkSpec ChunkProofs ChunkFacts Conc Utils DirSpec TiKvInit Db DbSpec DbProofs DbHist RangeSpec RangeProofs DbFacts ReopenSpec ReopenProofs OpenProofs CrashOpen CrashKeep StopSpec
  SearchSpec SearchProofs TornSpec TornProofs TornKnown TornAll PropsChunk PropsDb PropsReopen PropsCrash.
Local Notation lab k v := (mkLabel (s2b k) (s2b v)).
Local Notation length := List.length.

(* wherever a write for ls is cut: the database opens, and a query sharing no label with ls is
   answered as before the write *)
Theorem C75_other_queries : forall cf f ops op ls n hs bs o q s e, open_env cf f -> empty_dir f -> monotone (f_clock f) ->
  cf_st cf = Sled -> cf_ix cf = Sled ->
  let t0 := f_clock f (f_ticks f) in
  ops_ok cf t0 (ops ++ [op]) -> timely (written ops) -> writes ls op ->
  (forall i, (f_ticks f < i)%nat -> last_start t0 ops < f_clock f i) ->
  (forall p, stored (parts cf t0 ops) p -> tp_ts p <= f_clock f (S (f_ticks f))) ->
  hasher_ok hs -> bs_contract bs -> Forall lab_ok q -> unmixed hs (parts cf t0 ops) q s e -> ~ shares q ls ->
  exists rs w r w' r', db_after cf f ops = Some (rs, w) /\ drun (db_query hs bs o q s e) w = Some (r, w) /\
    db_open cf (stopped cf (snd (crash_at dhandler n (dop_prog cf op) w))) = Some (Ok tt, w') /\
    drun (db_query hs bs o q s e) w' = Some (r', w') /\ alike r r'.
Proof. exact write_crash_keeps. Qed.
Print Assumptions C75_other_queries.

(* a write to a series the current window has: every query is answered as if the write had been
   done in part, by the first of its points, and had ended there *)
Theorem C75_known_series : forall cf f ops op ls n, open_env cf f -> empty_dir f -> monotone (f_clock f) ->
  cf_st cf = Sled -> cf_ix cf = Sled ->
  let t0 := f_clock f (f_ticks f) in
  ops_ok cf t0 (ops ++ [op]) -> timely (written (ops ++ [op])) -> writes ls op -> has_series cf t0 ops ls ->
  (forall i, (f_ticks f < i)%nat -> last_start t0 ops < f_clock f i) ->
  (forall p, stored (parts cf t0 (ops ++ [op])) p -> tp_ts p <= f_clock f (S (f_ticks f))) ->
  exists done rs w rs1 w1, done_of op done /\ db_after cf f ops = Some (rs, w) /\ db_after cf f (ops ++ done) = Some (rs1, w1) /\
    forall hs bs o q s e, hasher_ok hs -> bs_contract bs -> Forall lab_ok q -> unmixed hs (parts cf t0 (ops ++ done)) q s e ->
    exists r w' r', drun (db_query hs bs o q s e) w1 = Some (r, w1) /\
      db_open cf (stopped cf (snd (crash_at dhandler n (dop_prog cf op) w))) = Some (Ok tt, w') /\
      drun (db_query hs bs o q s e) w' = Some (r', w') /\ alike r r'.
Proof. exact write_crash_known. Qed.
Print Assumptions C75_known_series.

(* two windows with a series each *)
Definition torn_ops : list dop :=
  [OpPoint [lab "job" "a"; lab "host" "y"] (mkTp 1050 2); OpSwap 1101; OpPoint [lab "host" "x"; lab "job" "a"] (mkTp 1150 8)].
(* what a query finds once the write op, after torn_ops, was cut after n commands *)
Definition ask_torn (op : dop) (n : nat) (q : list label) (s e : Z) :=
  match db_after (ex_config Sled Sled) slow_fs torn_ops with
  | Some (_, w) =>
      match db_open (ex_config Sled Sled) (stopped (ex_config Sled Sled) (snd (crash_at dhandler n (dop_prog (ex_config Sled Sled) op) w))) with
      | Some (Ok _, w') => option_map fst (drun (db_query all_probe scan_bs no_timing q s e) w')
      | _ => None
      end
  | None => None
  end.
Definition ask_ops (ops : list dop) (q : list label) (s e : Z) :=
  match db_after (ex_config Sled Sled) slow_fs ops with
  | Some (_, w) => option_map fst (drun (db_query all_probe scan_bs no_timing q s e) w)
  | None => None
  end.
Lemma slow_open : open_env (ex_config Sled Sled) slow_fs.
Proof.
  split; [exact slow_env|]. split; [discriminate|]. split; [unfold ascii; cbn; repeat constructor; lia|].
  split; [cbn; lia|]. intros i. unfold slow_fs. cbn [f_clock ex_config cf_size]. lia.
Qed.
Lemma slow_monotone : monotone (f_clock slow_fs).
Proof. intros i j H. unfold slow_fs. cbn [f_clock]. lia. Qed.

(* a write that starts a series, and a query for the other series *)
Example C75_other_case : let op := OpPoint [lab "host" "z"; lab "job" "b"] (mkTp 1160 1) in let q := [lab "job" "a"] in
  open_env (ex_config Sled Sled) slow_fs /\ empty_dir slow_fs /\ monotone (f_clock slow_fs) /\
  ops_ok (ex_config Sled Sled) 1000 (torn_ops ++ [op]) /\ timely (written torn_ops) /\ writes [lab "host" "z"; lab "job" "b"] op /\
  (forall i, (0 < i)%nat -> last_start 1000 torn_ops < f_clock slow_fs i) /\
  (forall p, stored (parts (ex_config Sled Sled) 1000 torn_ops) p -> tp_ts p <= f_clock slow_fs 1) /\
  hasher_ok all_probe /\ bs_contract scan_bs /\ unmixed all_probe (parts (ex_config Sled Sled) 1000 torn_ops) q 1000 5000 /\
  ~ shares q [lab "host" "z"; lab "job" "b"] /\
  map (fun n => ask_torn op n q 1000 5000) (seq 0 16) = repeat (ask_ops torn_ops q 1000 5000) 16 /\
  exists r, ask_ops torn_ops q 1000 5000 = Some (Ok r) /\ length r = 2%nat.
Proof.
  split; [exact slow_open|]. split; [split; reflexivity|]. split; [exact slow_monotone|].
  split.
  { split; [discriminate|]. split; [lia|]. split; [cbn; lia|]. split; [vm_compute; reflexivity|]. split; [cbn; lia|].
    split; [cbn [written torn_ops map app]; reqs_tac|]. cbn. lia. }
  split; [apply timely_check; [cbn [written torn_ops map app]; reqs_tac|vm_compute; reflexivity]|]. split; [left; eauto|].
  split. { intros i H. unfold slow_fs. cbn [f_clock last_start torn_ops]. lia. }
  split. { assert (K: 0 = 0 -> forall p, stored (parts (ex_config Sled Sled) 1000 torn_ops) p -> tp_ts p <= f_clock slow_fs 1) by stored_tac. exact (K eq_refl). }
  split; [exact all_probe_ok|]. split; [exact scan_contract|]. split; [apply unmixed_check; vm_compute; reflexivity|].
  split. { intros (l & [<-|[]] & [H|[H|[]]]); discriminate H. }
  split; [vm_compute; reflexivity|]. eexists. split; vm_compute; reflexivity.
Qed.
(* a batch of two points for a series that is there: nothing, the first point, or both *)
Example C75_known_case : let op := OpBatch [lab "host" "x"; lab "job" "a"] [mkTp 1170 1; mkTp 1180 2] in let q := [lab "job" "a"] in
  ops_ok (ex_config Sled Sled) 1000 (torn_ops ++ [op]) /\ timely (written (torn_ops ++ [op])) /\ writes [lab "host" "x"; lab "job" "a"] op /\
  has_series (ex_config Sled Sled) 1000 torn_ops [lab "host" "x"; lab "job" "a"] /\
  (forall p, stored (parts (ex_config Sled Sled) 1000 (torn_ops ++ [op])) p -> tp_ts p <= f_clock slow_fs 1) /\
  let upto k := ask_ops (torn_ops ++ [OpBatch [lab "host" "x"; lab "job" "a"] (firstn k [mkTp 1170 1; mkTp 1180 2])]) q 1000 5000 in
  map (fun n => ask_torn op n q 1000 5000) (seq 0 14) = repeat (upto 0%nat) 5 ++ repeat (upto 1%nat) 5 ++ repeat (upto 2%nat) 4 /\
  upto 0%nat = ask_ops torn_ops q 1000 5000 /\ upto 0%nat <> upto 1%nat /\ upto 1%nat <> upto 2%nat.
Proof.
  assert (O: ops_ok (ex_config Sled Sled) 1000 (torn_ops ++ [OpBatch [lab "host" "x"; lab "job" "a"] [mkTp 1170 1; mkTp 1180 2]])).
  { split; [discriminate|]. split; [lia|]. split; [cbn; lia|]. split; [vm_compute; reflexivity|]. split; [cbn; lia|].
    split; [cbn [written torn_ops map app]; reqs_tac|]. cbn. lia. }
  intros op q. split; [exact O|].
  split; [apply timely_check; [apply O|vm_compute; reflexivity]|]. split; [right; eexists; reflexivity|].
  split.
  { exists [(mkChunk SledStorage SledIndexer 1000 1100, [([lab "job" "a"; lab "host" "y"], [mkTp 1050 2])])], (mkChunk SledStorage SledIndexer 1101 1201),
      [([lab "host" "x"; lab "job" "a"], [mkTp 1150 8])], ([lab "host" "x"; lab "job" "a"], [mkTp 1150 8]).
    split; [vm_compute; reflexivity|]. split; [now left|apply Permutation_refl]. }
  split. { match goal with |- ?G => assert (K: 0 = 0 -> G) by stored_tac end. exact (K eq_refl). }
  cbv zeta. split; [vm_compute; reflexivity|]. split; [vm_compute; reflexivity|]. split; vm_compute; discriminate.
Qed.

(* and in general, also for a write that starts a series: the query is answered, every earlier window
   in full, and the current one with nothing but points that are stored *)
Theorem C75_every_query : forall cf f ops op ls n, open_env cf f -> empty_dir f -> monotone (f_clock f) ->
  cf_st cf = Sled -> cf_ix cf = Sled ->
  let t0 := f_clock f (f_ticks f) in
  ops_ok cf t0 (ops ++ [op]) -> timely (written (ops ++ [op])) -> writes ls op ->
  (forall i, (f_ticks f < i)%nat -> last_start t0 ops < f_clock f i) ->
  (forall p, stored (parts cf t0 (ops ++ [op])) p -> tp_ts p <= f_clock f (S (f_ticks f))) ->
  exists done rs w, done_of op done /\ db_after cf f ops = Some (rs, w) /\
    forall hs bs o q s e, hasher_ok hs -> bs_contract bs -> Forall lab_ok q -> s <= e -> apart_in hs (parts cf t0 (ops ++ done)) ->
    exists w' r', db_open cf (stopped cf (snd (crash_at dhandler n (dop_prog cf op) w))) = Some (Ok tt, w') /\
      drun (db_query hs bs o q s e) w' = Some (Ok r', w') /\ answer_short (parts cf t0 (ops ++ done)) q s e r'.
Proof. exact write_crash_any. Qed.
Print Assumptions C75_every_query.
(* a write that starts a series sharing a label with the others: until it is done the current window
   may give all, nothing or, at the end, both series *)
Example C75_every_case : let op := OpPoint [lab "host" "z"; lab "job" "a"] (mkTp 1160 1) in let q := [lab "job" "a"] in
  ops_ok (ex_config Sled Sled) 1000 (torn_ops ++ [op]) /\ timely (written (torn_ops ++ [op])) /\ writes [lab "host" "z"; lab "job" "a"] op /\
  (forall p, stored (parts (ex_config Sled Sled) 1000 (torn_ops ++ [op])) p -> tp_ts p <= f_clock slow_fs 1) /\
  apart_in all_probe (parts (ex_config Sled Sled) 1000 torn_ops) /\ apart_in all_probe (parts (ex_config Sled Sled) 1000 (torn_ops ++ [op])) /\
  let y := ([lab "host" "y"; lab "job" "a"], [mkTp 1050 2]) in
  let x := ([lab "host" "x"; lab "job" "a"], [mkTp 1150 8]) in
  let z := ([lab "host" "z"; lab "job" "a"], [mkTp 1160 1]) in
  ask_torn op 0 q 1000 5000 = Some (Ok [x; y]) /\ ask_torn op 11 q 1000 5000 = Some (Ok [y]) /\ ask_torn op 30 q 1000 5000 = Some (Ok [x; z; y]).
Proof.
  assert (O: ops_ok (ex_config Sled Sled) 1000 (torn_ops ++ [OpPoint [lab "host" "z"; lab "job" "a"] (mkTp 1160 1)])).
  { split; [discriminate|]. split; [lia|]. split; [cbn; lia|]. split; [vm_compute; reflexivity|]. split; [cbn; lia|].
    split; [cbn [written torn_ops map app]; reqs_tac|]. cbn. lia. }
  intros op q. split; [exact O|].
  split; [apply timely_check; [apply O|vm_compute; reflexivity]|]. split; [left; eexists; reflexivity|].
  split. { match goal with |- ?G => assert (K: 0 = 0 -> G) by stored_tac end. exact (K eq_refl). }
  split; [apply apart_check; vm_compute; reflexivity|]. split; [apply apart_check; vm_compute; reflexivity|].
  cbv zeta. split; [vm_compute; reflexivity|]. split; vm_compute; reflexivity.
Qed.

(* not for every query: a write that starts a series takes points of another series along, points
   that were stored and answered before *)
Theorem C75_other_series_refuted : exists cf f ops ls p n q s e rs w l w' l',
  open_env cf f /\ empty_dir f /\ monotone (f_clock f) /\ ops_ok cf (f_clock f (f_ticks f)) (ops ++ [OpPoint ls p]) /\
  timely (written (ops ++ [OpPoint ls p])) /\
  db_after cf f ops = Some (rs, w) /\ drun (db_query all_probe scan_bs no_timing q s e) w = Some (Ok l, w) /\
  db_open cf (stopped cf (snd (crash_at dhandler n (db_write_point ls p) w))) = Some (Ok tt, w') /\
  drun (db_query all_probe scan_bs no_timing q s e) w' = Some (Ok l', w') /\
  exists x pt, In x l /\ ~ Permutation (fst x) ls /\ In pt (snd x) /\ (forall y, In y l' -> Permutation (fst y) (fst x) -> ~ In pt (snd y)).
Proof.
  exists (ex_config Sled Sled), slow_fs, torn_ops, [lab "host" "z"; lab "job" "a"], (mkTp 1160 1), 11%nat, [lab "job" "a"], 1000, 5000.
  eexists _, _, _, _, _.
  split; [exact slow_open|]. split; [split; reflexivity|]. split; [exact slow_monotone|].
  assert (O: ops_ok (ex_config Sled Sled) 1000 (torn_ops ++ [OpPoint [lab "host" "z"; lab "job" "a"] (mkTp 1160 1)])).
  { split; [discriminate|]. split; [lia|]. split; [cbn; lia|]. split; [vm_compute; reflexivity|]. split; [cbn; lia|].
    split; [cbn [written torn_ops map app]; reqs_tac|]. cbn. lia. }
  split; [exact O|].
  split; [apply timely_check; [apply O|vm_compute; reflexivity]|].
  split; [vm_compute; reflexivity|]. split; [vm_compute; reflexivity|]. split; [vm_compute; reflexivity|]. split; [vm_compute; reflexivity|].
  eexists _, (mkTp 1150 8). split; [now left|]. cbn [fst snd]. split.
  { intros P. assert (H: In (lab "host" "z") [lab "host" "x"; lab "job" "a"]) by (eapply Permutation_in; [apply Permutation_sym; exact P|now left]).
    destruct H as [H|[H|[]]]; discriminate H. }
  split; [now left|].
  intros y [<-|[]] _ H; cbn [snd] in H; repeat (destruct H as [H|H]; [discriminate H|]); contradiction.
Qed.
Print Assumptions C75_other_series_refuted.
