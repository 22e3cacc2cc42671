(* Property C75, with earlier processes: they have worked on the directory one after the other, the
   last one ends in the middle of a write, and the directory is opened again. *)
From Coq Require Import Permutation Sorted String.
From Verif Require Import Rust Prog Gorilla GorillaSpec Storage StorageSpec StorageProofs Labels Indexer IndexSpec
  Chunk ChunkSpec ChunkProofs ChunkFacts Conc Utils DirSpec TiKvInit Db DbSpec DbProofs DbHist RangeSpec RangeProofs DbFacts ReopenSpec ReopenProofs OpenProofs CrashOpen CrashKeep StopSpec
  SearchSpec SearchProofs TornSpec TornProofs TornKnown TornAll TornLivesSpec TornLives PropsChunk PropsDb PropsReopen PropsCrash PropsTorn.
Local Notation lab k v := (mkLabel (s2b k) (s2b v)).
Local Notation length := List.length.

(* L: the earlier processes, and what each did until it stopped; then a process opens the directory,
   does ops and is cut at work on the write op.  A query sharing no label with the write is answered
   as before the write. *)
Theorem C75_lives_other_queries : forall L cf f ops op ls n, env_ok f -> empty_dir f -> monotone (f_clock f) ->
  let clock := f_clock f in let tick := f_ticks f in let k := opening clock tick 0 L in
  let P done := life_parts clock tick 0 (L ++ [mkLife cf (ops ++ done)]) in
  (forall i, clock i + cf_size cf < 2 ^ 64) -> lives_ok clock tick 0 (-1) (L ++ [mkLife cf (ops ++ [op])]) ->
  timely (life_written (L ++ [mkLife cf (ops ++ [op])])) -> writes ls op ->
  (forall i, (k < i)%nat -> last_start (clock k) ops < clock i) -> (forall p, stored (P [op]) p -> tp_ts p <= clock (S k)) ->
  forall hs bs o q s e, hasher_ok hs -> bs_contract bs -> Forall lab_ok q -> unmixed hs (P []) q s e -> ~ shares q ls ->
  exists w r w' r', live (L ++ [mkLife cf ops]) f = Some w /\ drun (db_query hs bs o q s e) w = Some (r, w) /\
    db_open cf (stopped cf (snd (crash_at dhandler n (dop_prog cf op) w))) = Some (Ok tt, w') /\
    drun (db_query hs bs o q s e) w' = Some (r', w') /\ alike r r'.
Proof. exact lives_crash_keeps. Qed.
Print Assumptions C75_lives_other_queries.

(* a series the current window has: every query is answered as if the last process had written the
   first points of the write *)
Theorem C75_lives_known_series : forall L cf f ops op ls n, env_ok f -> empty_dir f -> monotone (f_clock f) ->
  let clock := f_clock f in let tick := f_ticks f in let k := opening clock tick 0 L in
  let P done := life_parts clock tick 0 (L ++ [mkLife cf (ops ++ done)]) in
  (forall i, clock i + cf_size cf < 2 ^ 64) -> lives_ok clock tick 0 (-1) (L ++ [mkLife cf (ops ++ [op])]) ->
  timely (life_written (L ++ [mkLife cf (ops ++ [op])])) -> writes ls op ->
  (forall i, (k < i)%nat -> last_start (clock k) ops < clock i) -> (forall p, stored (P [op]) p -> tp_ts p <= clock (S k)) ->
  has_series cf (clock k) ops ls ->
  exists done w w1, done_of op done /\ live (L ++ [mkLife cf ops]) f = Some w /\ live (L ++ [mkLife cf (ops ++ done)]) f = Some w1 /\
  forall hs bs o q s e, hasher_ok hs -> bs_contract bs -> Forall lab_ok q -> unmixed hs (P done) q s e ->
  exists r w' r', drun (db_query hs bs o q s e) w1 = Some (r, w1) /\
    db_open cf (stopped cf (snd (crash_at dhandler n (dop_prog cf op) w))) = Some (Ok tt, w') /\
    drun (db_query hs bs o q s e) w' = Some (r', w') /\ alike r r'.
Proof. exact lives_crash_known. Qed.
Print Assumptions C75_lives_known_series.

(* and in general: everything the earlier processes left is answered in full *)
Theorem C75_lives_every_query : forall L cf f ops op ls n, env_ok f -> empty_dir f -> monotone (f_clock f) ->
  let clock := f_clock f in let tick := f_ticks f in let k := opening clock tick 0 L in
  let P done := life_parts clock tick 0 (L ++ [mkLife cf (ops ++ done)]) in
  (forall i, clock i + cf_size cf < 2 ^ 64) -> lives_ok clock tick 0 (-1) (L ++ [mkLife cf (ops ++ [op])]) ->
  timely (life_written (L ++ [mkLife cf (ops ++ [op])])) -> writes ls op ->
  (forall i, (k < i)%nat -> last_start (clock k) ops < clock i) -> (forall p, stored (P [op]) p -> tp_ts p <= clock (S k)) ->
  exists done w, done_of op done /\ live (L ++ [mkLife cf ops]) f = Some w /\
  forall hs bs o q s e, hasher_ok hs -> bs_contract bs -> Forall lab_ok q -> s <= e -> apart_in hs (P done) ->
  exists w' r', db_open cf (stopped cf (snd (crash_at dhandler n (dop_prog cf op) w))) = Some (Ok tt, w') /\
    drun (db_query hs bs o q s e) w' = Some (Ok r', w') /\ answer_short (P done) q s e r'.
Proof. exact lives_crash_any. Qed.
Print Assumptions C75_lives_every_query.

(* a process that leaves two windows; the next one opens a window at 4000, and another one *)
Definition late_first : list life := [mkLife (ex_config Sled Sled) ex_ops].
Definition late_ops : list dop := [OpPoint [lab "host" "x"; lab "job" "a"] (mkTp 4050 10); OpSwap 4200; OpPoint [lab "host" "y"; lab "job" "a"] (mkTp 4250 11)].
Definition ask_late (op : dop) (n : nat) (q : list label) (s e : Z) :=
  match live (late_first ++ [mkLife (ex_config Sled Sled) late_ops]) slow_fs with
  | Some w =>
      match db_open (ex_config Sled Sled) (stopped (ex_config Sled Sled) (snd (crash_at dhandler n (dop_prog (ex_config Sled Sled) op) w))) with
      | Some (Ok _, w') => option_map fst (drun (db_query all_probe scan_bs no_timing q s e) w')
      | _ => None
      end
  | None => None
  end.
Definition late_asked (ops : list dop) (q : list label) (s e : Z) := ask_lives (late_first ++ [mkLife (ex_config Sled Sled) ops]) slow_fs q s e.
Ltac late_tac :=
  split; [reflexivity|]; split;
  [cbn [app late_first lives_ok lf_cf lf_ops];
   assert (A: ascii (cf_base (ex_config Sled Sled))) by (unfold ascii; cbn; repeat constructor; lia);
   split; [reflexivity|]; split; [reflexivity|]; split; [exact A|]; split; [vm_compute; reflexivity|];
   split; [exact (ex_ops_ok Sled Sled)|]; split; [stored_tac|];
   split; [reflexivity|]; split; [reflexivity|]; split; [exact A|]; split; [vm_compute; reflexivity|];
   split; [split; [discriminate|]; split; [vm_compute; discriminate|]; split; [cbn; lia|]; split; [vm_compute; reflexivity|];
      split; [cbn [starts_ok late_ops app]; repeat split; vm_compute; reflexivity|];
      split; [cbn [written late_ops map app]; reqs_tac|]; cbn; lia|];
   split; [intros K; contradiction|exact I]
  |split; [apply timely_check; [cbn [life_written late_first late_ops ex_ops map lf_ops written app concat]; reqs_tac|vm_compute; reflexivity]|];
   split; [intros i H; unfold slow_fs; cbn [f_clock last_start late_ops]; lia|];
   match goal with |- ?G => assert (K: 0 = 0 -> G) by stored_tac; exact (K eq_refl) end].
Definition late (op : dop) : Prop :=
  opening (f_clock slow_fs) 0 0 late_first = 3%nat /\
  lives_ok (f_clock slow_fs) 0 0 (-1) (late_first ++ [mkLife (ex_config Sled Sled) (late_ops ++ [op])]) /\
  timely (life_written (late_first ++ [mkLife (ex_config Sled Sled) (late_ops ++ [op])])) /\
  (forall i, (3 < i)%nat -> last_start (f_clock slow_fs 3) late_ops < f_clock slow_fs i) /\
  forall p, stored (life_parts (f_clock slow_fs) 0 0 (late_first ++ [mkLife (ex_config Sled Sled) (late_ops ++ [op])])) p -> tp_ts p <= f_clock slow_fs 4.
(* a write that starts a series, and a query for the other ones *)
Example C75_lives_other_case : let op := OpPoint [lab "host" "z"; lab "job" "b"] (mkTp 4260 1) in let q := [lab "job" "a"] in
  late op /\ writes [lab "host" "z"; lab "job" "b"] op /\
  unmixed all_probe (life_parts (f_clock slow_fs) 0 0 (late_first ++ [mkLife (ex_config Sled Sled) (late_ops ++ [])])) q 1000 5000 /\
  ~ shares q [lab "host" "z"; lab "job" "b"] /\
  map (fun n => ask_late op n q 1000 5000) (seq 0 16) = repeat (late_asked late_ops q 1000 5000) 16 /\
  exists r, late_asked late_ops q 1000 5000 = Some (Ok r) /\ length r = 2%nat.
Proof.
  cbv zeta. split; [late_tac|]. split; [left; eauto|]. split; [apply unmixed_check; vm_compute; reflexivity|].
  split. { intros (l & [<-|[]] & [H|[H|[]]]); discriminate H. }
  split; [vm_compute; reflexivity|]. eexists. split; vm_compute; reflexivity.
Qed.
(* a batch for a series that is there: nothing, the first point, or both *)
Example C75_lives_known_case : let ls := [lab "host" "y"; lab "job" "a"] in let op := OpBatch ls [mkTp 4260 1; mkTp 4270 2] in let q := [lab "job" "a"] in
  late op /\ writes ls op /\ has_series (ex_config Sled Sled) (f_clock slow_fs 3) late_ops ls /\
  let upto k := late_asked (late_ops ++ [OpBatch ls (firstn k [mkTp 4260 1; mkTp 4270 2])]) q 1000 5000 in
  map (fun n => ask_late op n q 1000 5000) (seq 0 14) = repeat (upto 0%nat) 5 ++ repeat (upto 1%nat) 5 ++ repeat (upto 2%nat) 4 /\
  upto 0%nat <> upto 1%nat /\ upto 1%nat <> upto 2%nat.
Proof.
  cbv zeta. split; [late_tac|]. split; [right; eexists; reflexivity|]. split.
  { exists [(mkChunk SledStorage SledIndexer 4000 4100, [([lab "host" "x"; lab "job" "a"], [mkTp 4050 10])])], (mkChunk SledStorage SledIndexer 4200 4300),
      [([lab "host" "y"; lab "job" "a"], [mkTp 4250 11])], ([lab "host" "y"; lab "job" "a"], [mkTp 4250 11]).
    split; [vm_compute; reflexivity|]. split; [now left|apply Permutation_refl]. }
  cbv zeta. split; [vm_compute; reflexivity|]. split; vm_compute; discriminate.
Qed.
(* a write that starts a series sharing a label with the others: the current window may give nothing,
   the others, those of the first process too, give all *)
Example C75_lives_every_case : let op := OpPoint [lab "host" "z"; lab "job" "a"] (mkTp 4260 1) in let q := [lab "job" "a"] in
  late op /\ writes [lab "host" "z"; lab "job" "a"] op /\
  (forall done, In done [[]; [op]] -> apart_in all_probe (life_parts (f_clock slow_fs) 0 0 (late_first ++ [mkLife (ex_config Sled Sled) (late_ops ++ done)]))) /\
  let x := ([lab "host" "x"; lab "job" "a"], [mkTp 1010 7; mkTp 1150 8; mkTp 1160 9; mkTp 4050 10]) in
  let y l := ([lab "host" "y"; lab "job" "a"], [mkTp 1011 1; mkTp 1050 2] ++ l) in
  let z := ([lab "host" "z"; lab "job" "a"], [mkTp 4260 1]) in
  ask_late op 0 q 1000 5000 = Some (Ok [y [mkTp 4250 11]; x]) /\ ask_late op 11 q 1000 5000 = Some (Ok [x; y []]) /\
  ask_late op 30 q 1000 5000 = Some (Ok [y [mkTp 4250 11]; z; x]).
Proof.
  cbv zeta. split; [late_tac|]. split; [left; eauto|].
  split. { intros done [<-|[<-|[]]]; apply apart_check; vm_compute; reflexivity. }
  cbv zeta. split; [vm_compute; reflexivity|]. split; vm_compute; reflexivity.
Qed.
