(* Property C66: the program, from its command line to its answers. *)
From Coq Require Import ZifyBool ZifyNat Permutation String.
From Verif Require Import WireSpec WireMsgs WireWrong WireWritten PropsWire.
From Verif Require Import MapProofs.
From Verif Require Import Rust Prog Gorilla GorillaSpec Storage StorageSpec StringProofs StorageProofs Labels Indexer IndexSpec LabelProofs
  Chunk ChunkSpec ChunkProofs ChunkFacts Utils DirSpec TiKvInit Db DbSpec DbProofs DbHist DbFacts ReopenSpec LossSpec LossDbSpec PropsChunk PropsDb PropsReopen PropsLossDb
  FaultsSpec SwapSpec SwapMain PropsSwap ReadsSpec WritersSpec WritersMain PropsWriters SharedSpec SharedFacts PropsShared AgainSpec Again PropsAgain
  Proto ProtoSpec ProtoProofs Server ServerSpec ServerProofs PropsProto PropsServer LockSpec LockProofs LockDead PropsLock ServingSpec Serving ServingMain PropsServing
  Opts OptsSpec OptsProofs Program ProgramSpec ProgramProofs.
Local Notation lab k v := (mkLabel (s2b k) (s2b v)).
Local Notation length := List.length.

(* what the command line asks for: the chunk size in seconds, which is taken in milliseconds of 64 bits, the directory,
   the two paths, and the backends; worker number and port have to be acceptable, and so has a TiKV configuration *)
Theorem C66_launch : forall dbg file a cf sv, launch dbg file a = Some (cf, sv) <->
  (exists secs, unsigned (a_chunk_size a) secs /\ secs < 2 ^ 64 /\ cf_size cf = (secs * 1000) mod 2 ^ 64) /\
  (exists n, unsigned (a_workers a) n /\ n < 2 ^ 64) /\ (exists port, signed (a_port a) port /\ 1024 <= port <= 65535) /\
  (wants_tikv a -> dry_run file a true) /\ runs_on (a_storage a) (cf_st cf) /\ runs_on (a_indexer a) (cf_ix cf) /\
  cf_dbg cf = dbg /\ cf_base cf = a_dir a /\ sv_read_path sv = a_read_path a /\ sv_write_path sv = a_write_path a.
Proof. exact launch_iff. Qed.
Print Assumptions C66_launch.
(* TiKV run dry, as the configuration file says; not launched if it says otherwise, or if the port is too low *)
Example C66_launch_ex : let a (port : string) := mkArgs (s2b "tikv") (s2b "sled") (s2b "/d") (s2b "+600") (s2b port) (s2b "/w") (s2b "/r") (s2b "8") (Some (s2b "t.yaml")) in
  launch false (fun _ => Some true) (a "9001"%string) = Some (mkConfig false (s2b "/d") TiKvDry Sled 600000, mkServer (s2b "/r") (s2b "/w")) /\
  launch false (fun _ => Some false) (a "9001"%string) = None /\ launch false (fun _ => None) (a "9001"%string) = None /\ launch false (fun _ => Some true) (a "80"%string) = None.
Proof. repeat split; vm_compute; reflexivity. Qed.

(** C66: the program was started with the command line [a] on an empty directory.  Its tick thread has taken
    [pw_sent v] readings of the clock and sent them, its swap thread takes up to m of them from the channel and makes a
    swap for each, and its server has answered the requests, all three interleaved in any way.  Then the responses are
    right, as in C63, for a log of the points written and of swaps that begin one after the readings, in their order. *)
Theorem C66_program : forall dbg file a cf sv f w0 clock n m z bs ch rqs l sched p0 p1 rss r v, let t0 := f_clock f (f_ticks f) in
  launch dbg file a = Some (cf, sv) -> a_dir a <> [] -> env_weak f -> empty_dir f -> db_open cf f = Some (Ok tt, w0) -> t0 + cf_size cf < 2 ^ 64 ->
  ticking (cf_size cf) t0 clock (pw_sent v) ->
  bs_contract bs -> (forall k n, hasher_ok (fst (ch k n))) -> Forall2 (wanting sv z) rqs l -> wants_ok ch cf [] [] l ->
  interleave (phandler clock) sched (running cf n m sv z bs ch rqs) (mkPw w0 0 []) = ([p0; p1; Ret (Works (Served (rss, r)))], v) ->
  exists turns post, conversation (chunks_after cf t0 [] []) z [] l turns rss r /\
    let log := turns ++ post in
    Forall (fun e => e_who e <= 1)%nat log /\ of_thread 1 post = [] /\
    (exists v', one_by_one cf log w0 v' /\ (forall x, p1 = Ret x -> v' = pw_db v)) /\
    (exists rest rs, rotations (starts_after clock (Nat.min m (pw_sent v))) (of_thread 0 log ++ rest) rs /\
       forall x, p1 = Ret x -> rest = [] /\ x = Works (Swaps (Rotated rs))) /\
    reported cf t0 (map e_op log) (map e_res log).
Proof.
  intros dbg file a cf sv f w0 clock n m z bs ch rqs l sched p0 p1 rss r v t0 HL Hd He Hed Ho Ht Hk Hb Hh Hw Hok Hi.
  pose proof (launch_size _ _ _ _ _ HL) as Hs. assert (H0: 0 <= t0) by apply He.
  assert (O: ops_ok cf t0 []).
  { split; [now rewrite (launch_base _ _ _ _ _ HL)|]. do 4 (split; [assumption || exact I|]). split; [constructor|]. cbn. lia. }
  destruct (running_at_work cf clock n m sv z bs ch rqs sched w0 p0 p1 (Served (rss, r)) v (ticking_u64 _ _ _ _ Hs H0 Hk) Hi) as (s' & q1 & E & Q).
  destruct (served_empty cf f [] [] (starts_after clock (Nat.min m (pw_sent v))) w0 w0 sv z bs ch rqs l s' q1 rss r (pw_db v) He Hed Ho O eq_refl) as (turns & post & C & F & P & (v' & S1 & S2) & (rest & rs & R1 & R2) & R3);
    [|assumption..|].
  { eapply starts_after_ok; [exact Hk|lia|left; cbn; lia]. }
  exists turns, post. split; [exact C|]. split; [exact F|]. split; [exact P|]. split; [|split; [|exact R3]].
  - exists v'. split; [exact S1|]. intros x Hx. destruct (Q x Hx) as (y & _ & Hy). apply S2. exists y. exact Hy.
  - exists rest, rs. split; [exact R1|]. intros x Hx. destruct (Q x Hx) as (y & -> & Hy). destruct (R2 y Hy) as [-> ->]. auto.
Qed.
Print Assumptions C66_program.

(* the same on a directory that earlier runs of the program have left *)
Theorem C66_program_reopened : forall dbg file a cf sv f L w1, launch dbg file a = Some (cf, sv) -> a_dir a <> [] ->
  env_ok f -> empty_dir f -> monotone (f_clock f) ->
  lives_ok (f_clock f) (f_ticks f) 0 (-1) (map fst (once_more L cf)) -> live_off (once_more L cf) f = Some w1 ->
  let t0 := opened_at (f_clock f) (f_ticks f) 0 L in
  forall fl clock n m z bs ch rqs l sched p0 p1 rss r v, 0 <= t0 -> t0 + cf_size cf < 2 ^ 64 ->
  ticking (cf_size cf) t0 clock (pw_sent v) -> timely (life_written (map fst L)) ->
  bs_contract bs -> (forall k n, hasher_ok (fst (ch k n))) -> Forall2 (wanting sv z) rqs l -> wants_ok ch cf (left_parts (f_clock f) (f_ticks f) 0 L) [] l ->
  interleave (phandler clock) sched (running cf n m sv z bs ch rqs) (mkPw (failing fl w1) 0 []) = ([p0; p1; Ret (Works (Served (rss, r)))], v) ->
  exists old turns post, Forall2 reread (left_parts (f_clock f) (f_ticks f) 0 L) old /\ conversation (fun log => old ++ chunks_after cf t0 [] [] log) z [] l turns rss r /\
    let log := turns ++ post in
    Forall (fun e => e_who e <= 1)%nat log /\ of_thread 1 post = [] /\
    (exists v', one_by_one cf log (failing fl w1) v' /\ (forall x, p1 = Ret x -> v' = pw_db v)) /\
    (exists rest rs, rotations (starts_after clock (Nat.min m (pw_sent v))) (of_thread 0 log ++ rest) rs /\
       forall x, p1 = Ret x -> rest = [] /\ x = Works (Swaps (Rotated rs))) /\
    reported cf t0 (map e_op log) (map e_res log).
Proof.
  intros dbg file a cf sv f L w1 HL Hd He Hed Hm Hlv Hl t0 fl clock n m z bs ch rqs l sched p0 p1 rss r v H0 Ht Hk Htm Hb Hh Hw Hok Hi.
  pose proof (launch_size _ _ _ _ _ HL) as Hs.
  assert (O: ops_ok cf t0 []).
  { split; [now rewrite (launch_base _ _ _ _ _ HL)|]. do 4 (split; [assumption || exact I|]). split; [constructor|]. cbn. lia. }
  destruct (running_at_work cf clock n m sv z bs ch rqs sched (failing fl w1) p0 p1 (Served (rss, r)) v (ticking_u64 _ _ _ _ Hs H0 Hk) Hi) as (s' & q1 & E & Q).
  destruct (served_again f L cf w1 He Hed Hm Hlv Hl fl [] [] (starts_after clock (Nat.min m (pw_sent v))) (failing fl w1) sv z bs ch rqs l s' q1 rss r (pw_db v) O eq_refl)
    as (old & turns & post & FO & C & F & P & (v' & S1 & S2) & (rest & rs & R1 & R2) & R3); [|assumption..|].
  { eapply starts_after_ok; [exact Hk|lia|left; cbn; lia]. }
  exists old, turns, post. split; [exact FO|]. split; [exact C|]. split; [exact F|]. split; [exact P|]. split; [|split; [|exact R3]].
  - exists v'. split; [exact S1|]. intros x Hx. destruct (Q x Hx) as (y & _ & Hy). apply S2. exists y. exact Hy.
  - exists rest, rs. split; [exact R1|]. intros x Hx. destruct (Q x Hx) as (y & -> & Hy). destruct (R2 y Hy) as [-> ->]. auto.
Qed.
Print Assumptions C66_program_reopened.

(* the server is never kept from answering: whatever the threads have done so far, on any directory, with any failures,
   there is a way to go on in which it comes to the end *)
Theorem C66_finish : forall cf f w0 clock n m sv z bs ch rqs sched ts v, db_open cf f = Some (Ok tt, w0) ->
  interleave (phandler clock) sched (running cf n m sv z bs ch rqs) (mkPw w0 0 []) = (ts, v) ->
  (forall i, (i < pw_sent v)%nat -> u64 (clock i + 1)) ->
  exists more p0 p1 x w, interleave (phandler clock) (sched ++ more) (running cf n m sv z bs ch rqs) (mkPw w0 0 []) = ([p0; p1; Ret (Works (Served x))], w).
Proof.
  intros cf f w0 clock n m sv z bs ch rqs sched ts v Ho Hi Hc. eapply running_can_finish; [exact Hc| |exact Hi]. intros starts s.
  destruct (serving_can_finish cf f w0 [] [] w0 Ho eq_refl starts sv z bs ch rqs anyone s anyone_lets) as (more & F). exists more. rewrite anyone_interleave in F. exact F.
Qed.
Print Assumptions C66_finish.

(* readings taken by sleeping the chunk size in between are in order *)
Theorem C66_paced : forall size t0 clock N, 0 < size -> paced size t0 clock -> (forall i, (i < N)%nat -> clock i + 1 + size < 2 ^ 64) -> ticking size t0 clock N.
Proof. exact paced_ticking. Qed.
Print Assumptions C66_paced.

(* one second chunks; the swap comes during the first read, which counts its chunk twice *)
Definition pg_args : args := mkArgs (s2b "sled") (s2b "sled") (s2b "/data") (s2b "1") (s2b "9001") (s2b "/write") (s2b "/read") (s2b "8") None.
Definition pg_config : config := mkConfig true (s2b "/data") Sled Sled 1000.
Definition pg_clock (i : nat) : Z := 2001 + 1003 * Z.of_nat i.
Definition pg_more : write_request := mkWriteReq [ex_wire "p" [2010; 2011]] [].
Definition pg_wants : list want := [Wants (CWrite ex_body); Wants (CRead (sv_read 1100 3000)); Elsewhere; Wants (CWrite pg_more); Wants (CRead (sv_read 1112 3000))].
Definition pg_requests : list request :=
  [ex_post "/write" (write_request_write ex_body); ex_post "/read" (read_request_write (sv_read 1100 3000)); ex_post "/x" [1];
   ex_post "/write" (write_request_write pg_more); ex_post "/read" (read_request_write (sv_read 1112 3000))].
Definition pg_w0 : dworld := match db_open pg_config (ex_flaky false) with Some (_, w) => w | None => sh_w0 end.
Definition pg_at (sched : list nat) :=
  interleave (phandler pg_clock) sched (running pg_config 2 1 ex_server ex_snappy scan_bs (fun _ => ex_choices) pg_requests) (mkPw pg_w0 0 []).
Definition pg_sched : list nat := (repeat 2 30 ++ [1; 0] ++ concat (repeat [1; 2] 150) ++ repeat 2 300)%list%nat.
Definition pg_brief (ps : list (prog pcmd pworker)) :=
  match ps with
  | [_; Ret (Works (Swaps a)); Ret (Works (Served (x, r)))] => Some (a, map rs_status x, map times x, r)
  | _ => None
  end.
Lemma pg_brief_ends (x : list (prog pcmd pworker) * pworld) y : option_map (fun _ => tt) (pg_brief (fst x)) = Some y ->
  exists p0 a rss r v, x = ([p0; Ret (Works (Swaps a)); Ret (Works (Served (rss, r)))], v).
Proof.
  destruct x as [ps v]. cbn [fst]. destruct ps as [|p0 ps]; [discriminate|]. destruct ps as [|[[|[a|]]|] ps]; try discriminate. destruct ps as [|[[|[|[rss r]]]|] ps]; try discriminate.
  destruct ps; [|discriminate]. intros _. now exists p0, a, rss, r, v.
Qed.
Example C66_case : let f := ex_flaky false in
  launch true (fun _ => None) pg_args = Some (pg_config, ex_server) /\ a_dir pg_args <> [] /\
  env_weak f /\ empty_dir f /\ db_open pg_config f = Some (Ok tt, pg_w0) /\ f_clock f (f_ticks f) + cf_size pg_config < 2 ^ 64 /\
  paced (cf_size pg_config) (f_clock f (f_ticks f)) pg_clock /\ ticking (cf_size pg_config) (f_clock f (f_ticks f)) pg_clock (pw_sent (snd (pg_at pg_sched))) /\
  bs_contract scan_bs /\ (forall n, hasher_ok (fst (ex_choices n))) /\ Forall2 (wanting ex_server ex_snappy) pg_requests pg_wants /\ wants_ok (fun _ => ex_choices) pg_config [] [] pg_wants /\
  (exists p0 a rss r v, pg_at pg_sched = ([p0; Ret (Works (Swaps a)); Ret (Works (Served (rss, r)))], v)) /\
  pg_brief (fst (pg_at pg_sched)) =
    Some (Rotated [Ok tt], [200; 200; 404; 200; 200], [[]; [[[1110; 1111; 1110; 1111]; [1112; 1113; 1112; 1113]]]; []; []; [[[2010; 2011]]]], Ok tt).
Proof.
  cbv zeta. split; [vm_compute; reflexivity|]. split; [discriminate|].
  split; [split; [intros l; apply Permutation_refl|split; [intros n; apply repeat_length|intros n; unfold u64, ex_flaky; cbn [f_clock]; lia]]|].
  split; [split; reflexivity|]. split; [apply world_eq; vm_compute; reflexivity|]. split; [vm_compute; reflexivity|].
  assert (P0: paced (cf_size pg_config) (f_clock (ex_flaky false) (f_ticks (ex_flaky false))) pg_clock) by (split; [vm_compute; discriminate|intros i; unfold pg_clock; cbn [cf_size pg_config]; lia]).
  split; [exact P0|]. split.
  { assert (E: pw_sent (snd (pg_at pg_sched)) = 1%nat) by (vm_compute; reflexivity). rewrite E. apply paced_ticking; [reflexivity|exact P0|]. intros i Hi. unfold pg_clock. cbn [cf_size pg_config]. lia. }
  split; [exact scan_contract|]. split; [intros n; exact all_probe_ok|]. split.
  { unfold pg_requests, pg_wants. constructor; [|constructor; [|constructor; [|constructor; [|constructor; [|constructor]]]]]; cbn [wanting].
    - eapply carries_write; [reflexivity|reflexivity|apply write_request_b; apply ex_body_ok|reflexivity|reflexivity|discriminate|vm_compute; reflexivity].
    - eapply carries_read; [reflexivity|reflexivity|apply read_request_b; split; cbn [rq_queries rq_unk sv_read]; ok_tac|reflexivity|reflexivity|vm_compute; reflexivity].
    - split; [exists [1]; split; [reflexivity|discriminate]|]. split; discriminate.
    - eapply carries_write; [reflexivity|reflexivity|apply write_request_b; unfold pg_more, ex_wire; cbn [map]; split; cbn [wq_series wq_unk]; ok_tac|reflexivity|reflexivity|discriminate|vm_compute; reflexivity].
    - eapply carries_read; [reflexivity|reflexivity|apply read_request_b; split; cbn [rq_queries rq_unk sv_read]; ok_tac|reflexivity|reflexivity|vm_compute; reflexivity]. }
  assert (P: Forall ireq_ok (all_points pg_wants)).
  { change (all_points pg_wants) with [([lab "job" "c"; lab "host" "p"], mkTp 1110 1); ([lab "job" "c"; lab "host" "p"], mkTp 1111 1);
      ([lab "job" "c"; lab "host" "q"], mkTp 1112 1); ([lab "job" "c"; lab "host" "q"], mkTp 1113 1);
      ([lab "job" "c"; lab "host" "p"], mkTp 2010 1); ([lab "job" "c"; lab "host" "p"], mkTp 2011 1)]. reqs_tac. }
  split.
  { split; [|split; [exact P|split; [vm_compute; reflexivity|left; apply timely_check; [exact P|vm_compute; reflexivity]]]].
    assert (N: forall q, unmixed_among (fun _ => ex_choices) (all_sets [] (written [] ++ all_points pg_wants)) q).
    { intros q. apply (of_length _ _ q 2). apply Forall_forall. intros x Hx.
      assert (B: forallb (fun ls => (length ls =? 2)%nat) (all_sets [] (written [] ++ all_points pg_wants)) = true) by (vm_compute; reflexivity).
      rewrite forallb_forall in B. apply Nat.eqb_eq. exact (B x Hx). }
    set (sets := all_sets [] _) in *. clearbody sets. unfold pg_wants.
    assert (R: forall a b, Forall (fun q => Forall lab_ok (asked_labels q) /\ unmixed_among (fun _ => ex_choices) sets (asked_labels q)) (rq_queries (sv_read a b))).
    { intros a b. cbn [rq_queries sv_read]. constructor; [|constructor]. split; [cbn [asked_labels pq_matchers map mt_name mt_value]; labs_tac|]. apply N. }
    constructor; [exact I|]. constructor; [apply R|]. constructor; [exact I|]. constructor; [exact I|]. constructor; [apply R|constructor]. }
  split; [apply (pg_brief_ends _ tt); vm_compute; reflexivity|]. vm_compute. reflexivity.
Qed.

(* the directory of C60_reopened_case: two processes before, with other chunk sizes, the first ended by a power failure;
   a file operation of the swap fails, and the points are still there *)
Definition pr_read : read_request := mkReadReq [mkPQuery 4000 11000 [mkMatcher EQ (s2b "host") (s2b "y") []] None []] [] [].
Definition pr_wants : list want := [Wants (CWrite sr_write); Wants (CRead pr_read)].
Definition pr_requests : list request := [ex_post "/write" (write_request_write sr_write); ex_post "/read" (read_request_write pr_read)].
Definition pr_w1 : dworld := match live_off (once_more ag_lives pg_config) slow_fs with Some w => w | None => sh_w0 end.
Definition pr_clock (i : nat) : Z := 10001 + 1003 * Z.of_nat i.
Definition pr_at (sched : list nat) :=
  interleave (phandler pr_clock) sched (running pg_config 3 2 ex_server ex_snappy scan_bs (fun _ => ex_choices) pr_requests) (mkPw (failing [true] pr_w1) 0 []).
Definition pr_sched : list nat := ([0; 0] ++ repeat 2 17 ++ concat (repeat [1; 2] 150) ++ repeat 2 300)%list%nat.
Example C66_reopened_case :
  launch true (fun _ => None) pg_args = Some (pg_config, ex_server) /\ a_dir pg_args <> [] /\
  env_ok slow_fs /\ empty_dir slow_fs /\ monotone (f_clock slow_fs) /\ lives_ok (f_clock slow_fs) 0 0 (-1) (map fst (once_more ag_lives pg_config)) /\
  live_off (once_more ag_lives pg_config) slow_fs = Some pr_w1 /\ opened_at (f_clock slow_fs) 0 0 ag_lives = 9000 /\
  ticking (cf_size pg_config) 9000 pr_clock (pw_sent (snd (pr_at pr_sched))) /\ timely (life_written (map fst ag_lives)) /\
  Forall2 (wanting ex_server ex_snappy) pr_requests pr_wants /\ wants_ok (fun _ => ex_choices) pg_config (left_parts (f_clock slow_fs) 0 0 ag_lives) [] pr_wants /\
  (exists p0 a rss r v, pr_at pr_sched = ([p0; Ret (Works (Swaps a)); Ret (Works (Served (rss, r)))], v)) /\
  pg_brief (fst (pr_at pr_sched)) = Some (Rotated [Err InternalErr; Ok tt], [200; 200], [[]; [[[4250; 9050; 9060]]]], Ok tt).
Proof.
  destruct C35_case as (H1 & H2 & H3 & H4 & H5 & _ & _). split; [vm_compute; reflexivity|]. split; [discriminate|]. split; [exact H1|]. split; [exact H2|]. split; [exact H3|]. split.
  { cbn [once_more map fst ag_lives app lives_ok lf_cf lf_ops].
    cbn [ex_lives app lives_ok lf_cf lf_ops] in H4. destruct H4 as (A1 & A2 & A3 & A4 & A5 & A6 & B1 & B2 & B3 & B4 & B5 & B6 & C1 & C2 & C3 & C4 & _).
    do 5 (split; [assumption|]). split; [intros _; apply A6; discriminate|]. do 5 (split; [assumption|]). split; [intros _; apply B6; discriminate|].
    split; [reflexivity|]. split; [reflexivity|]. split; [exact C3|]. split; [exact C4|]. split.
    { split; [discriminate|]. split; [vm_compute; discriminate|]. split; [cbn; lia|]. split; [vm_compute; reflexivity|]. split; [exact I|]. split; [constructor|]. cbn. lia. }
    split; [intros K; contradiction|exact I]. }
  split. { unfold pr_w1. assert (X: forall (x : option dworld) d, match x with Some _ => true | None => false end = true -> x = Some (match x with Some w => w | None => d end)) by (intros [w|] d; [reflexivity|discriminate]). apply X. vm_compute. reflexivity. }
  split; [vm_compute; reflexivity|]. split.
  { assert (E: pw_sent (snd (pr_at pr_sched)) = 2%nat) by (vm_compute; reflexivity). rewrite E. unfold pr_clock. cbn [cf_size pg_config]. split; intros i Hi; lia. }
  split; [exact H5|]. split.
  { unfold pr_requests, pr_wants. constructor; [|constructor; [|constructor]]; cbn [wanting].
    - eapply carries_write; [reflexivity|reflexivity|apply write_request_b; unfold sr_write; split; cbn [wq_series wq_unk]; ok_tac|reflexivity|reflexivity|discriminate|vm_compute; reflexivity].
    - eapply carries_read; [reflexivity|reflexivity|apply read_request_b; split; cbn [rq_queries rq_unk pr_read]; ok_tac|reflexivity|reflexivity|vm_compute; reflexivity]. }
  assert (P: Forall ireq_ok (all_points pr_wants)).
  { change (all_points pr_wants) with [([lab "host" "y"; lab "job" "a"], mkTp 9050 13); ([lab "host" "y"; lab "job" "a"], mkTp 9060 14)]. reqs_tac. }
  split.
  { split; [|split; [exact P|split; [vm_compute; reflexivity|left; apply timely_check; [exact P|vm_compute; reflexivity]]]].
    assert (N: forall q, unmixed_among (fun _ => ex_choices) (all_sets (left_parts (f_clock slow_fs) 0 0 ag_lives) (written [] ++ all_points pr_wants)) q).
    { intros q. apply (of_length _ _ q 2). apply Forall_forall. intros x Hx.
      assert (B: forallb (fun ls => (length ls =? 2)%nat) (all_sets (left_parts (f_clock slow_fs) 0 0 ag_lives) (written [] ++ all_points pr_wants)) = true) by (vm_compute; reflexivity).
      rewrite forallb_forall in B. apply Nat.eqb_eq. exact (B x Hx). }
    set (sets := all_sets _ _) in *. clearbody sets. unfold pr_wants.
    constructor; [|constructor; [|constructor]].
    - exact I.
    - cbn [want_ok rq_queries pr_read]. constructor; [|constructor]. split; [cbn [asked_labels pq_matchers map mt_name mt_value]; labs_tac|]. apply N. }
  split; [apply (pg_brief_ends _ tt); vm_compute; reflexivity|]. vm_compute. reflexivity.
Qed.
