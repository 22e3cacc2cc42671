(* Property C79: processes work on a directory one after the other, and any of them may end in the
   middle of a write. *)
From Coq Require Import Permutation Sorted String.
From Verif Require Import Rust Prog Gorilla GorillaSpec Storage StorageSpec StorageProofs Labels Indexer IndexSpec
  Chunk ChunkSpec ChunkProofs ChunkFacts Conc Utils DirSpec TiKvInit Db DbSpec DbProofs DbHist RangeSpec RangeProofs DbFacts ReopenSpec ReopenProofs OpenProofs CrashOpen CrashKeep StopSpec
  SearchSpec SearchProofs TornSpec TornProofs TornKnown TornAll TornLivesSpec TornLives TornManySpec TornMany TornCuts PropsChunk PropsDb PropsReopen PropsCrash PropsTorn PropsTornLives.
Local Notation lab k v := (mkLabel (s2b k) (s2b v)).
Local Notation length := List.length.

(* L: the processes before, each with what it did and the write, if any, at work on which it ended.
   Whatever they left, the next process opens the directory, does ops with the outcomes they always
   have (its first window starts at the reading of the clock that follows one for each chunk left), and
   every query succeeds: each chunk at work on which no process ended gives all it holds, and so does
   each other one if the write that was cut shares no label with the query or was to a series the window
   had; otherwise it gives, for each series, nothing or all of its points in the range; D says how much of each write that was cut was done. *)
Theorem C79_every_query : forall f L cf ops, env_ok f -> empty_dir f -> monotone (f_clock f) ->
  let all := L ++ [mkCut cf ops None] in
  cuts_ok (f_clock f) (f_ticks f) 0 (-1) all -> timely (cut_written all) ->
  exists D f' w, Forall2 done_by L D /\ live_cut L f = Some f' /\
    db_after cf f' ops = Some (outcomes cf (f_clock f (f_ticks f' + length (cut_parts (f_clock f) (f_ticks f) 0 (combine L D)))%nat) ops, w) /\
    forall hs bs o q s e, let P := cut_parts (f_clock f) (f_ticks f) 0 (combine all (D ++ [[]])) in
      hasher_ok hs -> bs_contract bs -> Forall lab_ok q -> s <= e -> apart_in hs (map snd P) ->
      exists r, drun (db_query hs bs o q s e) w = Some (Ok r, w) /\ answer_torn P q s e r.
Proof. exact cuts_refine. Qed.
Print Assumptions C79_every_query.

(* hence nothing is missing from the answer to a query that no cut could harm *)
Theorem C79_spared_queries : forall f L cf ops, env_ok f -> empty_dir f -> monotone (f_clock f) ->
  let all := L ++ [mkCut cf ops None] in
  cuts_ok (f_clock f) (f_ticks f) 0 (-1) all -> timely (cut_written all) ->
  exists D f' w, Forall2 done_by L D /\ live_cut L f = Some f' /\
    db_after cf f' ops = Some (outcomes cf (f_clock f (f_ticks f' + length (cut_parts (f_clock f) (f_ticks f) 0 (combine L D)))%nat) ops, w) /\
    forall hs bs o q s e, let P := cut_parts (f_clock f) (f_ticks f) 0 (combine all (D ++ [[]])) in
      hasher_ok hs -> bs_contract bs -> Forall lab_ok q -> s <= e -> apart_in hs (map snd P) -> (forall x Q, In x P -> fst x = Some Q -> Q q) ->
      exists r, drun (db_query hs bs o q s e) w = Some (Ok r, w) /\ NoDup (map fst r) /\
        forall m pts, In (m, pts) r <-> pts <> [] /\ pts = concat (map (fun c => piece c q s e m) (map snd P)).
Proof. exact cuts_spared. Qed.
Print Assumptions C79_spared_queries.

(* two processes, both cut at work on a write that starts a series, and a third one *)
Definition cut_first (n m : nat) : list cut_life :=
  [mkCut (ex_config Sled Sled) ex_ops (Some (OpPoint [lab "host" "v"; lab "job" "a"] (mkTp 1170 3), n));
   mkCut (ex_config Sled Sled) late_ops (Some (OpPoint [lab "host" "z"; lab "job" "a"] (mkTp 4260 1), m))].
Definition cut_then : list dop := [OpPoint [lab "host" "y"; lab "job" "a"] (mkTp 9010 12)].
Definition ask_cuts (n m : nat) (q : list label) (s e : Z) :=
  match live_cut (cut_first n m) slow_fs with
  | Some f' =>
      match db_after (ex_config Sled Sled) f' cut_then with
      | Some (rs, w) => Some (rs, option_map fst (drun (db_query all_probe scan_bs no_timing q s e) w))
      | None => None
      end
  | None => None
  end.
Example C79_case : let all n m := cut_first n m ++ [mkCut (ex_config Sled Sled) cut_then None] in let q := [lab "job" "a"] in
  (forall n m, cuts_ok (f_clock slow_fs) 0 0 (-1) (all n m) /\ timely (cut_written (all n m)) /\
    forall d1 d2, In d1 [[]; [OpPoint [lab "host" "v"; lab "job" "a"] (mkTp 1170 3)]] -> In d2 [[]; [OpPoint [lab "host" "z"; lab "job" "a"] (mkTp 4260 1)]] ->
      apart_in all_probe (map snd (cut_parts (f_clock slow_fs) 0 0 (combine (all n m) [d1; d2; []])))) /\
  let x l := ([lab "host" "x"; lab "job" "a"], [mkTp 1010 7] ++ l ++ [mkTp 4050 10]) in
  let y l := ([lab "host" "y"; lab "job" "a"], [mkTp 1011 1; mkTp 1050 2] ++ l ++ [mkTp 9010 12]) in
  let z := ([lab "host" "z"; lab "job" "a"], [mkTp 4260 1]) in
  let v := ([lab "host" "v"; lab "job" "a"], [mkTp 1170 3]) in
  ask_cuts 0 0 q 1000 10000 = Some ([Ok tt], Some (Ok [y [mkTp 4250 11]; x [mkTp 1150 8; mkTp 1160 9]])) /\
  ask_cuts 11 11 q 1000 10000 = Some ([Ok tt], Some (Ok [y []; x []])) /\
  ask_cuts 11 30 q 1000 10000 = Some ([Ok tt], Some (Ok [y [mkTp 4250 11]; z; x []])) /\
  ask_cuts 30 30 q 1000 10000 = Some ([Ok tt], Some (Ok [y [mkTp 4250 11]; z; x [mkTp 1150 8; mkTp 1160 9]; v])).
Proof.
  cbv zeta. split.
  { intros n m. split; [|split].
    - cbn [app cut_first cuts_ok cl_cf cl_ops cl_cut began].
      assert (A: ascii (cf_base (ex_config Sled Sled))) by (unfold ascii; cbn; repeat constructor; lia).
      split; [reflexivity|]. split; [reflexivity|]. split; [exact A|]. split; [vm_compute; reflexivity|].
      split. { split; [discriminate|]; split; [vm_compute; discriminate|]; split; [cbn; lia|]; split; [vm_compute; reflexivity|];
        split; [cbn [starts_ok ex_ops app]; repeat split; vm_compute; reflexivity|];
        split; [cbn [written ex_ops map app]; reqs_tac|]; cbn; lia. }
      split; [eexists; left; eauto|]. split; [stored_tac|].
      split; [reflexivity|]. split; [reflexivity|]. split; [exact A|]. split; [vm_compute; reflexivity|].
      split. { split; [discriminate|]; split; [vm_compute; discriminate|]; split; [cbn; lia|]; split; [vm_compute; reflexivity|];
        split; [cbn [starts_ok late_ops app]; repeat split; vm_compute; reflexivity|];
        split; [cbn [written late_ops map app]; reqs_tac|]; cbn; lia. }
      split; [eexists; left; eauto|]. split; [stored_tac|].
      split; [reflexivity|]. split; [reflexivity|]. split; [exact A|]. split; [vm_compute; reflexivity|].
      split. { split; [discriminate|]; split; [vm_compute; discriminate|]; split; [cbn; lia|]; split; [vm_compute; reflexivity|];
        split; [cbn [starts_ok cut_then app]; repeat split; vm_compute; reflexivity|];
        split; [cbn [written cut_then map app]; reqs_tac|]; cbn; lia. }
      split; [exact I|]. split; [intros K; contradiction|exact I].
    - apply timely_check; [cbn [cut_written cut_first cut_then began cl_ops cl_cut late_ops ex_ops map written app concat]; reqs_tac|vm_compute; reflexivity].
    - intros d1 d2 [<-|[<-|[]]] [<-|[<-|[]]]; apply apart_check; vm_compute; reflexivity. }
  split; [vm_compute; reflexivity|]. split; [vm_compute; reflexivity|]. split; vm_compute; reflexivity.
Qed.
(* a query with no label in common with either write: nothing is missing, wherever the processes end *)
Example C79_spared_case : let q := [lab "host" "x"] in
  (forall n m d1 d2 x Q, In x (cut_parts (f_clock slow_fs) 0 0 (combine (cut_first n m ++ [mkCut (ex_config Sled Sled) cut_then None]) [d1; d2; []])) -> fst x = Some Q -> Q q) /\
  map (fun n => ask_cuts n (16 - n) q 1000 10000) (seq 0 17) =
    repeat (Some ([Ok tt], Some (Ok [([lab "host" "x"; lab "job" "a"], [mkTp 1010 7; mkTp 1150 8; mkTp 1160 9; mkTp 4050 10])]))) 17.
Proof.
  cbv zeta. split; [|vm_compute; reflexivity].
  intros n m d1 d2 x Q Hx HQ. cbn [cut_first app combine cut_parts] in Hx. rewrite app_nil_r in Hx.
  assert (G: forall y st l, In x (marked y st l) -> exists op k, cl_cut y = Some (op, k) /\ Q = spared y st op).
  { intros y st l H. unfold marked in H. destruct (cl_cut y) as [[op k]|]; [apply in_app_or in H as [H|H]|]; apply in_map_iff in H as (z & <- & _); cbn [fst] in HQ; try discriminate.
    exists op, k. split; [reflexivity|congruence]. }
  apply in_app_or in Hx as [Hx|Hx]; [|apply in_app_or in Hx as [Hx|Hx]]; apply G in Hx as (op & k & E & ->); cbn [cl_cut] in E; try discriminate; injection E as <- _;
    eexists; (split; [left; eexists; reflexivity|]); left; intros (l & [<-|[]] & [H|[H|[]]]); discriminate H.
Qed.
