(* Property C79, for a server: a process ends at work on a write request, in a directory on which
   processes worked that were themselves cut. *)
From Coq Require Import Permutation Sorted String.
From Verif Require Import WireSpec WireMsgs WireWrong WireWritten PropsWire.
From Verif Require Import Rust Prog Gorilla GorillaSpec Storage StorageSpec StorageProofs Labels Indexer IndexSpec
  Chunk ChunkSpec ChunkProofs ChunkFacts Conc Utils DirSpec TiKvInit Db DbSpec DbProofs DbHist RangeSpec RangeProofs DbFacts ReopenSpec ReopenProofs OpenProofs CrashOpen CrashKeep StopSpec
  SearchSpec SearchProofs Proto ProtoSpec ProtoProofs Server ServerSpec ServerProofs TornSpec TornProofs TornKnown TornAll TornServeSpec TornServe TornLivesSpec TornLives TornManySpec TornMany TornCuts
  TornReqSpec TornReq PropsChunk PropsDb PropsReopen PropsCrash PropsProto PropsServer PropsTorn PropsTornLives PropsTornMany PropsRequest.
Local Notation lab k v := (mkLabel (s2b k) (s2b v)).
Local Notation length := List.length.

(* L: the processes before, each ended in the middle of a write or not; f0: the files they left.  The
   next one does ops, gets a write request and ends after n commands of its work on it: it has written
   the first of the series the request asks for, and ended at work on one more.  All that C79 says of
   processes that end in the middle of a write therefore holds of it: the process after it opens the
   directory and answers every query. *)
Theorem C79_in_a_request : forall f L D cf ops sv z bs0 ch rq m n cf' ops', env_ok f -> empty_dir f -> monotone (f_clock f) -> Forall2 done_by L D ->
  forall f0 w0 rs, live_cut L f = Some f0 -> db_after cf f0 ops = Some (rs, w0) ->
  let start := f_clock f (f_ticks f0 + length (cut_parts (f_clock f) (f_ticks f) 0 (combine L D)))%nat in
  let S := applied (current_window cf start ops) (wq_series m) in
  let all := L ++ [mkCut cf (ops ++ batches S) None; mkCut cf' ops' None] in
  cuts_ok (f_clock f) (f_ticks f) 0 (-1) all -> timely (cut_written all) -> carries sv z rq (CWrite m) ->
  let f' := stopped cf (snd (crash_at dhandler n (process sv z bs0 ch rq) w0)) in
  exists y D' w, within y cf ops S /\ Forall2 done_by (L ++ [y]) D' /\
    db_after cf' f' ops' = Some (outcomes cf' (f_clock f (f_ticks f' + length (cut_parts (f_clock f) (f_ticks f) 0 (combine (L ++ [y]) D')))%nat) ops', w) /\
    forall hs bs o q s e, let P := cut_parts (f_clock f) (f_ticks f) 0 (combine ((L ++ [y]) ++ [mkCut cf' ops' None]) (D' ++ [[]])) in
      hasher_ok hs -> bs_contract bs -> Forall lab_ok q -> s <= e -> apart_in hs (map snd P) ->
      exists r, drun (db_query hs bs o q s e) w = Some (Ok r, w) /\ answer_torn P q s e r.
Proof. exact after_request. Qed.
Print Assumptions C79_in_a_request.

(* one process cut at work on a write, a second one at work on a request with two series, and a third one *)
Definition req_first : list cut_life :=
  [mkCut (ex_config Sled Sled) ex_ops (Some (OpPoint [lab "host" "v"; lab "job" "a"] (mkTp 1170 3), 30%nat))].
Definition req_late : write_request := mkWriteReq [ex_wire "p" [4260; 4270]; ex_wire "q" [4265]] [].
Definition ask_req (n : nat) (q : list label) (s e : Z) :=
  match live_cut req_first slow_fs with
  | Some f0 =>
      match db_after (ex_config Sled Sled) f0 late_ops with
      | Some (_, w0) =>
          match db_after (ex_config Sled Sled) (stopped (ex_config Sled Sled) (snd (crash_at dhandler n (process ex_server ex_snappy scan_bs ex_choices (cut_request req_late)) w0))) cut_then with
          | Some (rs, w) => Some (rs, option_map fst (drun (db_query all_probe scan_bs no_timing q s e) w))
          | None => None
          end
      | None => None
      end
  | None => None
  end.
(* a query for the series of the request finds, as the request goes on, nothing, one point, two points,
   nothing, all three; the other series are found in full *)
Example C79_in_a_request_case : let cf := ex_config Sled Sled in
  let S := applied (current_window cf (f_clock slow_fs 3) late_ops) (wq_series req_late) in
  let all := req_first ++ [mkCut cf (late_ops ++ batches S) None; mkCut cf cut_then None] in
  (forall D, Forall2 done_by req_first D -> length (cut_parts (f_clock slow_fs) 0 0 (combine req_first D)) = 2%nat) /\
  option_map f_ticks (live_cut req_first slow_fs) = Some 1%nat /\
  cuts_ok (f_clock slow_fs) 0 0 (-1) all /\ timely (cut_written all) /\
  carries ex_server ex_snappy (cut_request req_late) (CWrite req_late) /\
  S = wq_series req_late /\
  (forall d1 d2 n x y, S = [x; y] -> In d1 [[]; [OpPoint [lab "host" "v"; lab "job" "a"] (mkTp 1170 3)]] ->
    (In d2 [[]; [batch_of x]] -> apart_in all_probe (map snd (cut_parts (f_clock slow_fs) 0 0
       (combine ((req_first ++ [mkCut cf late_ops (Some (batch_of x, n))]) ++ [mkCut cf cut_then None]) [d1; d2; []])))) /\
    (In d2 [[]; [batch_of y]] -> apart_in all_probe (map snd (cut_parts (f_clock slow_fs) 0 0
       (combine ((req_first ++ [mkCut cf (late_ops ++ batches [x]) (Some (batch_of y, n))]) ++ [mkCut cf cut_then None]) [d1; d2; []]))))) /\
  let v := ([lab "host" "v"; lab "job" "a"], [mkTp 1170 3]) in
  let x := ([lab "host" "x"; lab "job" "a"], [mkTp 1010 7; mkTp 1150 8; mkTp 1160 9; mkTp 4050 10]) in
  let y := ([lab "host" "y"; lab "job" "a"], [mkTp 1011 1; mkTp 1050 2; mkTp 4250 11; mkTp 9010 12]) in
  let p k := ([lab "host" "p"; lab "job" "c"], firstn k [mkTp 4260 1; mkTp 4270 1]) in
  let z := ([lab "host" "q"; lab "job" "c"], [mkTp 4265 1]) in
  map (fun n => ask_req n [lab "job" "a"] 1000 10000) (seq 0 40) = repeat (Some ([Ok tt], Some (Ok [y; x; v]))) 40 /\
  map (fun n => ask_req n [lab "job" "c"] 1000 10000) (seq 0 40) = map (fun r => Some ([Ok tt], Some (Ok r)))
    (repeat [] 13 ++ repeat [p 1%nat] 5 ++ repeat [p 2%nat] 11 ++ repeat [] 4 ++ repeat [p 2%nat; z] 7).
Proof.
  cbv zeta.
  assert (TD: applied (current_window (ex_config Sled Sled) (f_clock slow_fs 3) late_ops) (wq_series req_late) = wq_series req_late) by (vm_compute; reflexivity).
  rewrite TD.
  assert (B: batches (wq_series req_late) = [OpBatch [lab "job" "c"; lab "host" "p"] [mkTp 4260 1; mkTp 4270 1]; OpBatch [lab "job" "c"; lab "host" "q"] [mkTp 4265 1]]) by reflexivity.
  assert (A: ascii (cf_base (ex_config Sled Sled))) by (unfold ascii; cbn; repeat constructor; lia).
  split. { intros D F. inversion F as [|? d ? D' F1 F2]; subst. inversion F2; subst. unfold done_by in F1. cbn [cl_cut] in F1. inversion F1; subst; vm_compute; reflexivity. }
  split; [vm_compute; reflexivity|].
  split.
  { rewrite B. cbn [app req_first cuts_ok cl_cf cl_ops cl_cut began].
    split; [reflexivity|]. split; [reflexivity|]. split; [exact A|]. split; [vm_compute; reflexivity|].
    split. { split; [discriminate|]; split; [vm_compute; discriminate|]; split; [cbn; lia|]; split; [vm_compute; reflexivity|];
      split; [cbn [starts_ok ex_ops app]; repeat split; vm_compute; reflexivity|];
      split; [cbn [written ex_ops map app]; reqs_tac|]; cbn; lia. }
    split; [eexists; left; eauto|]. split; [stored_tac|].
    split; [reflexivity|]. split; [reflexivity|]. split; [exact A|]. split; [vm_compute; reflexivity|].
    split. { split; [discriminate|]; split; [vm_compute; discriminate|]; split; [cbn; lia|]; split; [vm_compute; reflexivity|];
      split; [cbn [starts_ok late_ops app]; repeat split; vm_compute; reflexivity|];
      split; [cbn [written late_ops map app]; reqs_tac|]; cbn; lia. }
    split; [exact I|]. split; [stored_tac|].
    split; [reflexivity|]. split; [reflexivity|]. split; [exact A|]. split; [vm_compute; reflexivity|].
    split. { split; [discriminate|]; split; [vm_compute; discriminate|]; split; [cbn; lia|]; split; [vm_compute; reflexivity|];
      split; [cbn [starts_ok cut_then app]; repeat split; vm_compute; reflexivity|];
      split; [cbn [written cut_then map app]; reqs_tac|]; cbn; lia. }
    split; [exact I|]. split; [intros K; contradiction|exact I]. }
  split. { rewrite B. apply timely_check; [cbn [cut_written req_first cut_then began cl_ops cl_cut late_ops ex_ops map written app concat]; reqs_tac|vm_compute; reflexivity]. }
  split. { eapply carries_write; [reflexivity|reflexivity|apply write_request_b; unfold req_late, ex_wire; cbn [map]; split; cbn [wq_series wq_unk]; ok_tac|reflexivity|reflexivity|discriminate|vm_compute; reflexivity]. }
  split; [reflexivity|].
  split. { intros d1 d2 n x y E. cbn [wq_series req_late] in E. injection E as <- <-.
    intros [<-|[<-|[]]]; (split; intros [<-|[<-|[]]]); apply apart_check; vm_compute; reflexivity. }
  split; vm_compute; reflexivity.
Qed.
