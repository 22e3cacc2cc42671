(* The server and the swap thread, on an empty directory and on one that earlier processes have left; and that they
   never wait for each other forever. *)
From Coq Require Import ZifyBool ZifyNat Permutation.
From Verif Require Import Rust Prog Gorilla GorillaSpec Storage StorageSpec Labels IndexSpec Indexer Chunk ChunkSpec ConcSpec Utils DirSpec TiKvInit Db DbSpec
  ReopenSpec LossSpec LossDbSpec FaultsSpec FaultsProofs SwapSpec ReadsSpec WritersSpec WritersConc SharedSpec SharedFacts AgainSpec Again
  Proto ProtoSpec Server ServerSpec ServingSpec Serving LockSpec LockProofs LockDead.

(** ** no deadlock *)
Lemma wp_results bs ch qs : forall k n, wp (query_results bs ch k qs) n [] (kept n []).
Proof.
  induction qs as [|q qs IH]; intros k n; cbn [query_results]; [split; [lia|reflexivity]|].
  apply wp_bind. eapply wp_mono; [|apply wp_query]. intros r m H' [L ->].
  assert (G: forall found, wp (let? rest := query_results bs ch (S k) qs in Ret (Ok (mkQResult (map wire_series found) [] :: rest))) m [] (kept n [])).
  { intros found. apply wp_bind. eapply wp_mono; [|apply IH]. intros x m' H' [L' ->]. destruct x; split; lia || reflexivity. }
  destruct r as [found|e|]; [apply (G found)|apply (G [])|split; [lia|reflexivity]].
Qed.
Lemma wp_series l : forall n, wp (write_series l) n [] (kept n []).
Proof.
  induction l as [|s l IH]; intros n; cbn [write_series]; [split; [lia|reflexivity]|].
  apply wp_bind. eapply wp_mono; [|apply wp_points]. intros r m H' [L ->].
  destruct r as [u|e|]; [|split; [lia|reflexivity]|split; [lia|reflexivity]].
  eapply wp_mono; [|apply IH]. intros x m' H' [L' ->]. split; [lia|reflexivity].
Qed.
Lemma wp_process sv z bs ch rq n : wp (process sv z bs ch rq) n [] (kept n []).
Proof.
  unfold process. destruct (rq_content rq) as [c|]; [|split; [lia|reflexivity]]. destruct (decompress z c) as [body|]; [|split; [lia|reflexivity]].
  destruct (bytes_eqb (rq_url rq) (sv_read_path sv)).
  - destruct (merge_from read_request_read body read_request_new) as [m ok]. destruct (negb ok || (read_request_size m =? 0)); [split; [lia|reflexivity]|].
    apply wp_bind. unfold server_query. apply wp_bind. eapply wp_mono; [|apply wp_results]. intros r m' H' [L ->].
    destruct r as [l|e|]; (split; [lia|reflexivity]).
  - destruct (bytes_eqb (rq_url rq) (sv_write_path sv)); [|split; [lia|reflexivity]].
    destruct (merge_from write_request_read body write_request_new) as [m ok].
    apply wp_bind. unfold server_write. eapply wp_mono; [|apply wp_series]. intros r m' H' [L ->]. split; [lia|reflexivity].
Qed.
Lemma wp_serve sv z bs ch rqs : forall k n, wp (serve sv z bs ch k rqs) n [] (kept n []).
Proof.
  induction rqs as [|rq rqs IH]; intros k n; cbn [serve]; [split; [lia|reflexivity]|].
  apply wp_bind. eapply wp_mono; [|apply wp_process]. intros r m H' [L ->]. destruct r as [x|e|]; [|split; [lia|reflexivity]|split; [lia|reflexivity]].
  apply wp_bind. eapply wp_mono; [|apply IH]. intros y m' H' [L' ->]. split; [lia|reflexivity].
Qed.
Lemma at_work_clean cf starts sv z bs ch rqs : Forall clean (at_work cf starts sv z bs ch rqs).
Proof.
  unfold at_work. constructor; [|constructor; [|constructor]].
  - apply kept_clean. intros n. unfold rotator. apply wp_bind. eapply wp_mono; [|apply wp_sequence].
    + intros a m H' [L ->]. split; [lia|reflexivity].
    + intros p m H. apply in_map_iff in H as (s & <- & _). apply wp_swap.
  - apply kept_clean. intros n. apply wp_serve.
Qed.
Section Progress.
  Context (cf : config) (f : fworld) (w0 : dworld) (ops : list dop) (rs0 : list (res unit)) (w : dworld).
  Hypothesis Ho : db_open cf f = Some (Ok tt, w0).
  Hypothesis Ha : db_after_from cf ops w0 = Some (rs0, w).
  Lemma serving_inv starts sv z bs ch rqs : exists Hs, inv (at_work cf starts sv z bs ch rqs) w Hs.
  Proof. eexists. apply inv_init; [apply at_work_clean|]. exact (after_counted _ _ _ _ _ (open_counted _ _ _ Ho) Ha). Qed.
  Theorem serving_never_stuck starts sv z bs ch rqs g sched : lets_someone g ->
    let '(ts, w') := obeying g [] sched (at_work cf starts sv z bs ch rqs) w in
    (forall p, In p ts -> finished p) \/ exists i ts' w'', move g sched ts w' i = Some (ts', w'').
  Proof.
    intros G. destruct (serving_inv starts sv z bs ch rqs) as (Hs & I). destruct (obeying_inv g sched [] _ _ Hs I) as (Hs' & I'). destruct (obeying g [] sched _ w) as [ts w'].
    destruct (fin_dec ts) as [F|U]; [now left|right]. exact (no_deadlock g sched ts w' Hs' G I' U).
  Qed.
  Theorem serving_can_finish starts sv z bs ch rqs g sched : lets_someone g ->
    exists more, forall p, In p (fst (obeying g [] (sched ++ more) (at_work cf starts sv z bs ch rqs) w)) -> finished p.
  Proof.
    intros G. destruct (serving_inv starts sv z bs ch rqs) as (Hs & I). destruct (obeying_inv g sched [] _ _ Hs I) as (Hs' & I').
    destruct (obeying g [] sched _ w) as [ts w'] eqn:E. destruct (can_finish g G ts (later_wf ts) sched w' Hs' I') as (more & F). exists more.
    rewrite obeying_app, E. exact F.
  Qed.
End Progress.

(** ** where the work may start *)
Theorem served_empty cf f ops rs0 starts w00 w sv z bs ch rqs l sched p0 rss r v : let t0 := f_clock f (f_ticks f) in
  env_weak f -> empty_dir f -> db_open cf f = Some (Ok tt, w00) -> ops_ok cf t0 ops -> db_after_from cf ops w00 = Some (rs0, w) ->
  starts_ok cf (last_start t0 ops) (map OpSwap starts) ->
  bs_contract bs -> (forall k n, hasher_ok (fst (ch k n))) -> Forall2 (wanting sv z) rqs l -> wants_ok ch cf [] ops l ->
  interleave dhandler sched (at_work cf starts sv z bs ch rqs) w = ([p0; Ret (Served (rss, r))], v) ->
  exists turns post, conversation (chunks_after cf t0 ops rs0) z [] l turns rss r /\
    let log := turns ++ post in
    Forall (fun e => e_who e <= 1)%nat log /\ of_thread 1 post = [] /\
    (exists v', one_by_one cf log w v' /\ (finished p0 -> v' = v)) /\
    (exists rest rs, rotations starts (of_thread 0 log ++ rest) rs /\ forall x, p0 = Ret x -> rest = [] /\ x = Swaps (Rotated rs)) /\
    reported cf t0 (ops ++ map e_op log) (rs0 ++ map e_res log).
Proof.
  intros t0 He Hd Hopen Ho Ha Hs Hb Hh Hw Hok Hi. destruct (start_empty cf f ops w00 He Hd Hopen Ho) as [S1 S2].
  exact (served cf [] t0 ops rs0 starts w00 w sv z bs ch rqs l sched p0 rss r v S1 S2 (Forall_nil _) Ho Ha Hs Hb Hh Hw Hok Hi).
Qed.
Lemma reread_sets l l' : Forall2 reread l l' -> forall reqs, all_sets l' reqs = all_sets l reqs.
Proof.
  intros F reqs. unfold all_sets. f_equal. f_equal. induction F as [|c c' l l' H F IH]; [reflexivity|]. cbn [map]. destruct H as (-> & _). now rewrite IH.
Qed.
Theorem served_again f L cf w1 : env_ok f -> empty_dir f -> monotone (f_clock f) ->
  lives_ok (f_clock f) (f_ticks f) 0 (-1) (map fst (once_more L cf)) -> live_off (once_more L cf) f = Some w1 ->
  let t0 := opened_at (f_clock f) (f_ticks f) 0 L in
  forall fl ops rs0 starts w sv z bs ch rqs l sched p0 rss r v,
  ops_ok cf t0 ops -> db_after_from cf ops (failing fl w1) = Some (rs0, w) -> starts_ok cf (last_start t0 ops) (map OpSwap starts) ->
  timely (life_written (map fst L)) ->
  bs_contract bs -> (forall k n, hasher_ok (fst (ch k n))) -> Forall2 (wanting sv z) rqs l -> wants_ok ch cf (left_parts (f_clock f) (f_ticks f) 0 L) ops l ->
  interleave dhandler sched (at_work cf starts sv z bs ch rqs) w = ([p0; Ret (Served (rss, r))], v) ->
  exists old turns post, Forall2 reread (left_parts (f_clock f) (f_ticks f) 0 L) old /\ conversation (fun log => old ++ chunks_after cf t0 ops rs0 log) z [] l turns rss r /\
    let log := turns ++ post in
    Forall (fun e => e_who e <= 1)%nat log /\ of_thread 1 post = [] /\
    (exists v', one_by_one cf log w v' /\ (finished p0 -> v' = v)) /\
    (exists rest rs, rotations starts (of_thread 0 log ++ rest) rs /\ forall x, p0 = Ret x -> rest = [] /\ x = Swaps (Rotated rs)) /\
    reported cf t0 (ops ++ map e_op log) (rs0 ++ map e_res log).
Proof.
  intros He Hd Hm HL Hlive t0 fl ops rs0 starts w sv z bs ch rqs l sched p0 rss r v Ho Ha Hs T Hb Hh Hw Hok Hi.
  destruct (start_again f L cf w1 He Hd Hm HL Hlive) as (old & F & S0). destruct (S0 fl) as [S1 S2].
  assert (Hok': wants_ok ch cf old ops l) by (unfold wants_ok in *; now rewrite (reread_sets _ _ F)).
  destruct (served cf old t0 ops rs0 starts (failing fl w1) w sv z bs ch rqs l sched p0 rss r v S1 S2 (again_ok f L cf HL old F T) Ho Ha Hs Hb Hh Hw Hok' Hi) as (turns & post & H).
  exists old, turns, post. split; [exact F|exact H].
Qed.
