(* Property C39: a crash while a database or a chunk is created, and what the next open makes of it. *)
From Coq Require Import Permutation Sorted String.
From Verif Require Import Rust Prog Gorilla GorillaSpec Storage StorageSpec StorageProofs Labels Indexer IndexSpec
  Chunk ChunkSpec ChunkProofs ChunkFacts Conc Utils DirSpec TiKvInit Db DbSpec DbProofs DbHist RangeSpec RangeProofs DbFacts ReopenSpec ReopenProofs OpenProofs CrashOpen CrashKeep
  PropsChunk PropsDb PropsReopen.
Local Notation lab k v := (mkLabel (s2b k) (s2b v)).
Local Notation length := List.length.

(* the database opens exactly on the directories whose metadata files are complete *)
Theorem C39_open_iff_complete : forall cf f, open_env cf f -> names_ok f -> ~ In metadata_name (map fst (f_dirs f)) ->
  exists r w, db_open cf f = Some (r, w) /\ (r = Ok tt <-> healthy cf f) /\
    (r = Ok tt \/ (exists e, r = Err e) /\ metas (d_fs w) = metas f /\ same_env f (d_fs w) /\ ~ healthy cf (d_fs w)).
Proof. exact open_iff. Qed.
Print Assumptions C39_open_iff_complete.

(* the first start: stopping after n commands.  2: metadata.json created, not written; 7: the chunk
   directory created; 8: its metadata.json created, not written.  From these no later attempt recovers. *)
Theorem C39_new_crash_points : forall cf f n, open_env cf f -> empty_dir f ->
  let g := snd (crash_at fhandler n (db_new cf) f) in
  ((exists w, db_open cf g = Some (Ok tt, w)) <-> ~ In n [2; 7; 8]%nat) /\
  (In n [2; 7; 8]%nat -> forall m, exists g', attempts m cf g = Some g').
Proof. exact new_crash_points. Qed.
Print Assumptions C39_new_crash_points.

(* a swap, after any history *)
Theorem C39_swap_crash_points : forall cf f ops st n, open_env cf f -> empty_dir f ->
  let t0 := f_clock f (f_ticks f) in
  ops_ok cf t0 (ops ++ [OpSwap st]) ->
  exists rs w, db_after cf f ops = Some (rs, w) /\
    let g := stopped cf (snd (crash_at dhandler n (db_swap cf st) w)) in
    ((exists w', db_open cf g = Some (Ok tt, w')) <-> ~ In n [2; 3]%nat) /\
    (In n [2; 3]%nat -> forall m, exists g', attempts m cf g = Some g').
Proof. exact swap_crash_points. Qed.
Print Assumptions C39_swap_crash_points.

(* a restart, after any history *)
Theorem C39_restart_crash_points : forall cf f ops, open_env cf f -> empty_dir f ->
  let t0 := f_clock f (f_ticks f) in
  ops_ok cf t0 ops -> (forall i, (f_ticks f < i)%nat -> last_start t0 ops < f_clock f i) ->
  exists rs w k, db_after cf f ops = Some (rs, w) /\
    forall n, let g := snd (crash_at fhandler n (db_new cf) (stopped cf w)) in
    ((exists w', db_open cf g = Some (Ok tt, w')) <-> ~ In n [k + 1; k + 2]%nat) /\
    (In n [k + 1; k + 2]%nat -> forall m, exists g', attempts m cf g = Some g').
Proof. exact reopen_crash_points. Qed.
Print Assumptions C39_restart_crash_points.

(* where the next open succeeds, the answers are those given before the swap *)
Theorem C39_answers_kept : forall cf f ops st n hs bs o q s e, open_env cf f -> empty_dir f -> monotone (f_clock f) ->
  cf_st cf = Sled -> cf_ix cf = Sled ->
  let t0 := f_clock f (f_ticks f) in
  ops_ok cf t0 (ops ++ [OpSwap st]) -> timely (written ops) ->
  (forall i, (f_ticks f < i)%nat -> st < f_clock f i) ->
  (forall p, stored (parts cf t0 ops) p -> tp_ts p <= f_clock f (S (f_ticks f))) ->
  hasher_ok hs -> bs_contract bs -> Forall lab_ok q -> unmixed hs (parts cf t0 ops) q s e ->
  ~ In n [2; 3]%nat ->
  exists rs w r w' r', db_after cf f ops = Some (rs, w) /\ drun (db_query hs bs o q s e) w = Some (r, w) /\
    db_open cf (stopped cf (snd (crash_at dhandler n (db_swap cf st) w))) = Some (Ok tt, w') /\
    drun (db_query hs bs o q s e) w' = Some (r', w') /\ alike r r'.
Proof. exact swap_crash_keeps. Qed.
Print Assumptions C39_answers_kept.

Definition opens (cf : config) (f : fworld) : bool := match db_open cf f with Some (Ok _, _) => true | _ => false end.
Definition swap_crashed (n : nat) : fworld :=
  match db_after (ex_config Sled Sled) slow_fs ex_ops with
  | Some (_, w) => stopped (ex_config Sled Sled) (snd (crash_at dhandler n (db_swap (ex_config Sled Sled) 1300) w))
  | None => slow_fs
  end.
Definition restart_crashed (n : nat) : fworld :=
  match db_after (ex_config Sled Sled) slow_fs ex_ops with
  | Some (_, w) => snd (crash_at fhandler n (db_new (ex_config Sled Sled)) (stopped (ex_config Sled Sled) w))
  | None => slow_fs
  end.
Definition ask_before (q : list label) (s e : Z) :=
  match db_after (ex_config Sled Sled) slow_fs ex_ops with
  | Some (_, w) => option_map fst (drun (db_query all_probe scan_bs no_timing q s e) w)
  | None => None
  end.
Definition ask_crashed (n : nat) (q : list label) (s e : Z) :=
  match db_open (ex_config Sled Sled) (swap_crashed n) with
  | Some (Ok _, w) => option_map fst (drun (db_query all_probe scan_bs no_timing q s e) w)
  | _ => None
  end.
Lemma slow_env : env_ok slow_fs.
Proof.
  split; [intros l; symmetry; apply Permutation_rev|]. split; [intros n; apply repeat_length|].
  split; [|reflexivity]. intros n. unfold u64, slow_fs. cbn [f_clock]. lia.
Qed.
(* every crash point of a first start, of a swap after a history and of the restart after it; and
   the answer after a crash in the middle of the swap, which is the one given before it *)
Example C39_case :
  open_env (ex_config Sled Sled) slow_fs /\ empty_dir slow_fs /\ monotone (f_clock slow_fs) /\
  ops_ok (ex_config Sled Sled) 1000 (ex_ops ++ [OpSwap 1300]) /\
  (forall i, (0 < i)%nat -> 1300 < f_clock slow_fs i) /\
  (forall p, stored (parts (ex_config Sled Sled) 1000 ex_ops) p -> tp_ts p <= f_clock slow_fs 1) /\
  timely (written ex_ops) /\ unmixed all_probe (parts (ex_config Sled Sled) 1000 ex_ops) [lab "job" "a"] 1000 5000 /\
  map (fun n => opens (ex_config Sled Sled) (snd (crash_at fhandler n (db_new (ex_config Sled Sled)) slow_fs))) (seq 0 12) =
    [true; true; false; true; true; true; true; false; false; true; true; true] /\
  map (fun n => opens (ex_config Sled Sled) (swap_crashed n)) (seq 0 10) =
    [true; true; false; false; true; true; true; true; true; true] /\
  map (fun n => opens (ex_config Sled Sled) (restart_crashed n)) (seq 0 18) = repeat true 13 ++ [false; false; true; true; true] /\
  map (fun n => ask_crashed n [lab "job" "a"] 1000 5000) [0; 1; 4; 5; 6; 7; 8]%nat = repeat (ask_before [lab "job" "a"] 1000 5000) 7 /\
  exists r, ask_before [lab "job" "a"] 1000 5000 = Some (Ok r) /\ length r = 2%nat.
Proof.
  split.
  { split; [exact slow_env|]. split; [discriminate|]. split; [unfold ascii; cbn; repeat constructor; lia|].
    split; [cbn; lia|]. intros i. unfold slow_fs. cbn [f_clock ex_config cf_size]. lia. }
  split; [split; reflexivity|]. split.
  { intros i j H. unfold slow_fs. cbn [f_clock]. lia. }
  split.
  { split; [discriminate|]. split; [lia|]. split; [cbn; lia|]. split; [vm_compute; reflexivity|]. split; [cbn; lia|].
    split; [cbn [written ex_ops map app]; reqs_tac|]. cbn. lia. }
  split. { intros i H. unfold slow_fs. cbn [f_clock]. lia. }
  split. { assert (K: 0 = 0 -> forall p, stored (parts (ex_config Sled Sled) 1000 ex_ops) p -> tp_ts p <= f_clock slow_fs 1) by stored_tac. exact (K eq_refl). }
  split. { apply timely_check; [cbn [written ex_ops map app]; reqs_tac|vm_compute; reflexivity]. }
  split; [apply unmixed_check; vm_compute; reflexivity|].
  split; [vm_compute; reflexivity|]. split; [vm_compute; reflexivity|].
  split; [vm_compute; reflexivity|]. split; [vm_compute; reflexivity|]. eexists. split; vm_compute; reflexivity.
Qed.
