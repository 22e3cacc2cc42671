(* Properties of a database whose file operations may fail while it runs: C59. *)
From Coq Require Import String Permutation.
From Verif Require Import Rust Prog Gorilla GorillaSpec Storage StorageSpec StorageProofs Labels Indexer IndexSpec
  Chunk ChunkSpec ChunkProofs ChunkFacts Utils DirSpec TiKvInit Db DbSpec DbProofs DbHist RangeSpec RangeProofs DbFacts PropsChunk PropsDb ReopenSpec FaultsSpec FaultsMain.
Local Notation lab k v := (mkLabel (s2b k) (s2b v)).
Local Notation length := List.length.

(** C59: an opening that succeeded, then any history, while any file operations fail.  The results
    and the answers are those of a database that was never asked for the swaps that failed; no
    call panics or blocks; without failures no swap fails ([u]: what befell the file operations of
    the history) *)
Theorem C59_history : forall cf f ops w0, env_weak f -> empty_dir f -> let t0 := f_clock f (f_ticks f) in
  ops_ok cf t0 ops -> db_open cf f = Some (Ok tt, w0) ->
  exists rs w u, db_after_from cf ops w0 = Some (rs, w) /\ reported cf t0 ops rs /\
    f_faults (d_fs w0) = u ++ f_faults (d_fs w) /\ (~ In true u -> performed ops rs = ops) /\
    forall hs bs o q s e, timely (written ops) -> hasher_ok hs -> bs_contract bs -> Forall lab_ok q ->
      unmixed hs (parts cf t0 (performed ops rs)) q s e ->
      exists r, drun (db_query hs bs o q s e) w = Some (r, w) /\ comes_to (parts cf t0 (performed ops rs)) q s e r.
Proof. exact faulty_refines. Qed.
Print Assumptions C59_history.

(* a swap fails only when a file operation of it does; then nothing changes but files: writes are
   taken and refused as before, and queries give the very same answer *)
Theorem C59_failed_swap : forall cf f ops w0 rs w st, env_weak f -> empty_dir f -> ops_ok cf (f_clock f (f_ticks f)) (ops ++ [OpSwap st]) -> db_open cf f = Some (Ok tt, w0) ->
  db_after_from cf ops w0 = Some (rs, w) ->
  exists r w' u, drun (db_swap cf st) w = Some (r, w') /\ f_faults (d_fs w) = u ++ f_faults (d_fs w') /\ r <> Panic /\
    forall e, r = Err e -> In true u /\ w' = set_fs w (d_fs w') /\
      (forall ls p r1 w1, set_ok ls -> tp_ok p -> drun (db_write_point ls p) w = Some (r1, w1) -> exists w2, drun (db_write_point ls p) w' = Some (r1, w2)) /\
      forall hs bs o q s e r1, timely (written ops) -> hasher_ok hs -> bs_contract bs -> Forall lab_ok q ->
        drun (db_query hs bs o q s e) w = Some (r1, w) -> drun (db_query hs bs o q s e) w' = Some (r1, w').
Proof. exact failed_swap. Qed.
Print Assumptions C59_failed_swap.

(* two swaps of this history fail, one after the other, and the third does not *)
Definition ex_ops2 : list dop :=
  [OpPoint [lab "job" "a"; lab "host" "x"] (mkTp 1010 7); OpSwap 1101; OpBatch [lab "job" "a"] [mkTp 1011 1; mkTp 1050 2; mkTp 2000 3];
   OpSwap 1150; OpPoint [lab "job" "a"; lab "host" "x"] (mkTp 1060 7); OpSwap 1160; OpPoint [lab "job" "a"; lab "host" "x"] (mkTp 1170 8)].
Definition ex_fails (l : list nat) : fworld :=
  mkF None [] (fun l => l) (fun n => 1000 + Z.of_nat (Nat.min n 500)) 0 (fun n => repeat (Z.of_nat n) 16) 0
      (map (fun n => existsb (Nat.eqb n) l) (seq 0 40)).
Example C59_case : let f := ex_fails [10; 14]%nat in exists w0 rs w, env_weak f /\ empty_dir f /\ ops_ok (ex_config Sled Sled) 1000 ex_ops2 /\
  timely (written ex_ops2) /\ db_open (ex_config Sled Sled) f = Some (Ok tt, w0) /\ db_after_from (ex_config Sled Sled) ex_ops2 w0 = Some (rs, w) /\
  rs = [Ok tt; Err InternalErr; Ok tt; Err IoError; Ok tt; Ok tt; Ok tt].
Proof.
  cbv zeta. eexists _, _, _.
  split; [split; [intros l; apply Permutation_refl|split; [intros n; apply repeat_length|intros n; unfold u64, ex_fails; cbn [f_clock]; lia]]|].
  split; [split; reflexivity|].
  assert (O: ops_ok (ex_config Sled Sled) 1000 ex_ops2).
  { split; [discriminate|]. split; [lia|]. split; [cbn; lia|]. split; [cbn; lia|]. split; [cbn; lia|].
    split; [cbn [written ex_ops2 map app]; reqs_tac|]. cbn. lia. }
  split; [exact O|]. split; [apply timely_check; [apply O|vm_compute; reflexivity]|]. split; [vm_compute; reflexivity|split; vm_compute; reflexivity].
Qed.

(* not: the database can be opened again.  After a swap that failed half-way, and also after one
   that reported success although the configuration of the new chunk could not be written, the
   next opening fails, with no file operation failing any more *)
Definition restarted (cf : config) (w : dworld) : fworld :=
  let f := stopped cf w in
  mkF (f_meta f) (f_dirs f) (f_order f) (f_clock f) (f_ticks f) (f_uuid f) (f_drawn f) [].
(* the world an execution ends in *)
Definition world_of {A} (d : dworld) (x : option (A * dworld)) : dworld := match x with Some (_, w) => w | None => d end.
Lemma world_is {A} d (x : option (A * dworld)) a : option_map fst x = Some a -> x = Some (a, world_of d x).
Proof. destruct x as [[b w]|]; cbn; [|discriminate]. intros H. now injection H as ->. Qed.
Definition ex_w0 (l : list nat) : dworld := world_of (mkD [] 0 [] free_lock free_lock ex_fs) (db_open (ex_config Sled Sled) (ex_fails l)).
Definition ex_w1 (l : list nat) : dworld := world_of (ex_w0 l) (drun (db_swap (ex_config Sled Sled) 1101) (ex_w0 l)).

Theorem C59_restart_refuted : exists cf f st w0, env_weak f /\ empty_dir f /\ ops_ok cf (f_clock f (f_ticks f)) [OpSwap st] /\ db_open cf f = Some (Ok tt, w0) /\
  exists e w x w', drun (db_swap cf st) w0 = Some (Err e, w) /\ db_open cf (restarted cf w) = Some (Err x, w').
Proof.
  exists (ex_config Sled Sled), (ex_fails [10]%nat), 1101, (ex_w0 [10]%nat).
  split; [split; [intros l; apply Permutation_refl|split; [intros n; apply repeat_length|intros n; unfold u64, ex_fails; cbn [f_clock]; lia]]|].
  split; [split; reflexivity|]. split.
  { change (ops_ok (ex_config Sled Sled) 1000 [OpSwap 1101]). split; [discriminate|]. split; [lia|]. split; [cbn; lia|]. split; [cbn; lia|]. split; [cbn; lia|]. split; [constructor|]. cbn. lia. }
  split; [apply world_is; vm_compute; reflexivity|]. exists InternalErr, (ex_w1 [10]%nat), NotFoundErr. eexists. split; [apply world_is; vm_compute; reflexivity|].
  apply (world_is (ex_w0 [])). vm_compute. reflexivity.
Qed.
Print Assumptions C59_restart_refuted.
Theorem C59_silent_refuted : exists cf f st w0, env_weak f /\ empty_dir f /\ ops_ok cf (f_clock f (f_ticks f)) [OpSwap st] /\ db_open cf f = Some (Ok tt, w0) /\
  exists w x w', drun (db_swap cf st) w0 = Some (Ok tt, w) /\ db_open cf (restarted cf w) = Some (Err x, w').
Proof.
  exists (ex_config Sled Sled), (ex_fails [11]%nat), 1101, (ex_w0 [11]%nat).
  split; [split; [intros l; apply Permutation_refl|split; [intros n; apply repeat_length|intros n; unfold u64, ex_fails; cbn [f_clock]; lia]]|].
  split; [split; reflexivity|]. split.
  { change (ops_ok (ex_config Sled Sled) 1000 [OpSwap 1101]). split; [discriminate|]. split; [lia|]. split; [cbn; lia|]. split; [cbn; lia|]. split; [cbn; lia|]. split; [constructor|]. cbn. lia. }
  split; [apply world_is; vm_compute; reflexivity|]. exists (ex_w1 [11]%nat), SerdeJsonErr. eexists. split; [apply world_is; vm_compute; reflexivity|].
  apply (world_is (ex_w0 [])). vm_compute. reflexivity.
Qed.
Print Assumptions C59_silent_refuted.
