(* Properties of the database: C30-C32 and the database parts of C23, C24 and C33. *)
From Coq Require Import Permutation Sorted String.
From Verif Require Import MapProofs.
From Verif Require Import Rust Prog Gorilla GorillaSpec Storage StorageSpec StorageProofs Labels Indexer IndexSpec
  Chunk ChunkSpec ChunkProofs ChunkFacts Utils DirSpec TiKvInit Db DbSpec DbProofs DbHist RangeSpec RangeProofs DbFacts PropsChunk.
Local Notation lab k v := (mkLabel (s2b k) (s2b v)).
Local Notation length := List.length.

(* an empty directory, a clock and a source of uuids; a configuration and a history *)
Definition ex_fs : fworld :=
  mkF None [] (fun l => l) (fun n => 1000 + Z.of_nat (Nat.min n 500)) 0 (fun n => repeat (Z.of_nat n) 16) 0 [].
Definition ex_config (st ix : backend) : config := mkConfig true (s2b "/data") st ix 100.
Definition ex_ops : list dop :=
  [OpPoint [lab "job" "a"; lab "host" "x"] (mkTp 1010 7);
   OpBatch [lab "job" "a"; lab "host" "y"] [mkTp 1011 1; mkTp 1050 2; mkTp 2000 3];
   OpSwap 1101;
   OpPoint [lab "host" "x"; lab "job" "a"] (mkTp 1150 8);
   OpBatch [lab "job" "a"; lab "host" "x"] [mkTp 1160 9; mkTp 1201 4];
   OpPoint [lab "job" "b"; lab "host" "x"] (mkTp 900 5)].
Lemma ex_env : env_ok ex_fs.
Proof.
  split; [intros l; apply Permutation_refl|]. split; [intros n; apply repeat_length|].
  split; [|reflexivity]. intros n. unfold u64, ex_fs. cbn [f_clock]. lia.
Qed.
Lemma ex_empty : empty_dir ex_fs.
Proof. split; reflexivity. Qed.
Lemma ex_ops_ok st ix : ops_ok (ex_config st ix) 1000 ex_ops.
Proof.
  split; [discriminate|]. split; [lia|]. split; [cbn; lia|]. split; [cbn; lia|]. split; [cbn; lia|].
  split; [cbn [written ex_ops map app]; reqs_tac|]. cbn. lia.
Qed.
Lemma ex_timely : timely (written ex_ops).
Proof. apply timely_check; [apply (ex_ops_ok Sled Sled)|vm_compute; reflexivity]. Qed.
Lemma all_probe_ok : hasher_ok all_probe.
Proof.
  split; [|intros ks; apply Permutation_refl]. intros ks k i H. cbn. apply in_seq. split; [lia|]. cbn.
  apply nth_error_Some. congruence.
Qed.
Lemma ex_free hs st ix q s e : unmixed hs (parts (ex_config st ix) 1000 ex_ops) q s e.
Proof. apply unmixed_check. destruct st; vm_compute; reflexivity. Qed.
(* the answer after a history on the empty directory *)
Definition ask (st ix : backend) (ops : list dop) (q : list label) (s e : Z) :=
  match db_after (ex_config st ix) ex_fs ops with
  | Some (_, w) => option_map fst (drun (db_query all_probe scan_bs no_timing q s e) w)
  | None => None
  end.

(** C23, the database *)
Theorem C23_database_sound : forall cf f hs bs o ops q s e, env_ok f -> empty_dir f ->
  let t0 := f_clock f (f_ticks f) in
  ops_ok cf t0 ops -> timely (written ops) -> hasher_ok hs -> bs_contract bs -> Forall lab_ok q -> s <= e ->
  unmixed hs (parts cf t0 ops) q s e ->
  exists rs w r, db_after cf f ops = Some (rs, w) /\ drun (db_query hs bs o q s e) w = Some (Ok r, w) /\
    forall m pts p, In (m, pts) r -> In p pts ->
      s <= tp_ts p <= e /\ (exists ls, In (ls, p) (written ops) /\ same_set ls m) /\
      (* the chunk it comes from: *)
      (exists c pts0, In c (parts cf t0 ops) /\ In p pts0 /\ (exists ls, In (ls, pts0) (snd c) /\ same_set ls m) /\
         in_window (fst c) (tp_ts p) /\
         forall lb, In lb q -> (exists ls' pts', In (ls', pts') (snd c) /\ In lb ls') -> In lb m).
Proof. exact db_sound. Qed.
Print Assumptions C23_database_sound.
Example C23_database_case :
  env_ok ex_fs /\ empty_dir ex_fs /\ ops_ok (ex_config Sled Sled) 1000 ex_ops /\ timely (written ex_ops) /\
  hasher_ok all_probe /\ bs_contract scan_bs /\
  unmixed all_probe (parts (ex_config Sled Sled) 1000 ex_ops) [lab "job" "a"; lab "rack" "7"] 1000 1300 /\
  ask Sled Sled ex_ops [lab "job" "a"; lab "rack" "7"] 1000 1300 =
    Some (Ok [([lab "host" "x"; lab "job" "a"], [mkTp 1010 7; mkTp 1150 8; mkTp 1160 9]);
              ([lab "host" "y"; lab "job" "a"], [mkTp 1011 1; mkTp 1050 2])]).
Proof.
  split; [exact ex_env|]. split; [exact ex_empty|]. split; [apply ex_ops_ok|]. split; [exact ex_timely|].
  split; [exact all_probe_ok|]. split; [exact scan_contract|]. split; [apply ex_free|]. vm_compute. reflexivity.
Qed.

(** C24, the database: a chunk is read completely, or left out of the answer *)
Theorem C24_database_complete : forall cf f hs bs o ops q s e, env_ok f -> empty_dir f ->
  let t0 := f_clock f (f_ticks f) in
  ops_ok cf t0 ops -> timely (written ops) -> hasher_ok hs -> bs_contract bs -> Forall lab_ok q -> s <= e ->
  unmixed hs (parts cf t0 ops) q s e ->
  exists rs w r, db_after cf f ops = Some (rs, w) /\ drun (db_query hs bs o q s e) w = Some (Ok r, w) /\
    forall l1 c l2, parts cf t0 ops = l1 ++ c :: l2 ->
      let readable := (c_start (fst c) <= e /\ s <= c_end (fst c)) /\
        forall ls pts, In (ls, pts) (snd c) -> matches (snd c) q ls = true -> touches s e pts in
      (readable -> forall ls pts p, In (ls, pts) (snd c) -> matches (snd c) q ls = true -> In p pts -> s <= tp_ts p <= e ->
         exists pts', In (sort_labels ls, pts') r /\ In p pts') /\
      (~ readable -> db_answer (l1 ++ l2) q s e r).
Proof. exact db_complete. Qed.
Print Assumptions C24_database_complete.
(* the points of host y at 1050 are in range; they are left out because host x has none after 1012 *)
Example C24_database_case :
  ask Sled TiKvDry ex_ops [lab "job" "a"] 1012 1155 = Some (Ok [([lab "host" "x"; lab "job" "a"], [mkTp 1150 8])]) /\
  ask Sled TiKvDry ex_ops [lab "host" "y"] 1012 1155 = Some (Ok [([lab "host" "y"; lab "job" "a"], [mkTp 1050 2])]).
Proof. vm_compute. split; reflexivity. Qed.

(** C30 *)
Theorem C30_batch_exact : forall cf f ops ls pts, env_ok f -> empty_dir f ->
  let t0 := f_clock f (f_ticks f) in
  ops_ok cf t0 (ops ++ [OpBatch ls pts]) -> set_ok ls ->
  let ch := current_window cf t0 ops in
  let inside := filter (fun p => in_windowb ch (tp_ts p)) pts in
  exists rs w r w', db_after cf f ops = Some (rs, w) /\ drun (db_write_points ls pts) w = Some (r, w') /\
    (r = Err InternalErr <-> exists p, In p pts /\ tp_ts p <> 0 /\ (tp_ts p = c_start ch \/ tp_ts p = c_end ch)) /\
    (r = Err InternalErr \/ r = Ok tt) /\
    (* same effect as writing the points inside the window one by one, each accepted *)
    db_after_from cf (map (OpPoint ls) inside) w = Some (map (fun _ => Ok tt) inside, w').
Proof. exact batch_exact. Qed.
Print Assumptions C30_batch_exact.
Example C30_case :
  let ls := [lab "job" "a"; lab "host" "x"] in
  let b := [mkTp 0 1; mkTp 1170 3; mkTp 1201 2; mkTp 5000 4; mkTp 1180 5] in
  ops_ok (ex_config Sled Sled) 1000 (ex_ops ++ [OpBatch ls b]) /\
  c_start (current_window (ex_config Sled Sled) 1000 ex_ops) = 1101 /\
  last (outcomes (ex_config Sled Sled) 1000 (ex_ops ++ [OpBatch ls b])) (Ok tt) = Err InternalErr /\
  ask Sled Sled (ex_ops ++ [OpBatch ls b]) [lab "host" "x"] 1101 2000 =
    Some (Ok [([lab "host" "x"; lab "job" "a"], [mkTp 1150 8; mkTp 1160 9; mkTp 1170 3; mkTp 1180 5])]).
Proof.
  cbv zeta. split; [|vm_compute; repeat split; reflexivity].
  split; [discriminate|]. split; [lia|]. split; [cbn; lia|]. split; [cbn; lia|]. split; [cbn; lia|].
  split; [cbn [written ex_ops map app]; reqs_tac|]. cbn. lia.
Qed.

(** C31 *)
Theorem C31_merged_in_time_order : forall cf f hs bs o ops q s e, env_ok f -> empty_dir f ->
  let t0 := f_clock f (f_ticks f) in
  ops_ok cf t0 ops -> timely (written ops) -> hasher_ok hs -> bs_contract bs -> Forall lab_ok q -> s <= e ->
  unmixed hs (parts cf t0 ops) q s e ->
  exists rs w r, db_after cf f ops = Some (rs, w) /\ drun (db_query hs bs o q s e) w = Some (Ok r, w) /\
    (forall i j a b, nth_error r i = Some a -> nth_error r j = Some b -> same_set (fst a) (fst b) -> i = j) /\
    (forall m pts, In (m, pts) r -> increasing pts /\ pts <> []).
Proof. exact db_ordered. Qed.
Print Assumptions C31_merged_in_time_order.
(* the answer in full *)
Theorem C31_answer_exact : forall cf f hs bs o ops q s e, env_ok f -> empty_dir f ->
  let t0 := f_clock f (f_ticks f) in
  ops_ok cf t0 ops -> timely (written ops) -> hasher_ok hs -> bs_contract bs -> Forall lab_ok q -> s <= e ->
  unmixed hs (parts cf t0 ops) q s e ->
  exists w r, db_after cf f ops = Some (outcomes cf t0 ops, w) /\
    drun (db_query hs bs o q s e) w = Some (Ok r, w) /\ db_answer (parts cf t0 ops) q s e r.
Proof. exact db_refines. Qed.
Print Assumptions C31_answer_exact.
(* without the proviso: a point is reported under a label set it was not written under, or the
   query panics *)
Theorem C31_prefix_refuted :
  (exists cf f hs ops q s e w r m pts p, env_ok f /\ empty_dir f /\ hasher_ok hs /\
     ops_ok cf (f_clock f (f_ticks f)) ops /\ timely (written ops) /\ Forall lab_ok q /\ s <= e /\
     db_after cf f ops = Some (outcomes cf (f_clock f (f_ticks f)) ops, w) /\
     drun (db_query hs scan_bs no_timing q s e) w = Some (Ok r, w) /\ In (m, pts) r /\ In p pts /\
     ~ exists ls, In (ls, p) (written ops) /\ same_set ls m) /\
  (exists cf f hs ops q s e w w', env_ok f /\ empty_dir f /\ hasher_ok hs /\
     ops_ok cf (f_clock f (f_ticks f)) ops /\ timely (written ops) /\ Forall lab_ok q /\ s <= e /\
     db_after cf f ops = Some (outcomes cf (f_clock f (f_ticks f)) ops, w) /\
     drun (db_query hs scan_bs no_timing q s e) w = Some (Panic, w')).
Proof.
  split.
  - set (ops := [OpPoint [lab "a" "1"] (mkTp 1010 5); OpSwap 1101; OpPoint [lab "a" "1"; lab "b" "2"] (mkTp 1110 6)]).
    exists (ex_config Sled Sled), ex_fs, all_probe, ops, [lab "a" "1"], 1000, 2000.
    eexists _, _, [lab "a" "1"; lab "b" "2"], [mkTp 1010 5; mkTp 1110 6], (mkTp 1010 5).
    assert (O: ops_ok (ex_config Sled Sled) 1000 ops).
    { split; [discriminate|]. split; [lia|]. split; [cbn; lia|]. split; [cbn; lia|]. split; [cbn; lia|].
      split; [cbn [written ops map app]; reqs_tac|]. cbn. lia. }
    split; [exact ex_env|]. split; [exact ex_empty|]. split; [exact all_probe_ok|]. split; [exact O|].
    split; [apply timely_check; [apply O|vm_compute; reflexivity]|]. split; [labs_tac|]. split; [lia|].
    split; [vm_compute; reflexivity|]. split; [vm_compute; reflexivity|]. split; [left; reflexivity|]. split; [now left|].
    intros (ls & [E|[E|[]]] & Hs).
    + assert (ls = [lab "a" "1"]) as -> by congruence. apply Permutation_length in Hs. discriminate.
    + discriminate E.
  - set (ops := [OpPoint [lab "a" "1"; lab "b" "2"] (mkTp 1010 5); OpSwap 1101; OpPoint [lab "a" "1"] (mkTp 1110 6)]).
    exists (ex_config Sled Sled), ex_fs, all_probe, ops, [lab "a" "1"], 1000, 2000. eexists _, _.
    assert (O: ops_ok (ex_config Sled Sled) 1000 ops).
    { split; [discriminate|]. split; [lia|]. split; [cbn; lia|]. split; [cbn; lia|]. split; [cbn; lia|].
      split; [cbn [written ops map app]; reqs_tac|]. cbn. lia. }
    split; [exact ex_env|]. split; [exact ex_empty|]. split; [exact all_probe_ok|]. split; [exact O|].
    split; [apply timely_check; [apply O|vm_compute; reflexivity]|]. split; [labs_tac|]. split; [lia|].
    split; [vm_compute; reflexivity|]. vm_compute; reflexivity.
Qed.
Print Assumptions C31_prefix_refuted.
(* when the proviso holds: no label set of the answer is a proper prefix of another, or the map compares
   only keys of equal tags (hashbrown: 7 bits of the hash and the group of the table) and no two such
   label sets have the same tag *)
Theorem C31_unmixed : forall hs l q s e,
  (forall c c' m x, In c l -> In c' l -> piece c q s e m <> [] -> piece c' q s e (m ++ x) <> [] -> x = []) \/
  (exists tag : list label -> Z,
     (forall ks k i k', In i (h_probe hs ks k) -> nth_error ks i = Some k' -> tag k' = tag k) /\
     (forall c c' m x, In c l -> In c' l -> piece c q s e m <> [] -> piece c' q s e (m ++ x) <> [] -> tag m = tag (m ++ x) -> x = [])) ->
  unmixed hs l q s e.
Proof.
  intros hs l q s e [H | (tag & H1 & H2)].
  - apply free_unmixed. intros c c' m x Hc Hc'. exact (H c c' m x Hc Hc').
  - intros ks k i k' x (c & Hc & P) Hks Hi N E. destruct (Hks k' (nth_error_In _ _ N)) as (c' & Hc' & P'). pose proof (H1 _ _ _ _ Hi N) as T.
    destruct E as [-> | ->]; [exact (H2 c c' k x Hc Hc' P P' (eq_sym T))|exact (H2 c' c k' x Hc' Hc P' P T)].
Qed.
Print Assumptions C31_unmixed.
(* the history of C31_prefix_refuted under a map that compares keys of equal length only: the two series are
   kept apart *)
Definition len_probe : hasher := mkH (fun ks k => filter (fun i => (length (nth i ks []) =? length k)%nat) (seq 0 (length ks))) (fun ks => seq 0 (length ks)).
Lemma len_probe_ok : hasher_ok len_probe.
Proof.
  split; [|intros ks; apply Permutation_refl]. intros ks k i H. cbn. apply filter_In. split.
  - apply in_seq. split; [lia|]. cbn. apply nth_error_Some. congruence.
  - rewrite (nth_error_nth _ _ _ H). apply Nat.eqb_refl.
Qed.
Example C31_unmixed_case : let ops := [OpPoint [lab "a" "1"] (mkTp 1010 5); OpSwap 1101; OpPoint [lab "a" "1"; lab "b" "2"] (mkTp 1110 6); OpPoint [lab "a" "1"] (mkTp 1120 7)] in
  ops_ok (ex_config Sled Sled) 1000 ops /\ timely (written ops) /\ hasher_ok len_probe /\
  (forall q s e, unmixed len_probe (parts (ex_config Sled Sled) 1000 ops) q s e) /\ 
  match db_after (ex_config Sled Sled) ex_fs ops with
  | Some (_, w) => option_map fst (drun (db_query len_probe scan_bs no_timing [lab "a" "1"] 1000 2000) w)
  | None => None
  end = Some (Ok [([lab "a" "1"; lab "b" "2"], [mkTp 1110 6]); ([lab "a" "1"], [mkTp 1010 5; mkTp 1120 7])]).
Proof.
  intros ops.
  assert (O: ops_ok (ex_config Sled Sled) 1000 ops).
  { split; [discriminate|]. split; [lia|]. split; [cbn; lia|]. split; [cbn; lia|]. split; [cbn; lia|].
    split; [cbn [written ops map app]; reqs_tac|]. cbn. lia. }
  split; [exact O|]. split; [apply timely_check; [apply O|vm_compute; reflexivity]|]. split; [exact len_probe_ok|].
  split; [|vm_compute; reflexivity].
  intros q s e. apply C31_unmixed. right. exists (fun k => Z.of_nat (length k)). split.
  - intros ks k i k' Hi N. cbn in Hi. apply filter_In in Hi. destruct Hi as [_ Hi]. rewrite (nth_error_nth _ _ _ N) in Hi. lia.
  - intros c c' m x _ _ _ _ E. rewrite app_length in E. destruct x; [reflexivity|cbn in E; lia].
Qed.

(** C32 *)
Theorem C32_inverted_range_refuted :
  exists cf f hs ops q s e w w', env_ok f /\ empty_dir f /\ hasher_ok hs /\
    ops_ok cf (f_clock f (f_ticks f)) ops /\ timely (written ops) /\ Forall lab_ok q /\
    unmixed hs (parts cf (f_clock f (f_ticks f)) ops) q s e /\ u64 s /\ u64 e /\ e < s /\
    db_after cf f ops = Some (outcomes cf (f_clock f (f_ticks f)) ops, w) /\
    drun (db_query hs scan_bs no_timing q s e) w = Some (Panic, w').
Proof.
  set (ops := [OpBatch [lab "a" "1"] [mkTp 1010 5; mkTp 1020 6; mkTp 1030 7; mkTp 1040 8]]).
  exists (ex_config Sled Sled), ex_fs, all_probe, ops, [lab "a" "1"], 1035, 1015. eexists _, _.
  assert (O: ops_ok (ex_config Sled Sled) 1000 ops).
  { split; [discriminate|]. split; [lia|]. split; [cbn; lia|]. split; [cbn; lia|]. split; [cbn; lia|].
    split; [cbn [written ops map app]; reqs_tac|]. cbn. lia. }
  split; [exact ex_env|]. split; [exact ex_empty|]. split; [exact all_probe_ok|]. split; [exact O|].
  split; [apply timely_check; [apply O|vm_compute; reflexivity]|]. split; [labs_tac|].
  split; [apply unmixed_check; vm_compute; reflexivity|].
  assert (U: u64 1035 /\ u64 1015 /\ 1015 < 1035) by (clear; unfold u64; lia).
  destruct U as (U1 & U2 & U3). split; [exact U1|]. split; [exact U2|]. split; [exact U3|].
  split; [vm_compute; reflexivity|]. vm_compute; reflexivity.
Qed.
Print Assumptions C32_inverted_range_refuted.

(** C33, one after the other *)
Theorem C33_swap_keeps_answers : forall cf f hs bs o ops st q s e, env_ok f -> empty_dir f ->
  let t0 := f_clock f (f_ticks f) in
  ops_ok cf t0 (ops ++ [OpSwap st]) -> timely (written ops) -> hasher_ok hs -> bs_contract bs -> Forall lab_ok q ->
  unmixed hs (parts cf t0 ops) q s e ->
  exists rs w r w' r', db_after cf f ops = Some (rs, w) /\ drun (db_query hs bs o q s e) w = Some (r, w) /\
    drun (db_swap cf st) w = Some (Ok tt, w') /\ drun (db_query hs bs o q s e) w' = Some (r', w') /\ alike r r'.
Proof. exact swap_keeps_answers. Qed.
Print Assumptions C33_swap_keeps_answers.
Example C33_case :
  ops_ok (ex_config TiKvDry TiKvDry) 1000 (ex_ops ++ [OpSwap 1300]) /\
  ask TiKvDry TiKvDry (ex_ops ++ [OpSwap 1300]) [lab "job" "a"] 1000 1250 =
  ask TiKvDry TiKvDry ex_ops [lab "job" "a"] 1000 1250 /\
  ask TiKvDry TiKvDry ex_ops [lab "job" "a"] 1000 1250 <> Some (Ok []).
Proof.
  split; [|split; [vm_compute; reflexivity|vm_compute; discriminate]].
  split; [discriminate|]. split; [lia|]. split; [cbn; lia|]. split; [cbn; lia|]. split; [cbn; lia|].
  split; [cbn [written ex_ops map app]; reqs_tac|]. cbn. lia.
Qed.
