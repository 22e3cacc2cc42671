(* Properties C40, C53, C54: chunks over TiKV. *)
From Coq Require Import Permutation String.
From Verif Require Import Rust Prog Gorilla GorillaSpec Storage StorageSpec StorageProofs Labels Indexer IndexSpec
  Chunk ChunkSpec ChunkProofs ChunkFacts TiKvInit TiKvShared TiKvSpec TiKvProofs TiKvFaults EdgeProofs PropsChunk.
Local Notation lab k v := (mkLabel (s2b k) (s2b v)).
Local Notation length := List.length.

(** C40 *)
(* whatever the store holds and whatever uuids are drawn, a chunk opened again looks for its
   points and for its series under other identifiers than it used when it was created *)
Theorem C40_identifiers_kept_refuted : forall s cid u1 u2 lo hi,
  kv_get s cid = None -> length u1 = 16%nat -> length u2 = 16%nat ->
  exists ch s' ch', krun (tikv_chunk_new cid u1 u2 lo hi) s = (Ok ch, s') /\
    krun (tikv_chunk_open cid lo hi) s' = (Ok (Some ch'), s') /\
    c_storage ch <> c_storage ch' /\ c_indexer ch <> c_indexer ch'.
Proof.
  intros s cid u1 u2 lo hi G L1 L2. destruct (ids_new s cid u1 u2 lo hi G L1 L2) as (s' & E & _ & O).
  eexists _, s', _. split; [exact E|]. split; [apply O|]. cbn [c_storage c_indexer]. split; [discriminate|].
  intros Q. assert (Q': u2 ++ nil_uuid = u2) by congruence. apply (f_equal (@length Z)) in Q'. rewrite app_length in Q'.
  change (length nil_uuid) with 16%nat in Q'. lia.
Qed.
Print Assumptions C40_identifiers_kept_refuted.
(* what a chunk finds under its identifier: nothing, a value cut in two, or one that is too short *)
Theorem C40_found_identifiers : forall s cid,
  (kv_get s cid = None -> krun (tikv_storage_read cid) s = (Ok None, s) /\ krun (tikv_indexer_read cid) s = (Ok None, s)) /\
  (forall v, kv_get s cid = Some v -> (16 <= length v)%nat ->
    krun (tikv_storage_read cid) s = (Ok (Some (skipn 16 v)), s) /\ krun (tikv_indexer_read cid) s = (Ok (Some (firstn 16 v)), s)) /\
  (forall v, kv_get s cid = Some v -> (length v < 16)%nat ->
    (forall x u, krun (init_component cid x u) s = (Panic, s)) /\ krun (tikv_storage_read cid) s = (Panic, s) /\ krun (tikv_indexer_read cid) s = (Panic, s)).
Proof. intros s cid. split; [apply no_value|]. split; [apply long_value|apply short_value]. Qed.
Print Assumptions C40_found_identifiers.
(* any two chunks created over the same or different stores store their points under the same keys *)
Theorem C40_separate_keys_refuted : forall s cid u1 u2 lo hi t cid' u1' u2' lo' hi',
  kv_get s cid = None -> length u1 = 16%nat -> length u2 = 16%nat ->
  kv_get t cid' = None -> length u1' = 16%nat -> length u2' = 16%nat ->
  exists ch s' ch' t', krun (tikv_chunk_new cid u1 u2 lo hi) s = (Ok ch, s') /\
    krun (tikv_chunk_new cid' u1' u2' lo' hi') t = (Ok ch', t') /\
    c_storage ch = c_storage ch' /\ forall id, series_key (c_storage ch) id = series_key (c_storage ch') id.
Proof.
  intros s cid u1 u2 lo hi t cid' u1' u2' lo' hi' G L1 L2 G' L1' L2'.
  destruct (ids_new s cid u1 u2 lo hi G L1 L2) as (s' & E & _). destruct (ids_new t cid' u1' u2' lo' hi' G' L1' L2') as (t' & E' & _).
  eexists _, s', _, t'. split; [exact E|]. split; [exact E'|]. split; reflexivity.
Qed.
Print Assumptions C40_separate_keys_refuted.
(* what it means for users: a single chunk alone in its TiKV answers as specified *)
Theorem C40_one_chunk_refines : forall s cid u1 u2 lo hi bs o h q a b,
  unused s cid u2 -> length u1 = 16%nat -> no_points s -> bs_contract bs -> Forall ireq_ok h ->
  Z.of_nat (length h) < 2 ^ 64 -> Forall lab_ok q ->
  exists ch s', krun (tikv_chunk_new cid u1 u2 lo hi) s = (Ok ch, s') /\ c_start ch = lo /\ c_end ch = hi /\
    exists w w', safter ch h s' = Some w /\
      (a <= b -> srun ch (chunk_query ch bs o q a b) w = Some (query_spec ch (content_of ch h) q a b, w')).
Proof. exact shared_refines. Qed.
Print Assumptions C40_one_chunk_refines.
(* but reopened it answers every query with nothing, whatever was inserted *)
Theorem C40_reopened_is_empty : forall s cid u1 u2 lo hi lo' hi' bs o h q a b,
  unused s cid u2 -> length u1 = 16%nat -> no_points s -> Forall ireq_ok h -> Z.of_nat (length h) < 2 ^ 64 ->
  exists ch s' w ch' w', krun (tikv_chunk_new cid u1 u2 lo hi) s = (Ok ch, s') /\ safter ch h s' = Some w /\
    krun (tikv_chunk_open cid lo' hi') (w_st w) = (Ok (Some ch'), w_st w) /\ c_start ch' = lo' /\ c_end ch' = hi' /\
    srun ch' (chunk_query ch' bs o q a b) (new_world (w_st w) []) =
      Some (if (b <? lo') || (hi' <? a) then Err (OutOfRangeErr lo' hi') else Ok [], w').
Proof. exact reopened_empty. Qed.
Print Assumptions C40_reopened_is_empty.
(* and the first point inserted into a second chunk appears in the first series of the first chunk,
   or is refused because that series has a later point *)
Theorem C40_chunks_mix : forall s cid u1 u2 lo hi ch s1 h ls pts rest cid' u1' u2' lo' hi' ls' p bs o q a b,
  unused s cid u2 -> length u1 = 16%nat -> no_points s -> Forall ireq_ok h -> Z.of_nat (length h) < 2 ^ 64 ->
  krun (tikv_chunk_new cid u1 u2 lo hi) s = (Ok ch, s1) -> content_of ch h = (ls, pts) :: rest ->
  unused s cid' u2' -> length u1' = 16%nat -> cid' <> cid -> u2' <> u2 ->
  set_ok ls' -> tp_ok p -> lo' < tp_ts p < hi' -> bs_contract bs -> Forall lab_ok q -> a <= b ->
  exists w ch' s2 w' r w'', safter ch h s1 = Some w /\
    krun (tikv_chunk_new cid' u1' u2' lo' hi') (w_st w) = (Ok ch', s2) /\
    srun ch' (chunk_insert ch' ls' p) (new_world s2 []) = Some (r, w') /\
    srun ch (chunk_query ch bs o q a b) (set_st w (w_st w') []) = Some w'' /\
    ((forall x, In x pts -> tp_ts x < tp_ts p) -> r = Ok tt /\ fst w'' = query_spec ch ((ls, pts ++ [p]) :: rest) q a b) /\
    (~ (forall x, In x pts -> tp_ts x < tp_ts p) -> r = Err InternalErr /\ fst w'' = query_spec ch ((ls, pts) :: rest) q a b).
Proof. exact chunks_mix. Qed.
Print Assumptions C40_chunks_mix.
(* two chunks in one empty TiKV; the second holds {job=b} 150 *)
Definition ex_cid := repeat 1 16. Definition ex_cid' := repeat 2 16.
Definition ex_u1 := repeat 3 16. Definition ex_u2 := repeat 4 16. Definition ex_u1' := repeat 5 16. Definition ex_u2' := repeat 6 16.
Definition ex_shared : chunk := mkChunk (TiKvStorage []) (TiKvIndexer (ex_u2 ++ nil_uuid)) 10 100.
Definition ex_second : chunk := mkChunk (TiKvStorage []) (TiKvIndexer (ex_u2' ++ nil_uuid)) 100 200.
Lemma empty_unused cid u : length cid = 16%nat -> length u = 16%nat -> unused [] cid u.
Proof. intros A B. split; [exact A|]. split; [exact B|]. split; reflexivity. Qed.
Example C40_case : unused [] ex_cid ex_u2 /\ unused [] ex_cid' ex_u2' /\ no_points [] /\ Forall ireq_ok ex_hist /\
  exists s1 w s2 w' w2, krun (tikv_chunk_new ex_cid ex_u1 ex_u2 10 100) [] = (Ok ex_shared, s1) /\ safter ex_shared ex_hist s1 = Some w /\
    krun (tikv_chunk_new ex_cid' ex_u1' ex_u2' 100 200) (w_st w) = (Ok ex_second, s2) /\
    content_of ex_shared ex_hist = [([lab "job" "a"; lab "host" "x"], [mkTp 20 7; mkTp 40 9; mkTp 60 6]);
                                    ([lab "job" "a"; lab "host" "y"], [mkTp 30 8])] /\
    srun ex_second (chunk_insert ex_second [lab "job" "b"] (mkTp 150 2)) (new_world s2 []) = Some (Ok tt, w') /\
    srun ex_shared (chunk_query ex_shared scan_bs no_timing [lab "host" "x"] 30 160) (set_st w (w_st w') []) =
      Some (Ok [mkSeries 1 [lab "host" "x"; lab "job" "a"] [mkTp 40 9; mkTp 60 6; mkTp 150 2]], w2).
Proof.
  split; [apply empty_unused; reflexivity|]. split; [apply empty_unused; reflexivity|]. split; [intros k _; reflexivity|].
  split; [exact ex_hist_ok|]. eexists _, _, _, _, _. split; [vm_compute; reflexivity|]. split; [vm_compute; reflexivity|].
  split; [vm_compute; reflexivity|]. split; [vm_compute; reflexivity|]. split; [vm_compute; reflexivity|]. vm_compute. reflexivity.
Qed.

(** C53 *)
(* the property wanted is that inserts do not panic; it fails after every history with two series
   sharing a label l = (k, v): inserting the series with the single label (R k, v) panics *)
Theorem C53_no_panic_refuted : forall ch i h l ls1 p1 ls2 p2 p,
  c_indexer ch = TiKvIndexer i -> Forall ireq_ok h -> Z.of_nat (length h) < 2 ^ 64 ->
  lab_ok l -> In (ls1, p1) h -> In (ls2, p2) h -> In l ls1 -> In l ls2 -> ~ same_set ls1 ls2 ->
  in_window ch (tp_ts p1) -> in_window ch (tp_ts p2) -> in_window ch (tp_ts p) ->
  exists w w', after ch h = Some w /\ crun ch (chunk_insert ch [R_label l] p) w = Some (Panic, w') /\
    w_st w' = w_st w /\ w_ix w' = w_ix w /\ w_locked w' = false /\ w_poisoned w' = true.
Proof. exact R_poisons. Qed.
Print Assumptions C53_no_panic_refuted.
(* and then every operation on the chunk panics, for ever *)
Theorem C53_poisoned_forever : forall ch w, w_locked w = false -> w_poisoned w = true ->
  (forall ls p, exists w', crun ch (chunk_insert ch ls p) w = Some (Panic, w') /\ w_locked w' = false /\ w_poisoned w' = true) /\
  (forall bs o q s e, crun ch (chunk_query ch bs o q s e) w = Some (Panic, w)) /\
  (exists w', crun ch chunk_close w = Some (Panic, w') /\ w_locked w' = false /\ w_poisoned w' = true).
Proof. exact poisoned_forever. Qed.
Print Assumptions C53_poisoned_forever.
(* with one series having l, the point is filed under that series instead of a new one *)
Theorem C53_misfiled : forall ch i h l ls1 p1 p,
  c_indexer ch = TiKvIndexer i -> Forall ireq_ok h -> Z.of_nat (length h) < 2 ^ 64 ->
  lab_ok l -> In (ls1, p1) h -> In l ls1 -> in_window ch (tp_ts p1) ->
  (forall ls2 p2, In (ls2, p2) h -> In l ls2 -> in_window ch (tp_ts p2) -> same_set ls2 ls1) ->
  exists w, after ch h = Some w /\ crun ch (chunk_insert ch [R_label l] p) w = crun ch (chunk_insert ch ls1 p) w.
Proof. exact R_misfiled. Qed.
Print Assumptions C53_misfiled.
Example C53_case :
  lab_ok (lab "job" "a") /\ R_label (lab "job" "a") = lab "Rjob" "a" /\ Forall ireq_ok ex_hist /\
  ~ same_set [lab "job" "a"; lab "host" "x"] [lab "job" "a"; lab "host" "y"] /\
  (exists w w', after ex_tikv ex_hist = Some w /\ crun ex_tikv (chunk_insert ex_tikv [lab "Rjob" "a"] (mkTp 70 1)) w = Some (Panic, w') /\
     crun ex_tikv (chunk_query ex_tikv scan_bs no_timing [lab "job" "a"] 25 50) w' = Some (Panic, w')) /\
  (exists w w', after ex_tikv ex_hist = Some w /\ crun ex_tikv (chunk_insert ex_tikv [lab "Rhost" "y"] (mkTp 70 1)) w = Some (Ok tt, w') /\
     crun ex_tikv (chunk_query ex_tikv scan_bs no_timing [lab "host" "y"] 25 80) w' =
     Some (Ok [mkSeries 2 [lab "host" "y"; lab "job" "a"] [mkTp 30 8; mkTp 70 1]], w')).
Proof.
  split; [labs_tac|]. split; [reflexivity|]. split; [exact ex_hist_ok|]. split.
  { intros P. assert (In (lab "host" "x") [lab "job" "a"; lab "host" "y"]) as [Q|[Q|[]]].
    { eapply Permutation_in; [exact P|]. right. now left. } all: vm_compute in Q; discriminate Q. }
  split; eexists _, _; (split; [vm_compute; reflexivity|]); (split; [vm_compute; reflexivity|]); vm_compute; reflexivity.
Qed.

(** C54 *)
(* with TiKV a point not later than one already inserted into its series is acknowledged and changes
   no answer *)
Theorem C54_stored_refuted_tikv : forall ch i h ls p0 p,
  c_storage ch = TiKvStorage i -> Forall ireq_ok h -> Z.of_nat (length h) + 1 < 2 ^ 64 -> tp_ok p ->
  In (ls, p0) h -> in_window ch (tp_ts p0) -> in_window ch (tp_ts p) -> tp_ts p <= tp_ts p0 ->
  exists w w', after ch h = Some w /\ crun ch (chunk_insert ch ls p) w = Some (Ok tt, w') /\
    forall bs o q s e, Forall lab_ok q ->
      option_map fst (crun ch (chunk_query ch bs o q s e) w') = option_map fst (crun ch (chunk_query ch bs o q s e) w).
Proof. exact stale_dropped. Qed.
Print Assumptions C54_stored_refuted_tikv.
(* with either store, once the series is found the insert is acknowledged whatever the store then
   does; if its read or its write fails without effect, nothing has changed *)
Theorem C54_stored_refuted_failing : forall ch h ls p0 p fs, Forall ireq_ok h -> Z.of_nat (length h) < 2 ^ 64 -> tp_ok p ->
  In (ls, p0) h -> in_window ch (tp_ts p0) -> in_window ch (tp_ts p) ->
  exists w w', after ch h = Some w /\ crun ch (chunk_insert ch ls p) (failing w (Works :: fs)) = Some (Ok tt, w') /\ w_ix w' = w_ix w /\
    ((exists fs', fs = FailsClean :: fs' \/ fs = Works :: FailsClean :: fs') -> w_st w' = w_st w).
Proof. exact acked. Qed.
Print Assumptions C54_stored_refuted_failing.
Example C54_case :
  In ([lab "host" "x"; lab "job" "a"], mkTp 40 9) ex_hist /\ tp_ok (mkTp 35 1) /\
  (exists w w', after ex_tikv ex_hist = Some w /\
     crun ex_tikv (chunk_insert ex_tikv [lab "host" "x"; lab "job" "a"] (mkTp 35 1)) w = Some (Ok tt, w') /\
     crun ex_tikv (chunk_query ex_tikv scan_bs no_timing [lab "host" "x"] 30 45) w' =
     Some (Ok [mkSeries 1 [lab "host" "x"; lab "job" "a"] [mkTp 40 9]], w')) /\
  (exists w w', after ex_chunk ex_hist = Some w /\
     crun ex_chunk (chunk_insert ex_chunk [lab "host" "x"; lab "job" "a"] (mkTp 70 1)) (failing w [Works; Works; FailsClean]) = Some (Ok tt, w') /\
     crun ex_chunk (chunk_query ex_chunk scan_bs no_timing [lab "host" "x"] 50 80) w' =
     Some (Ok [mkSeries 1 [lab "host" "x"; lab "job" "a"] [mkTp 60 6]], w')).
Proof.
  split; [vm_compute; tauto|]. split; [tp_tac|].
  split; eexists _, _; (split; [vm_compute; reflexivity|]); (split; [vm_compute; reflexivity|]); vm_compute; reflexivity.
Qed.
