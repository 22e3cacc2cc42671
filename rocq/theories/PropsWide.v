(* Properties of databases with chunk sizes of any magnitude: C73. *)
From Coq Require Import ZifyBool ZifyNat Permutation Sorted String.
From Verif Require Import Rust Prog Gorilla GorillaSpec Storage StorageSpec StorageProofs Labels Indexer IndexSpec
  Chunk ChunkSpec Utils DirSpec TiKvInit Db DbSpec DbFacts RangeSpec PropsChunk PropsDb Proto Server Opts Program WideSpec WideProofs.
Local Notation lab k v := (mkLabel (s2b k) (s2b v)).
Local Notation length := List.length.

(** C73: without overflow checks, a database opened on an empty directory with a chunk size of any magnitude, any history of
    writes and of rotations at later and later instants: it is as C30 and C31 say, for windows of which those reaching beyond the
    last instant, 2^64 - 1, come round and end at its beginning. *)
Theorem C73_wide : forall cf f hs bs o ops q s e, env_ok f -> empty_dir f -> cf_dbg cf = false ->
  let t0 := f_clock f (f_ticks f) in
  wide_ok cf t0 ops -> timely (written ops) -> hasher_ok hs -> bs_contract bs -> Forall lab_ok q ->
  unmixed hs (wide_parts cf t0 ops) q s e ->
  exists w r, db_after cf f ops = Some (wide_outcomes cf t0 ops, w) /\
    drun (db_query hs bs o q s e) w = Some (r, w) /\ comes_to (wide_parts cf t0 ops) q s e r.
Proof. exact wide_refines. Qed.
Print Assumptions C73_wide.
(* while no window reaches that far, these are the windows and outcomes of C30 and C31 *)
Theorem C73_ordinary : forall cf start ops, ops_ok cf start ops ->
  wide_parts cf start ops = parts cf start ops /\ wide_outcomes cf start ops = outcomes cf start ops.
Proof. exact wide_same. Qed.
Print Assumptions C73_ordinary.

(* the clock shows 1000, the first window is ordinary, the second one comes round *)
Definition wd_config (dbg : bool) (size : Z) : config := mkConfig dbg (s2b "/data") Sled Sled size.
Definition wd_size : Z := 2 ^ 64 - 2000.
Definition wd_ops : list dop :=
  [OpPoint [lab "job" "a"] (mkTp 1010 7); OpBatch [lab "job" "c"] [mkTp 500 2; mkTp 1011 1]; OpSwap 3000;
   OpPoint [lab "job" "a"] (mkTp 3001 8); OpBatch [lab "job" "b"] [mkTp 1000 5; mkTp 3000 4; mkTp 3002 9]; OpSwap 3500;
   OpBatch [lab "job" "b"] [mkTp 3600 3]].
Lemma wd_ok dbg : wide_ok (wd_config dbg wd_size) 1000 wd_ops.
Proof.
  split; [discriminate|]. split; [lia|]. split; [unfold wd_size; cbn [cf_size wd_config]; lia|]. split; [cbn [later_starts wd_ops]; lia|].
  split; [cbn [written wd_ops map app]; reqs_tac|]. cbn. lia.
Qed.
Lemma wd_timely : timely (written wd_ops).
Proof. apply timely_check; [apply (wd_ok true)|vm_compute; reflexivity]. Qed.
Example C73_wide_ex : forall s e, exists w r,
  db_after (wd_config false wd_size) ex_fs wd_ops =
    Some ([Ok tt; Ok tt; Ok tt; Err (OutOfRangeErr 3000 1000); Ok tt; Ok tt; Ok tt], w) /\
  drun (db_query all_probe scan_bs no_timing [lab "job" "a"] s e) w = Some (r, w) /\
  comes_to (wide_parts (wd_config false wd_size) 1000 wd_ops) [lab "job" "a"] s e r.
Proof.
  intros s e. destruct (C73_wide (wd_config false wd_size) ex_fs all_probe scan_bs no_timing wd_ops [lab "job" "a"] s e ex_env ex_empty eq_refl
    (wd_ok false) wd_timely all_probe_ok scan_contract) as (w & r & E & Q & A).
  - labs_tac.
  - apply unmixed_check. vm_compute. reflexivity.
  - exists w, r. split; [|split; assumption]. rewrite E. f_equal.
Qed.
(* the three windows and what they hold *)
Example C73_windows_ex : map (fun c => (c_start (fst c), c_end (fst c), snd c)) (wide_parts (wd_config false wd_size) 1000 wd_ops) =
  [(1000, 2 ^ 64 - 1000, [([lab "job" "a"], [mkTp 1010 7]); ([lab "job" "c"], [mkTp 1011 1])]); (3000, 1000, []); (3500, 1500, [])].
Proof. vm_compute. reflexivity. Qed.

(** So it must not be relied on that an acknowledged batch is stored: without overflow checks, when the first window comes
    round, every batch is acknowledged, every single point is refused, every rotation succeeds, and every query is answered with
    nothing. *)
Theorem C73_acknowledged_refuted : forall cf f ops, env_ok f -> empty_dir f -> cf_dbg cf = false ->
  wide_ok cf (f_clock f (f_ticks f)) ops -> 2 ^ 64 <= f_clock f (f_ticks f) + cf_size cf ->
  exists rs w, db_after cf f ops = Some (rs, w) /\
    Forall2 (fun o r => match o with OpPoint _ _ => exists s e, r = Err (OutOfRangeErr s e) | _ => r = Ok tt end) ops rs /\
    forall hs bs o q s e, hasher_ok hs -> bs_contract bs -> Forall lab_ok q -> drun (db_query hs bs o q s e) w = Some (Ok [], w).
Proof. exact wide_dropped. Qed.
Print Assumptions C73_acknowledged_refuted.
Example C73_acknowledged_ex : wide_ok (wd_config false (2 ^ 64 - 616)) (f_clock ex_fs (f_ticks ex_fs)) wd_ops /\
  2 ^ 64 <= f_clock ex_fs (f_ticks ex_fs) + cf_size (wd_config false (2 ^ 64 - 616)).
Proof.
  split; [|cbn; lia]. split; [discriminate|]. split; [cbn; lia|]. split; [cbn [cf_size wd_config]; lia|]. split; [cbn [later_starts wd_ops]; cbn; lia|].
  split; [cbn [written wd_ops map app]; reqs_tac|]. cbn. lia.
Qed.

(** With overflow checks, whatever the directory holds and whatever fails, a database is never opened when every reading of the
    clock plus the chunk size is beyond the last instant; on an empty directory opening panics, having written the metadata file
    of the database, and nothing else. *)
Theorem C73_checked_open : forall cf f, cf_dbg cf = true ->
  (forall r w, (forall i, 2 ^ 64 <= f_clock f i + cf_size cf) -> db_open cf f = Some (r, w) -> r <> Ok tt) /\
  (env_ok f -> empty_dir f -> cf_base cf <> [] -> 2 ^ 64 <= f_clock f (f_ticks f) + cf_size cf ->
   exists w, db_open cf f = Some (Panic, w) /\ f_meta (d_fs w) = Some (Written (own_meta cf)) /\ f_dirs (d_fs w) = []).
Proof.
  intros cf f D. split.
  - intros r w H E. exact (checked_open cf f r w D H E).
  - intros He Hd Hb H. exact (checked_open_empty cf f He Hd Hb D H).
Qed.
Print Assumptions C73_checked_open.
Example C73_checked_open_ex : env_ok ex_fs /\ empty_dir ex_fs /\ (forall i, 2 ^ 64 <= f_clock ex_fs i + cf_size (wd_config true (2 ^ 64 - 616))).
Proof. split; [exact ex_env|]. split; [exact ex_empty|]. intros i. cbn [ex_fs f_clock wd_config cf_size]. lia. Qed.

(** With overflow checks, a rotation into a window beyond the last instant panics, and the database goes on as if it had not been
    tried: what was written before it and what is written after it into the same window is answered. *)
Theorem C73_checked_rotation : forall cf f hs bs o ops start more q s e, env_ok f -> empty_dir f -> cf_dbg cf = true ->
  let t0 := f_clock f (f_ticks f) in
  ops_ok cf t0 (ops ++ more) -> 2 ^ 64 <= start + cf_size cf -> timely (written (ops ++ more)) -> hasher_ok hs -> bs_contract bs -> Forall lab_ok q ->
  unmixed hs (parts cf t0 (ops ++ more)) q s e ->
  exists w r a b, db_after cf f (ops ++ OpSwap start :: more) = Some (a ++ Panic :: b, w) /\
    a ++ b = outcomes cf t0 (ops ++ more) /\ length a = length ops /\
    drun (db_query hs bs o q s e) w = Some (r, w) /\ comes_to (parts cf t0 (ops ++ more)) q s e r.
Proof. exact checked_goes_on. Qed.
Print Assumptions C73_checked_rotation.
Definition wd_before : list dop := [OpPoint [lab "job" "a"] (mkTp 1010 7)].
Definition wd_after : list dop := [OpBatch [lab "job" "c"] [mkTp 1000 2; mkTp 3001 1]].
Example C73_checked_rotation_ex : forall s e, exists w r,
  db_after (wd_config true wd_size) ex_fs (wd_before ++ OpSwap 3000 :: wd_after) = Some ([Ok tt; Panic; Err InternalErr], w) /\
  drun (db_query all_probe scan_bs no_timing [lab "job" "c"] s e) w = Some (r, w) /\
  comes_to (parts (wd_config true wd_size) 1000 (wd_before ++ wd_after)) [lab "job" "c"] s e r.
Proof.
  intros s e. assert (O: ops_ok (wd_config true wd_size) 1000 (wd_before ++ wd_after)).
  { split; [discriminate|]. split; [lia|]. split; [unfold wd_size; cbn [cf_size wd_config]; lia|]. split; [unfold wd_size; cbn [cf_size wd_config]; lia|].
    split; [exact I|]. split; [cbn [written wd_before wd_after map app]; reqs_tac|]. cbn. lia. }
  destruct (C73_checked_rotation (wd_config true wd_size) ex_fs all_probe scan_bs no_timing wd_before 3000 wd_after [lab "job" "c"] s e ex_env ex_empty eq_refl O)
    as (w & r & a & b & E & Eab & La & Q & A).
  - unfold wd_size. cbn [cf_size wd_config]. lia.
  - apply timely_check; [apply O|vm_compute; reflexivity].
  - exact all_probe_ok.
  - exact scan_contract.
  - labs_tac.
  - apply unmixed_check. vm_compute. reflexivity.
  - exists w, r. split; [|split; assumption]. rewrite E. f_equal. f_equal.
    assert (X: outcomes (wd_config true wd_size) (f_clock ex_fs (f_ticks ex_fs)) (wd_before ++ wd_after) = [Ok tt; Err InternalErr]) by (vm_compute; reflexivity).
    rewrite X in Eab. destruct a as [|x [|y a]]; try discriminate La. cbn [app] in *. congruence.
Qed.

(** The chunk size is given in seconds; the program uses its number of milliseconds modulo 2^64 (C66_launch).  From 18446744073709552
    seconds on it comes round itself. *)
Example C73_launch_ex : let a (size : string) := mkArgs (s2b "sled") (s2b "sled") (s2b "/d") (s2b size) (s2b "9001") (s2b "/w") (s2b "/r") (s2b "8") None in
  option_map (fun x => cf_size (fst x)) (launch false (fun _ => None) (a "18446744073709551"%string)) = Some (2 ^ 64 - 616) /\
  option_map (fun x => cf_size (fst x)) (launch false (fun _ => None) (a "18446744073709552"%string)) = Some 384.
Proof. split; vm_compute; reflexivity. Qed.
