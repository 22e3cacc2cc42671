(* Property C61, for a whole database: power failures between processes. *)
From Coq Require Import Permutation Sorted String.
From Verif Require Import Rust Prog Gorilla GorillaSpec Storage StorageSpec StorageProofs Labels Indexer IndexSpec
  Chunk ChunkSpec ChunkProofs ChunkFacts Utils DirSpec TiKvInit Db DbSpec DbProofs DbHist RangeSpec RangeProofs DbFacts ReopenSpec ReopenProofs
  LossSpec LossDbSpec LossDb PropsChunk PropsDb PropsReopen.
Local Notation lab k v := (mkLabel (s2b k) (s2b v)).
Local Notation length := List.length.

(* each process but the last ends in a power failure, in which the point store of each chunk that it created loses
   any number of its last sets.  Every reopening succeeds, and every query of the last process answers for the
   chunks with the surviving points *)
Theorem C61_database : forall f L hs bs o q s e, env_ok f -> empty_dir f -> monotone (f_clock f) -> L <> [] ->
  lives_ok (f_clock f) (f_ticks f) 0 (-1) (map fst L) -> timely (life_written (map fst L)) ->
  hasher_ok hs -> bs_contract bs -> Forall lab_ok q ->
  let P := off_parts (f_clock f) (f_ticks f) 0 L in unmixed hs P q s e ->
  exists w r, live_off L f = Some w /\ drun (db_query hs bs o q s e) w = Some (r, w) /\ comes_to P q s e r.
Proof. exact off_refine. Qed.
Print Assumptions C61_database.

(* in particular: each label set once, its points in increasing order, none that was not written or is not asked for *)
Theorem C61_database_sound : forall f L hs bs o q s e, env_ok f -> empty_dir f -> monotone (f_clock f) -> L <> [] ->
  lives_ok (f_clock f) (f_ticks f) 0 (-1) (map fst L) -> timely (life_written (map fst L)) ->
  hasher_ok hs -> bs_contract bs -> Forall lab_ok q -> s <= e ->
  unmixed hs (off_parts (f_clock f) (f_ticks f) 0 L) q s e ->
  exists w r, live_off L f = Some w /\ drun (db_query hs bs o q s e) w = Some (Ok r, w) /\
    (forall i j a b, nth_error r i = Some a -> nth_error r j = Some b -> same_set (fst a) (fst b) -> i = j) /\
    (forall m pts, In (m, pts) r -> increasing pts /\ pts <> []) /\
    (forall m pts p, In (m, pts) r -> In p pts -> s <= tp_ts p <= e /\ exists ls, In (ls, p) (life_written (map fst L)) /\ same_set ls m).
Proof. exact off_ordered. Qed.
Print Assumptions C61_database_sound.

(* three processes: in the first power failure the chunks lose one and two sets, in the second none and one *)
Definition off_lives : list (life * list nat) :=
  [(mkLife (ex_config Sled Sled) ex_ops, [1; 2]%nat);
   (mkLife (ex_config Sled Sled) [OpPoint [lab "host" "x"; lab "job" "a"] (mkTp 4050 10); OpSwap 4200; OpPoint [lab "host" "y"; lab "job" "a"] (mkTp 4250 11)], [0; 1]%nat);
   (mkLife (ex_config Sled Sled) [], [])].
Definition ask_off (L : list (life * list nat)) (f : fworld) (q : list label) (s e : Z) :=
  match live_off L f with
  | Some w => option_map fst (drun (db_query all_probe scan_bs no_timing q s e) w)
  | None => None
  end.
Example C61_database_case :
  env_ok slow_fs /\ empty_dir slow_fs /\ monotone (f_clock slow_fs) /\
  lives_ok (f_clock slow_fs) 0 0 (-1) (map fst off_lives) /\ timely (life_written (map fst off_lives)) /\
  unmixed all_probe (off_parts (f_clock slow_fs) 0 0 off_lives) [lab "job" "a"] 1000 5000 /\
  ask_off off_lives slow_fs [lab "job" "a"] 1000 5000 =
    Some (Ok [([lab "host" "x"; lab "job" "a"], [mkTp 1010 7; mkTp 4050 10]); ([lab "host" "y"; lab "job" "a"], [mkTp 1011 1])]).
Proof.
  destruct C35_case as (H1 & H2 & H3 & H4 & H5 & _ & _). split; [exact H1|]. split; [exact H2|]. split; [exact H3|]. split; [exact H4|]. split; [exact H5|].
  split; [apply unmixed_check; vm_compute; reflexivity|]. vm_compute. reflexivity.
Qed.
