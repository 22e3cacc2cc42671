(* Property C61: a power failure, after which the sled stores have lost the sets that were not flushed. *)
From Coq Require Import Permutation Sorted String.
From Verif Require Import Rust Prog Gorilla GorillaSpec Storage StorageSpec StorageProofs Labels Indexer IndexSpec
  Chunk ChunkSpec ChunkProofs ChunkFacts ConcSpec Conc CrashProofs ReadsSpec ReadsMay ReadsCrash ReadsConc ReadsFacts Flush LossSpec FlushProofs LossProofs PropsChunk.
Local Notation lab k v := (mkLabel (s2b k) (s2b v)).
Local Notation length := List.length.

(* the insert with the flush has the effects and the result of the insert of Chunk.v *)
Theorem C61_same_effects : forall ch ls p w n,
  match crun ch (chunk_insert ch ls p) w with
  | Some (r, w1) => exists n1, run (lhandler ch) (chunk_insert_f ch ls p) (w, n) = Some (r, (w1, n1))
  | None => run (lhandler ch) (chunk_insert_f ch ls p) (w, n) = None
  end.
Proof. exact (fun ch ls p => er_run ch _ _ (insert_erases ch ls p)). Qed.
Print Assumptions C61_same_effects.

(* between inserts everything in the index is flushed, unless a series without labels was inserted *)
Theorem C61_index_flushed : forall ch h, c_indexer ch = SledIndexer -> Forall ireq_ok h -> Forall (fun r => fst r <> []) h ->
  Z.of_nat (length h) < 2 ^ 64 -> exists w, after ch h = Some w /\ after_f ch h = Some (w, O).
Proof. exact index_flushed. Qed.
Print Assumptions C61_index_flushed.
(* the exception is real *)
Theorem C61_index_flushed_refuted : exists ch h w n, c_indexer ch = SledIndexer /\ Forall ireq_ok h /\ after_f ch h = Some (w, n) /\ n <> O.
Proof.
  exists ex_chunk, [([], mkTp 20 7)]. eexists _, _. split; [reflexivity|]. split; [reqs_tac|]. split; [vm_compute; reflexivity|discriminate].
Qed.
Print Assumptions C61_index_flushed_refuted.

(* between inserts: the point store loses its last [a] sets, and queries answer for the chunk with every series
   ever inserted and the points of all but the last [a] of the inserts that were accepted *)
Theorem C61_exact : forall ch bs o h a q s e, bs_contract bs -> c_storage ch = SledStorage -> Forall ireq_ok h ->
  Z.of_nat (length h) < 2 ^ 64 -> all_increasing (content_of ch h) -> Forall lab_ok q -> s <= e ->
  exists w, after ch h = Some w /\
    crun ch (chunk_query ch bs o q s e) (lost w a 0) = Some (query_spec ch (after_loss ch h a) q s e, lost w a 0).
Proof. exact loss_exact_spec. Qed.
Print Assumptions C61_exact.

(* at any point inside the next insert: the series are those of the history, and the one being inserted if it is
   registered far enough; the points are those of all but the last [a] of the sets made *)
Theorem C61_power_loss : forall ch bs o h r c a b q s e, bs_contract bs -> c_storage ch = SledStorage -> c_indexer ch = SledIndexer ->
  Forall ireq_ok h -> Forall (fun x => fst x <> []) h -> ireq_ok r -> Z.of_nat (length h) + 1 < 2 ^ 64 ->
  all_increasing (content_of ch (h ++ [r])) -> Forall lab_ok q -> s <= e ->
  exists wn, after_f ch h = Some wn /\
    let wn' := snd (crash_at (lhandler ch) c (chunk_insert_f ch (fst r) (snd r)) wn) in
    ((b <= snd wn')%nat -> exists hh M, (hh = h \/ hh = h ++ [r]) /\
      seen (cut (content_of ch (but_last a (taken ch hh))) (content_of ch h))
           (cut (content_of ch (but_last a (taken ch hh))) (content_of ch (h ++ [r]))) q M /\
      crun ch (chunk_query ch bs o q s e) (lost (fst wn') a b) =
        Some (answer_from ch (fun pts => read_spec pts s e) M s e, lost (fst wn') a b)).
Proof.
  intros ch bs o h r c a b q s e Hb Hs Hi Hh Hne Hr HL Hinc Hq Hse.
  destruct (loss_crash ch bs o h r c a b q s e Hs Hi Hh Hne Hr HL Hq) as (wn & E & H). exists wn. split; [exact E|]. cbv zeta in *. intros Lb.
  destruct (H Lb) as (hh & M & Hhh & Se & Er). exists hh, M. split; [exact Hhh|]. split; [exact Se|]. rewrite Er. do 2 f_equal.
  eapply seen_spec; [exact Hb| |exact Hse|exact Se]. apply cut_increasing.
  assert (G: grown (content_of ch (but_last a (taken ch hh))) (content_of ch (h ++ [r]))).
  { destruct Hhh as [-> | ->]; [|apply but_last_grown]. eapply grown_trans; [apply but_last_grown|]. rewrite content_snoc. apply grown_ins. }
  exact (grown_increasing _ _ G Hinc).
Qed.
Print Assumptions C61_power_loss.

(* whatever is lost of either store: nothing is invented, and what is returned survived *)
Theorem C61_sound : forall ch bs o h a b q s e w l, c_storage ch = SledStorage -> Forall ireq_ok h ->
  Z.of_nat (length h) < 2 ^ 64 -> Forall lab_ok q ->
  after ch h = Some w -> crun ch (chunk_query ch bs o q s e) (lost w a b) = Some (Ok l, lost w a b) -> forall x, In x l ->
  (exists lb, In lb q /\ In lb (s_meta x)) /\
  forall p, In p (s_points x) -> in_window ch (tp_ts p) /\ exists ls, same_set ls (s_meta x) /\ In (ls, p) (but_last a (taken ch h)).
Proof. exact loss_sound. Qed.
Print Assumptions C61_sound.

(* the claim a user would expect is false: a point that survived on disk is not always returned.  The index of
   another series that matches survived, its points did not, and the chunk's query fails. *)
Theorem C61_survivors_returned_refuted : exists ch h a q s e w ls p,
  c_storage ch = SledStorage /\ c_indexer ch = SledIndexer /\ Forall ireq_ok h /\ Forall (fun r => fst r <> []) h /\
  all_increasing (content_of ch h) /\
  after_f ch h = Some (w, O) /\ In (ls, p) (but_last a (taken ch h)) /\ incl q ls /\ s <= tp_ts p <= e /\
  (exists l x, crun ch (chunk_query ch scan_bs no_timing q s e) w = Some (Ok l, w) /\ In x l /\ In p (s_points x)) /\
  exists err, crun ch (chunk_query ch scan_bs no_timing q s e) (lost w a 0) = Some (Err err, lost w a 0).
Proof.
  exists ex_chunk, [([lab "job" "a"; lab "host" "x"], mkTp 20 7); ([lab "job" "a"; lab "host" "y"], mkTp 30 8)], 1%nat, [lab "job" "a"], 15, 90.
  eexists _, [lab "job" "a"; lab "host" "x"], (mkTp 20 7). split; [reflexivity|]. split; [reflexivity|]. split; [reqs_tac|].
  split; [repeat constructor; discriminate|]. split; [incr_tac|]. split; [vm_compute; reflexivity|]. split; [vm_compute; auto|].
  split; [intros x [<-|[]]; now left|]. split; [cbn; lia|]. split.
  - eexists _, _. split; [vm_compute; reflexivity|]. split; [left; reflexivity|]. left. reflexivity.
  - eexists. vm_compute. reflexivity.
Qed.
Print Assumptions C61_survivors_returned_refuted.

(* ex_hist with the last two point sets lost (the insert at the end of the window, 100, sets none) *)
Example C61_case : Forall ireq_ok ex_hist /\ Forall (fun r => fst r <> []) ex_hist /\ all_increasing (content_of ex_chunk ex_hist) /\
  (exists w, after_f ex_chunk ex_hist = Some (w, O) /\
    crun ex_chunk (chunk_query ex_chunk scan_bs no_timing [lab "job" "a"] 15 90) (lost w 2 0) =
      Some (Ok [mkSeries 1 [lab "host" "x"; lab "job" "a"] [mkTp 20 7]; mkSeries 2 [lab "host" "y"; lab "job" "a"] [mkTp 30 8]], lost w 2 0)) /\
  query_spec ex_chunk (after_loss ex_chunk ex_hist 2) [lab "job" "a"] 15 90 =
    Ok [mkSeries 1 [lab "host" "x"; lab "job" "a"] [mkTp 20 7]; mkSeries 2 [lab "host" "y"; lab "job" "a"] [mkTp 30 8]].
Proof.
  split; [exact ex_hist_ok|]. split; [repeat constructor; discriminate|]. split; [incr_tac|]. split.
  - eexists. split; [vm_compute; reflexivity|]. vm_compute. reflexivity.
  - vm_compute. reflexivity.
Qed.
(* inside the insert of a new series: the number of index sets at risk after 3, 4, ..., 12 commands *)
Example C61_case_inside : Forall ireq_ok (ex_hist ++ [([lab "job" "c"; lab "host" "x"], mkTp 70 5)]) /\
  all_increasing (content_of ex_chunk (ex_hist ++ [([lab "job" "c"; lab "host" "x"], mkTp 70 5)])) /\
  exists wn, after_f ex_chunk ex_hist = Some wn /\
    map (fun c => snd (snd (crash_at (lhandler ex_chunk) c (chunk_insert_f ex_chunk [lab "job" "c"; lab "host" "x"] (mkTp 70 5)) wn)))
      [3; 4; 5; 6; 7; 8; 9; 10; 11; 12]%nat = [0; 0; 1; 2; 2; 3; 0; 0; 1; 0]%nat.
Proof.
  split; [unfold ex_hist; reqs_tac|]. split; [incr_tac|]. eexists. split; [vm_compute; reflexivity|]. vm_compute. reflexivity.
Qed.
