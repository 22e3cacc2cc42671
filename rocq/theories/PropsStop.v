(* Property C29, queries: what every query answers after an insert was stopped part way and the chunk
   was started again on its stores. *)
From Coq Require Import Permutation Sorted String.
From Verif Require Import Rust Prog Gorilla GorillaSpec Storage StorageSpec StorageProofs Labels Indexer IndexSpec
  Chunk ChunkSpec ChunkProofs ChunkFacts ConcSpec Conc CrashProofs StopSpec CrashQuery PropsChunk.
Local Notation lab k v := (mkLabel (s2b k) (s2b v)).
Local Notation length := List.length.

(* the answer without the insert, or with the insert; or, when the insert starts a series and the query
   searches one of its labels, the answer for some of the series matching before, which may fail at the
   end with "not found"; series matching also after the insert are not dropped *)
Theorem C29_queries : forall ch bs o h r n q s e, bs_contract bs -> Forall ireq_ok h -> ireq_ok r -> Z.of_nat (length h) + 1 < 2 ^ 64 ->
  all_increasing (content_of ch (h ++ [r])) -> Forall lab_ok q -> s <= e ->
  exists w x, after ch h = Some w /\ crun ch (chunk_query ch bs o q s e) (restarted ch n r w) = Some (x, restarted ch n r w) /\
    (x = query_spec ch (content_of ch h) q s e \/ x = query_spec ch (content_of ch (h ++ [r])) q s e \/
     starts_series ch (content_of ch h) r /\ shares q (fst r) /\
     exists keep, (forall y, In y (matching (content_of ch h) q) -> matches (content_of ch (h ++ [r])) q (fst (snd y)) = true -> keep y = true) /\
       (x = part_answer ch (content_of ch h) q s e keep \/
        x = let* _ := part_answer ch (content_of ch h) q s e keep in Err NotFoundErr)).
Proof. exact stopped_queries. Qed.
Print Assumptions C29_queries.
(* a query searching no label of the insert answers as without it, wherever the insert was stopped *)
Theorem C29_other_queries : forall ch bs o h r n q s e, bs_contract bs -> Forall ireq_ok h -> ireq_ok r -> Z.of_nat (length h) + 1 < 2 ^ 64 ->
  all_increasing (content_of ch (h ++ [r])) -> Forall lab_ok q -> s <= e -> ~ shares q (fst r) ->
  exists w, after ch h = Some w /\
    crun ch (chunk_query ch bs o q s e) (restarted ch n r w) = Some (query_spec ch (content_of ch h) q s e, restarted ch n r w).
Proof. exact other_queries. Qed.
Print Assumptions C29_other_queries.
Example C29_queries_case :
  let r := ([lab "host" "z"; lab "job" "a"], mkTp 50 1) in
  ireq_ok r /\ all_increasing (content_of ex_chunk (ex_hist ++ [r])) /\ Forall lab_ok [lab "host" "y"] /\
  starts_series ex_chunk (content_of ex_chunk ex_hist) r /\ shares [lab "job" "a"; lab "host" "z"] (fst r) /\ ~ shares [lab "host" "y"] (fst r) /\
  query_spec ex_chunk (content_of ex_chunk ex_hist) [lab "host" "y"] 25 55 = Ok [mkSeries 2 [lab "host" "y"; lab "job" "a"] [mkTp 30 8]].
Proof.
  cbv zeta. split; [split; [cbn [fst]; set_tac|tp_tac]|]. split; [incr_tac|]. split; [labs_tac|]. split; [|split; [|split]].
  - split; [cbv; auto|]. intros e He. assert (In (fst e) (map fst (content_of ex_chunk ex_hist))) as H by now apply in_map.
    intros F. assert (G: In (lab "host" "z") (fst e)) by (eapply Permutation_in; [apply Permutation_sym; exact F|now left]).
    change (map fst (content_of ex_chunk ex_hist)) with [[lab "job" "a"; lab "host" "x"]; [lab "job" "a"; lab "host" "y"]] in H.
    destruct H as [H|[H|[]]]; rewrite <- H in G; destruct G as [G|[G|[]]]; discriminate G.
  - exists (lab "host" "z"). split; [right; now left|now left].
  - intros (l & [<-|[]] & H). destruct H as [H|[H|[]]]; discriminate H.
  - vm_compute. reflexivity.
Qed.
(* the third outcome is real: a query answered before may, after the restart, silently find nothing *)
Theorem C29_silently_empty_refuted : exists ch h r n q s e w l,
  Forall ireq_ok h /\ ireq_ok r /\ after ch h = Some w /\
  crun ch (chunk_query ch scan_bs no_timing q s e) w = Some (Ok l, w) /\ l <> [] /\
  crun ch (chunk_query ch scan_bs no_timing q s e) (restarted ch n r w) = Some (Ok [], restarted ch n r w) /\
  Ok [] <> query_spec ch (content_of ch (h ++ [r])) q s e.
Proof.
  exists ex_chunk, ex_hist, ([lab "host" "z"; lab "job" "a"], mkTp 50 1), 8%nat, [lab "job" "a"; lab "host" "z"], 25, 55.
  eexists _, _. split; [exact ex_hist_ok|]. split; [split; [cbn [fst]; set_tac|tp_tac]|]. split; [vm_compute; reflexivity|].
  split; [vm_compute; reflexivity|]. split; [discriminate|]. split; [vm_compute; reflexivity|]. vm_compute. discriminate.
Qed.
Print Assumptions C29_silently_empty_refuted.
