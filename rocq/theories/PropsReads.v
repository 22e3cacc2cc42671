(* Property C58: queries that run while other threads insert into the same chunk. *)
From Coq Require Import Permutation Sorted String.
From Verif Require Import Rust Prog Gorilla GorillaSpec Storage StorageSpec StorageProofs Labels Indexer IndexSpec
  Chunk ChunkSpec ChunkProofs ChunkFacts ConcSpec Conc CrashProofs ReadsSpec ReadsMay ReadsCrash ReadsConc ReadsFacts PropsChunk.
Local Notation lab k v := (mkLabel (s2b k) (s2b v)).
Local Notation length := List.length.

(* which inserts count as acknowledged and as begun *)
Theorem C58_acked : forall ch bs h ops s1 s2 w i, Forall ireq_ok h -> Forall cop_ok ops ->
  Z.of_nat (length h + length ops) < 2 ^ 64 -> after ch h = Some w ->
  (In i (acked ch bs ops s1 s2 w) <->
   exists r, nth_error ops i = Some (Ins r) /\ exists a, nth_error (threads ch bs ops s1 w) i = Some (Ret a)).
Proof. exact (fun ch bs h ops s1 s2 w i H Ho L E => acked_exact ch bs h ops s1 s2 w H Ho L E i). Qed.
Print Assumptions C58_acked.
Theorem C58_begun : forall ch bs h ops s1 s2 w, Forall ireq_ok h -> Forall cop_ok ops ->
  Z.of_nat (length h + length ops) < 2 ^ 64 -> after ch h = Some w ->
  prefix (acked ch bs ops s1 s2 w) (begun ch bs ops (s1 ++ s2) w) /\ NoDup (begun ch bs ops (s1 ++ s2) w) /\
  forall i, In i (begun ch bs ops (s1 ++ s2) w) -> exists r, nth_error ops i = Some (Ins r) /\
    nth_error (threads ch bs ops (s1 ++ s2) w) i <> Some (cop_prog ch bs (Ins r)).
Proof. exact begun_order. Qed.
Print Assumptions C58_begun.

(* an insert that returns answers as alone: success exactly inside the window *)
Theorem C58_insert_results : forall ch bs h ops sched w i r a, Forall ireq_ok h -> Forall cop_ok ops ->
  Z.of_nat (length h + length ops) < 2 ^ 64 -> after ch h = Some w ->
  nth_error ops i = Some (Ins r) -> nth_error (threads ch bs ops sched w) i = Some (Ret a) ->
  a = Inserted (insert_result ch r).
Proof. exact (fun ch bs h ops sched w i r a H Ho L E => insert_results ch bs h ops [] sched w H Ho L E i r a). Qed.
Print Assumptions C58_insert_results.

(* a query that starts after s1 looks at series between the acknowledged content and the begun one *)
Theorem C58_between : forall ch bs h ops s1 s2 w j o q s e a, Forall ireq_ok h -> Forall cop_ok ops ->
  Z.of_nat (length h + length ops) < 2 ^ 64 -> after ch h = Some w ->
  nth_error ops j = Some (Ask o q s e) -> ~ In j s1 -> nth_error (threads ch bs ops (s1 ++ s2) w) j = Some (Ret a) ->
  exists M, seen (content_acked ch bs h ops s1 s2 w) (content_begun ch bs h ops (s1 ++ s2) w) q M /\
    a = Queried (answer_from ch (stored_read (c_storage ch) bs s e) M s e).
Proof. exact (fun ch bs h ops s1 s2 w j o q s e a H Ho L E => query_between ch bs h ops s1 s2 w H Ho L E j o q s e a). Qed.
Print Assumptions C58_between.
(* ... and, for increasing series, returns exactly their points in the range *)
Theorem C58_between_increasing : forall ch bs h ops s1 s2 w j o q s e a, Forall ireq_ok h -> Forall cop_ok ops ->
  Z.of_nat (length h + length ops) < 2 ^ 64 -> after ch h = Some w -> bs_contract bs ->
  all_increasing (content_begun ch bs h ops (s1 ++ s2) w) -> s <= e ->
  nth_error ops j = Some (Ask o q s e) -> ~ In j s1 -> nth_error (threads ch bs ops (s1 ++ s2) w) j = Some (Ret a) ->
  exists M, seen (content_acked ch bs h ops s1 s2 w) (content_begun ch bs h ops (s1 ++ s2) w) q M /\
    a = Queried (answer_from ch (fun pts => read_spec pts s e) M s e).
Proof. exact (fun ch bs h ops s1 s2 w j o q s e a H Ho L E => query_between_spec ch bs h ops s1 s2 w H Ho L E j o q s e a). Qed.
Print Assumptions C58_between_increasing.

(* nothing is invented: every returned point is in the window and was given to an insert that had begun, with
   the labels of the series it is returned in, one of which was searched *)
Theorem C58_sound : forall ch bs h ops s1 s2 w j o q s e l, Forall ireq_ok h -> Forall cop_ok ops ->
  Z.of_nat (length h + length ops) < 2 ^ 64 -> after ch h = Some w ->
  nth_error ops j = Some (Ask o q s e) -> ~ In j s1 ->
  nth_error (threads ch bs ops (s1 ++ s2) w) j = Some (Ret (Queried (Ok l))) -> forall x, In x l ->
  (exists lb, In lb q /\ In lb (s_meta x)) /\
  forall p, In p (s_points x) -> in_window ch (tp_ts p) /\
    exists ls, same_set ls (s_meta x) /\
      (In (ls, p) h \/ exists i, nth_error ops i = Some (Ins (ls, p)) /\ In i (begun ch bs ops (s1 ++ s2) w)).
Proof. exact (fun ch bs h ops s1 s2 w j o q s e l H Ho L E => query_sound ch bs h ops s1 s2 w H Ho L E j o q s e l). Qed.
Print Assumptions C58_sound.

(* nothing acknowledged is missed: if the query succeeds it returns every point in the range of every matching
   series that was acknowledged before it started *)
Theorem C58_complete : forall ch bs h ops s1 s2 w j o q s e l, Forall ireq_ok h -> Forall cop_ok ops ->
  Z.of_nat (length h + length ops) < 2 ^ 64 -> after ch h = Some w -> bs_contract bs ->
  all_increasing (content_begun ch bs h ops (s1 ++ s2) w) -> s <= e ->
  nth_error ops j = Some (Ask o q s e) -> ~ In j s1 ->
  nth_error (threads ch bs ops (s1 ++ s2) w) j = Some (Ret (Queried (Ok l))) ->
  forall ls pts p, In (ls, pts) (content_acked ch bs h ops s1 s2 w) ->
  matches (content_begun ch bs h ops (s1 ++ s2) w) q ls = true -> In p pts -> s <= tp_ts p <= e ->
  exists x, In x l /\ same_set ls (s_meta x) /\ In p (s_points x).
Proof. exact (fun ch bs h ops s1 s2 w j o q s e l H Ho L E => query_complete ch bs h ops s1 s2 w H Ho L E j o q s e l). Qed.
Print Assumptions C58_complete.

Theorem C58_no_panic : forall ch bs h ops s1 s2 w j o q s e, Forall ireq_ok h -> Forall cop_ok ops ->
  Z.of_nat (length h + length ops) < 2 ^ 64 -> after ch h = Some w -> bs_contract bs ->
  all_increasing (content_begun ch bs h ops (s1 ++ s2) w) -> s <= e -> nth_error ops j = Some (Ask o q s e) -> ~ In j s1 ->
  nth_error (threads ch bs ops (s1 ++ s2) w) j <> Some (Ret (Queried Panic)).
Proof. exact (fun ch bs h ops s1 s2 w j o q s e H Ho L E => query_no_panic ch bs h ops s1 s2 w H Ho L E j o q s e). Qed.
Print Assumptions C58_no_panic.

(* if no series that is new meanwhile has a searched label, the answer is that for one content between the two *)
Theorem C58_snapshot : forall ch bs h ops s1 s2 w j o q s e a, Forall ireq_ok h -> Forall cop_ok ops ->
  Z.of_nat (length h + length ops) < 2 ^ 64 -> after ch h = Some w -> bs_contract bs ->
  let A0 := content_acked ch bs h ops s1 s2 w in
  let A1 := content_begun ch bs h ops (s1 ++ s2) w in
  all_increasing A1 -> s <= e ->
  (forall i x l, nth_error A1 i = Some x -> (length A0 <= i)%nat -> In l q -> has (fst x) l = false) ->
  nth_error ops j = Some (Ask o q s e) -> ~ In j s1 -> nth_error (threads ch bs ops (s1 ++ s2) w) j = Some (Ret a) ->
  exists B, map fst B = map fst A0 /\ grown A0 B /\ grown B A1 /\ a = Queried (query_spec ch B q s e).
Proof. exact query_snapshot. Qed.
Print Assumptions C58_snapshot.

(* once every insert begun has returned, the chunk answers for all of them, in the order in which they locked *)
Theorem C58_after_all : forall ch bs h ops sched w o q s e, Forall ireq_ok h -> Forall cop_ok ops ->
  Z.of_nat (length h + length ops) < 2 ^ 64 -> after ch h = Some w ->
  (forall i, In i (begun ch bs ops sched w) -> exists a, nth_error (threads ch bs ops sched w) i = Some (Ret a)) ->
  Forall lab_ok q ->
  let w2 := snd (interleave (chandler ch) sched (map (cop_prog ch bs) ops) w) in
  crun ch (chunk_query ch bs o q s e) w2 =
  Some (answer_from ch (stored_read (c_storage ch) bs s e) (matching (content_begun ch bs h ops sched w) q) s e, w2).
Proof.
  intros ch bs h ops sched w o q s e H Ho L E.
  pose proof (after_all ch bs h ops sched [] w H Ho L E o q s e) as K. rewrite app_nil_r in K. exact K.
Qed.
Print Assumptions C58_after_all.

(* one insert acknowledged, one running while the query runs *)
Definition rd_ops : list cop :=
  [Ins ([lab "job" "a"; lab "host" "y"], mkTp 50 5); Ins ([lab "host" "x"; lab "job" "a"], mkTp 70 2);
   Ask no_timing [lab "job" "a"] 45 90].
Definition rd_s1 : list nat := repeat 0%nat 12.
Definition rd_early : list nat := (repeat 2 10 ++ repeat 1 12 ++ repeat 2 20)%nat.
Definition rd_late : list nat := (repeat 1 12 ++ repeat 2 30)%nat.
Definition rd_w : cworld := match after ex_chunk ex_hist with Some w => w | None => new_world [] [] end.
Example C58_case : Forall ireq_ok ex_hist /\ Forall cop_ok rd_ops /\ after ex_chunk ex_hist = Some rd_w /\ bs_contract scan_bs /\
  acked ex_chunk scan_bs rd_ops rd_s1 rd_early rd_w = [0%nat] /\
  begun ex_chunk scan_bs rd_ops (rd_s1 ++ rd_early) rd_w = [0; 1]%nat /\
  all_increasing (content_begun ex_chunk scan_bs ex_hist rd_ops (rd_s1 ++ rd_early) rd_w) /\
  ~ In 2%nat rd_s1 /\
  nth_error (threads ex_chunk scan_bs rd_ops (rd_s1 ++ rd_early) rd_w) 2 = Some (Ret (Queried (Ok
    [mkSeries 1 [lab "host" "x"; lab "job" "a"] [mkTp 60 6]; mkSeries 2 [lab "host" "y"; lab "job" "a"] [mkTp 50 5]]))) /\
  nth_error (threads ex_chunk scan_bs rd_ops (rd_s1 ++ rd_late) rd_w) 2 = Some (Ret (Queried (Ok
    [mkSeries 1 [lab "host" "x"; lab "job" "a"] [mkTp 60 6; mkTp 70 2]; mkSeries 2 [lab "host" "y"; lab "job" "a"] [mkTp 50 5]]))) /\
  (forall i x l, nth_error (content_begun ex_chunk scan_bs ex_hist rd_ops (rd_s1 ++ rd_early) rd_w) i = Some x ->
     (length (content_acked ex_chunk scan_bs ex_hist rd_ops rd_s1 rd_early rd_w) <= i)%nat -> In l [lab "job" "a"] -> has (fst x) l = false).
Proof.
  split; [exact ex_hist_ok|]. split.
  { unfold rd_ops. apply Forall_cons; [split; [cbn [fst]; set_tac|tp_tac]|]. apply Forall_cons; [split; [cbn [fst]; set_tac|tp_tac]|].
    apply Forall_cons; [|apply Forall_nil]. cbn [cop_ok]. labs_tac. }
  split; [vm_compute; reflexivity|]. split; [exact scan_contract|]. split; [vm_compute; reflexivity|]. split; [vm_compute; reflexivity|].
  split; [incr_tac|]. split; [cbv; intuition discriminate|]. split; [vm_compute; reflexivity|]. split; [vm_compute; reflexivity|].
  assert (content_begun ex_chunk scan_bs ex_hist rd_ops (rd_s1 ++ rd_early) rd_w =
          content_of ex_chunk (ex_hist ++ [([lab "job" "a"; lab "host" "y"], mkTp 50 5); ([lab "host" "x"; lab "job" "a"], mkTp 70 2)])) as ->
    by (vm_compute; reflexivity).
  assert (length (content_acked ex_chunk scan_bs ex_hist rd_ops rd_s1 rd_early rd_w) =
          length (content_of ex_chunk (ex_hist ++ [([lab "job" "a"; lab "host" "y"], mkTp 50 5); ([lab "host" "x"; lab "job" "a"], mkTp 70 2)]))) as ->
    by (vm_compute; reflexivity).
  intros i x l Hn Hi _. exfalso. assert (K: nth_error (content_of ex_chunk (ex_hist ++ [([lab "job" "a"; lab "host" "y"], mkTp 50 5); ([lab "host" "x"; lab "job" "a"], mkTp 70 2)])) i <> None) by congruence.
  apply nth_error_Some in K. lia.
Qed.
