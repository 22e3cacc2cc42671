(* Properties C14-C20: label sets and the label index. *)
From Coq Require Import Permutation Sorted String.
From Verif Require Import Rust Prog Labels Indexer IndexSpec IntersectProofs IndexHist EdgeProofs.
Local Notation lab k v := (mkLabel (s2b k) (s2b v)).
Local Notation length := List.length.
Ltac labs_tac := repeat constructor; cbn; intuition discriminate.
Ltac set_tac := split; [labs_tac|split; [labs_tac|
  let l := fresh in let E := fresh in intros l E; first [discriminate E | injection E as <-; discriminate]]].
Ltac hist_tac := unfold hist_ok;
  repeat (apply Forall_cons; [split; [unfold id_ok; cbn [fst]; lia|cbn [snd]; set_tac]|]); apply Forall_nil.

(** C14 *)
Theorem C14_label_round_trip : forall ls is_key, ls <> [] -> Forall lab_ok ls ->
  exists r, decode_labels (encode_labels ls is_key) is_key = Ok r /\ same_set ls r /\ sorted_by_name r.
Proof. exact decode_sorted. Qed.
Print Assumptions C14_label_round_trip.
Theorem C14_label_domain_exact : forall ls is_key,
  (exists r, decode_labels (encode_labels ls is_key) is_key = Ok r /\ same_set ls r) <->
  ls <> [] /\ Forall lab_ok ls.
Proof. exact decode_perm_iff. Qed.
Print Assumptions C14_label_domain_exact.
(* which texts are read as which labels: those that write them out; any other text is an error, a key without its
   first character a panic *)
Theorem C14_any_text : forall s,
  (forall r, decode_labels s false = Ok r <-> r <> [] /\ Forall lab_ok r /\ s = label_text r) /\
  ((forall r, decode_labels s false <> Ok r) -> decode_labels s false = Err InternalErr) /\
  (forall c, decode_labels (c :: s) true = decode_labels s false) /\ decode_labels [] true = Panic.
Proof.
  intros s. split; [exact (decode_text s)|]. split; [|split; reflexivity]. intros H. destruct (decode_refuses s) as [P E].
  destruct (decode_labels s false) as [r|e|]; [now destruct (H r)|now rewrite (E e)|congruence].
Qed.
Print Assumptions C14_any_text.
Example C14_text_case : Forall lab_ok [lab "b" "x=1"; lab "a" ""] /\ label_text [lab "b" "x=1"; lab "a" ""] = s2b "b=x=1,a=" /\
  decode_labels (s2b "b=x=1,a=") false = Ok [lab "b" "x=1"; lab "a" ""] /\ decode_labels (s2b "b=1,,a=2") false = Err InternalErr /\
  decode_labels [] false = Err InternalErr.
Proof. split; [labs_tac|]. repeat split; vm_compute; reflexivity. Qed.
Example C14_case :
  Forall lab_ok [lab "b" "x=1"; lab "a" ""] /\
  decode_labels (encode_labels [lab "b" "x=1"; lab "a" ""] true) true = Ok [lab "a" ""; lab "b" "x=1"] /\
  decode_labels (encode_labels [lab "b" "1,a=2"] false) false = Ok [lab "b" "1"; lab "a" "2"].
Proof.
  split; [repeat constructor; cbn; intuition discriminate|]. vm_compute. split; reflexivity.
Qed.

(** C15 *)
Theorem C15_label_order : forall ix ls ls' s, keys_distinct ls -> same_set ls ls' ->
  krun (series_id_by_labels ix ls) s = krun (series_id_by_labels ix ls') s.
Proof. exact by_labels_perm. Qed.
Print Assumptions C15_label_order.
(* the id registered under one order is found under the other *)
Theorem C15_label_order_found : forall ix h ls ls' id, hist_ok h -> set_ok ls -> id_ok id -> same_set ls ls' ->
  (forall e, In e h -> ~ same_set (snd e) ls) ->
  fst (krun (create_index ix ls id) (created ix h)) = Ok tt /\
  fst (krun (series_id_by_labels ix ls') (snd (krun (create_index ix ls id) (created ix h)))) = Ok (Some id).
Proof. exact created_found. Qed.
Print Assumptions C15_label_order_found.
Example C15_case :
  let h := [(1, [lab "a" "1"])] in
  let ls := [lab "b" "2"; lab "a" "1"] in
  let ls' := [lab "a" "1"; lab "b" "2"] in
  hist_ok h /\ set_ok ls /\ same_set ls ls' /\
  fst (krun (series_id_by_labels SledIndexer ls') (created SledIndexer (h ++ [(2, ls)]))) = Ok (Some 2).
Proof.
  cbv zeta. split; [|split; [|split]].
  - hist_tac.
  - set_tac.
  - apply perm_swap.
  - vm_compute. reflexivity.
Qed.
(* with a repeated name the order matters *)
Theorem C15_repeated_name_refuted : exists ix ls ls' s, same_set ls ls' /\
  fst (krun (series_id_by_labels ix ls) s) <> fst (krun (series_id_by_labels ix ls') s).
Proof.
  exists SledIndexer, [lab "a" "1"; lab "a" "2"], [lab "a" "2"; lab "a" "1"],
    (created SledIndexer [(1, [lab "a" "1"; lab "a" "2"])]).
  split; [apply perm_swap|]. vm_compute. discriminate.
Qed.
Print Assumptions C15_repeated_name_refuted.

(** C16 *)
Theorem C16_no_alias : forall ix h ls, hist_ok h -> set_ok ls ->
  exists r, krun (series_id_by_labels ix ls) (created ix h) = (Ok r, created ix h) /\
    (forall id, r = Some id -> exists ls', In (id, ls') h /\ same_set ls' ls) /\
    (r = None -> forall id ls', In (id, ls') h -> ~ same_set ls' ls).
Proof. exact by_labels_exact. Qed.
Print Assumptions C16_no_alias.
(* which of several registrations of the set: the first with sled, the last with TiKV *)
Theorem C16_which : forall ix h ls, hist_ok h -> set_ok ls ->
  fst (krun (series_id_by_labels ix ls) (created ix h)) =
  Ok (option_map fst (find (fun e => same_setb (snd e) ls)
                           (match ix with SledIndexer => h | TiKvIndexer _ => rev h end))).
Proof. intros ix h ls H1 H2. rewrite by_labels_created by assumption. reflexivity. Qed.
Print Assumptions C16_which.
Example C16_case :
  let h := [(1, [lab "a" "1"; lab "b" "2"]); (2, [lab "a" "1"]); (3, [lab "b" "2"; lab "a" "1"])] in
  hist_ok h /\ set_ok [lab "a" "1"; lab "b" "2"] /\
  fst (krun (series_id_by_labels SledIndexer [lab "a" "1"; lab "b" "2"]) (created SledIndexer h)) = Ok (Some 1) /\
  fst (krun (series_id_by_labels (TiKvIndexer [7]) [lab "a" "1"; lab "b" "2"]) (created (TiKvIndexer [7]) h)) = Ok (Some 3) /\
  fst (krun (series_id_by_labels SledIndexer [lab "b" "2"]) (created SledIndexer h)) = Ok None.
Proof.
  cbv zeta. split; [|split].
  - hist_tac.
  - set_tac.
  - vm_compute. repeat split; reflexivity.
Qed.
(* commas in values: two different sets share one id *)
Theorem C16_comma_refuted : exists ix ls ls' id, ~ same_set ls ls' /\
  keys_distinct ls /\ keys_distinct ls' /\ not_R ls /\ not_R ls' /\
  fst (krun (series_id_by_labels ix ls') (created ix [(id, ls)])) = Ok (Some id).
Proof.
  exists SledIndexer, [lab "a" "1"; lab "b" "2"], [lab "a" "1,b=2"], 1.
  split; [|split; [|split; [|split; [|split]]]].
  - intros P. apply Permutation_length in P. discriminate.
  - repeat constructor; cbn; intuition discriminate.
  - repeat constructor; cbn; intuition discriminate.
  - intros l E. discriminate.
  - intros l E. injection E as <-. discriminate.
  - vm_compute. reflexivity.
Qed.
Print Assumptions C16_comma_refuted.
(* '=' in names *)
Theorem C16_equals_refuted : exists ix l l' id, l <> l' /\ not_R [l] /\ not_R [l'] /\
  fst (krun (series_id_by_labels ix [l']) (created ix [(id, [l])])) = Ok (Some id).
Proof.
  exists SledIndexer, (lab "a" "=b"), (lab "a=" "b"), 1.
  split; [discriminate|]. split; [intros l E; injection E as <-; discriminate|].
  split; [intros l E; injection E as <-; discriminate|]. vm_compute. reflexivity.
Qed.
Print Assumptions C16_equals_refuted.
(* a single label whose name starts with R is found although only x=1 was registered *)
Theorem C16_R_refuted : exists ix l l' id, lab_ok l /\ lab_ok l' /\ l <> l' /\ not_R [l] /\
  fst (krun (series_id_by_labels ix [l']) (created ix [(id, [l])])) = Ok (Some id).
Proof.
  exists SledIndexer, (lab "x" "1"), (lab "Rx" "1"), 1.
  split; [repeat constructor; cbn; intuition discriminate|].
  split; [repeat constructor; cbn; intuition discriminate|].
  split; [discriminate|]. split; [intros l E; injection E as <-; discriminate|]. vm_compute. reflexivity.
Qed.
Print Assumptions C16_R_refuted.

(** C17 *)
Theorem C17_search_exact : forall ix o h q, hist_ok h -> ascending (map fst h) -> Forall lab_ok q ->
  krun (series_id_contains_labels ix o q) (created ix h) =
  (Ok (map fst (search_regs (registry ix h) q)), created ix h).
Proof. exact contains_created. Qed.
Print Assumptions C17_search_exact.
(* what search_regs is, when every searched label occurs in the index *)
Theorem C17_search_known : forall ix o h q, hist_ok h -> ascending (map fst h) -> Forall lab_ok q -> q <> [] ->
  (forall l, In l q -> exists e, In e (registry ix h) /\ In l (snd e)) ->
  fst (krun (series_id_contains_labels ix o q) (created ix h)) =
  Ok (map fst (filter (fun e => forallb (has (snd e)) q) (registry ix h))).
Proof. exact contains_known. Qed.
Print Assumptions C17_search_known.
Theorem C17_search_nothing : forall ix o h q, hist_ok h -> ascending (map fst h) -> Forall lab_ok q ->
  (forall l e, In l q -> In e (registry ix h) -> ~ In l (snd e)) ->
  fst (krun (series_id_contains_labels ix o q) (created ix h)) = Ok [].
Proof. exact contains_nothing. Qed.
Print Assumptions C17_search_nothing.
(* an unknown label is ignored: the answer contains a series that lacks it *)
Theorem C17_unknown_label_refuted : forall ix, exists h q l id ls, hist_ok h /\ ascending (map fst h) /\
  Forall lab_ok q /\ In l q /\ In (id, ls) h /\ ~ In l ls /\
  forall o, fst (krun (series_id_contains_labels ix o q) (created ix h)) = Ok [id].
Proof.
  intros ix. exists [(1, [lab "a" "1"])], [lab "a" "1"; lab "b" "2"], (lab "b" "2"), 1, [lab "a" "1"].
  assert (H: hist_ok [(1, [lab "a" "1"])]).
  { hist_tac. }
  assert (Q: Forall lab_ok [lab "a" "1"; lab "b" "2"]) by (repeat constructor; cbn; intuition discriminate).
  split; [exact H|]. split; [repeat constructor|]. split; [exact Q|]. split; [right; now left|].
  split; [now left|]. split; [cbn; intuition discriminate|]. intros o.
  rewrite contains_created by (try assumption; repeat constructor). destruct ix; vm_compute; reflexivity.
Qed.
Print Assumptions C17_unknown_label_refuted.
Example C17_case :
  let h := [(1, [lab "a" "1"; lab "b" "2"]); (2, [lab "a" "1"]); (5, [lab "b" "2"; lab "c" "1"; lab "a" "1"])] in
  hist_ok h /\ ascending (map fst h) /\
  fst (krun (series_id_contains_labels SledIndexer (fun _ => []) [lab "a" "1"; lab "b" "2"]) (created SledIndexer h)) = Ok [1; 5] /\
  fst (krun (series_id_contains_labels (TiKvIndexer [7]) (fun _ => []) [lab "a" "1"]) (created (TiKvIndexer [7]) h)) = Ok [1; 2; 5].
Proof.
  cbv zeta. split; [|split].
  - hist_tac.
  - repeat constructor.
  - vm_compute. split; reflexivity.
Qed.

(** C18 *)
Theorem C18_intersection_exact : forall o ts, Forall ascending ts ->
  exists r, intersect_time_series_id_vec o ts = Some r /\ ascending r /\
    (forall x, In x r <-> ts <> [] /\ Forall (In x) ts).
Proof. exact intersect_exact. Qed.
Print Assumptions C18_intersection_exact.
Theorem C18_schedule_independent : forall o o' ts, Forall ascending ts ->
  intersect_time_series_id_vec o ts = intersect_time_series_id_vec o' ts.
Proof. exact intersect_timing. Qed.
Print Assumptions C18_schedule_independent.
(* the worker of the second half finishing first *)
Example C18_case :
  let ts := [[1; 2; 3; 9]; [2; 3; 9]; [0; 3; 9]; [3; 4; 9]] in
  Forall ascending ts /\
  intersect_time_series_id_vec (fun _ => [(false, true); (false, false); (true, false)]) ts = Some [3; 9].
Proof. split; [repeat constructor|vm_compute; reflexivity]. Qed.

(** C19 *)
Theorem C19_sled_duplicate_refused : forall h ls id, hist_ok h -> set_ok ls -> id_ok id ->
  ((exists e, In e h /\ same_set (snd e) ls) ->
     krun (create_index SledIndexer ls id) (created SledIndexer h) = (Err InternalErr, created SledIndexer h)) /\
  (~ (exists e, In e h /\ same_set (snd e) ls) ->
     fst (krun (create_index SledIndexer ls id) (created SledIndexer h)) = Ok tt).
Proof. exact sled_refuses. Qed.
Print Assumptions C19_sled_duplicate_refused.
Theorem C19_tikv_rebinds : forall ident h ls id, hist_ok h -> set_ok ls -> id_ok id ->
  let ix := TiKvIndexer ident in
  krun (create_index ix ls id) (created ix h) = (Ok tt, created ix (h ++ [(id, ls)])) /\
  fst (krun (series_id_by_labels ix ls) (created ix (h ++ [(id, ls)]))) = Ok (Some id).
Proof. exact tikv_rebind. Qed.
Print Assumptions C19_tikv_rebinds.
Example C19_case :
  let h := [(1, [lab "a" "1"; lab "b" "2"])] in
  hist_ok h /\ set_ok [lab "b" "2"; lab "a" "1"] /\
  krun (create_index SledIndexer [lab "b" "2"; lab "a" "1"] 2) (created SledIndexer h) =
    (Err InternalErr, created SledIndexer h).
Proof.
  cbv zeta. split; [|split].
  - hist_tac.
  - set_tac.
  - vm_compute. reflexivity.
Qed.

(** C20 *)
Theorem C20_metadata_exact : forall ix o h q, hist_ok h -> ascending (map fst h) -> Forall lab_ok q ->
  exists m, krun (series_metadata_contains_labels ix o q) (created ix h) = (Ok m, created ix h) /\
    fst (krun (series_id_contains_labels ix o q) (created ix h)) = Ok (map fst m) /\
    (forall id ls, In (id, ls) m -> sorted_by_name ls /\ exists ls', In (id, ls') h /\ same_set ls' ls).
Proof. exact metadata_registered. Qed.
Print Assumptions C20_metadata_exact.
Example C20_case :
  let h := [(1, [lab "b" "2"; lab "a" "1"]); (4, [lab "a" "1"])] in
  fst (krun (series_metadata_contains_labels SledIndexer (fun _ => []) [lab "a" "1"]) (created SledIndexer h)) =
    Ok [(1, [lab "a" "1"; lab "b" "2"]); (4, [lab "a" "1"])].
Proof. vm_compute. reflexivity. Qed.
