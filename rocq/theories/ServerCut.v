(* Proofs about write requests whose body was cut short: the server applies a first part of the
   request. *)
From Coq Require Import ZifyBool ZifyNat Permutation.
From Verif Require Import Rust Prog Gorilla GorillaSpec Storage StorageSpec StringProofs StorageProofs Labels Indexer IndexSpec LabelProofs IndexProofs
  Chunk ChunkSpec ChunkProofs ChunkFacts Utils DirSpec TiKvInit Db DbSpec DbProofs DbHist DbFacts
  Proto ProtoSpec ProtoProofs ProtoRound ProtoCut Server ServerSpec ServerProofs.

Lemma write_all_zero i ch ls p pts : tp_ts p = 0 -> forall w, run dhandler (write_all i ch ls (pts ++ [p])) w = run dhandler (write_all i ch ls pts) w.
Proof.
  intros Hp. assert (B: batch_passes ch p = false) by (unfold batch_passes; rewrite Hp; apply andb_false_r).
  induction pts as [|q pts IH]; intros w; cbn [app write_all].
  - rewrite B. reflexivity.
  - destruct (batch_passes ch q); [|apply IH]. rewrite !run_bind.
    destruct (run dhandler _ w) as [[[a|e|] w']|]; try reflexivity; [apply IH|]. rewrite !run_qbind, IH. reflexivity.
Qed.
Lemma write_points_zero ls p pts w : tp_ts p = 0 -> drun (db_write_points ls (pts ++ [p])) w = drun (db_write_points ls pts) w.
Proof.
  intros Hp. unfold drun, db_write_points, with_current. rewrite !run_bind.
  destruct (run dhandler (call DCurRead) w) as [[[po [i ch]] w']|]; [|reflexivity]. destruct po; [reflexivity|].
  rewrite !run_bind, !run_qbind, write_all_zero by assumption. reflexivity.
Qed.
Lemma state_here cf w l : state cf w l -> exists d, d_curl w = free_lock /\ nth_error (d_heap w) (d_cur w) = Some d.
Proof.
  intros (l1 & c & A & h0 & d & _ & [H1 H2 H3 H4 H5 H6 H7 H8 H9 H10 H11 H12]). exists d. split; [assumption|]. rewrite H1, H2. apply nth_last.
Qed.
Lemma write_points_none cf ls w l : state cf w l -> drun (db_write_points ls []) w = Some (Ok tt, w).
Proof.
  intros HS. destruct (state_here _ _ _ HS) as (d & H1 & H2). unfold drun, db_write_points. rewrite (with_current_run _ w d) by assumption.
  cbn [write_all]. unfold qbind. cbn [bind run]. rewrite <- H1 at 1. destruct w; cbn in *. subst. reflexivity.
Qed.

Lemma write_series_app a b : forall w, drun (write_series (a ++ b)) w =
  match drun (write_series a) w with Some (Ok _, w') => drun (write_series b) w' | o => o end.
Proof.
  induction a as [|s a IH]; intros w; [reflexivity|]. unfold drun in *. cbn [app write_series]. rewrite !run_qbind.
  destruct (run dhandler (db_write_points _ _) w) as [[[u|e|] w']|]; try reflexivity. apply IH.
Qed.
Lemma write_series_one s w : drun (write_series [s]) w =
  drun (db_write_points (stored_labels s) (map stored_point (ps_samples s))) w.
Proof.
  unfold drun. cbn [write_series]. rewrite run_qbind. change (fst (series_of_wire s)) with (stored_labels s).
  change (snd (series_of_wire s)) with (map stored_point (ps_samples s)).
  destruct (run dhandler (db_write_points _ _) w) as [[[[]|e|] w']|]; reflexivity.
Qed.
Lemma remnant_same cf w l y x : state cf w l -> remnant y x ->
  exists k, drun (write_series [y]) w = drun (write_series [mkPSeries (ps_labels x) (firstn k (ps_samples x)) (ps_unk x)]) w.
Proof.
  intros HS [E|(E & l1 & l2 & E2 & D)].
  - exists 0%nat. rewrite !write_series_one. cbn [ps_samples]. rewrite E. cbn [firstn map]. now rewrite !(write_points_none cf _ w l HS).
  - exists (length l1). rewrite !write_series_one. unfold stored_labels. cbn [ps_samples ps_labels]. rewrite E2, firstn_app, Nat.sub_diag, firstn_all, firstn_O, app_nil_r, E.
    destruct D as [->|(s & _ & -> & Hs)]; [reflexivity|]. rewrite map_app. cbn [map]. apply write_points_zero. cbn [stored_point tp_ts]. rewrite Hs. reflexivity.
Qed.

Lemma written_batches l : written (batches l) = concat (map (fun s => map (pair (stored_labels s)) (map stored_point (ps_samples s))) l).
Proof. induction l as [|s l IH]; [reflexivity|]. cbn [batches map written batch_of concat]. f_equal. exact IH. Qed.
Lemma starts_batches cf l : forall t, starts_ok cf t (batches l).
Proof. induction l as [|s l IH]; intros t; [exact I|apply IH]. Qed.
Lemma ops_ok_batches cf t ops l l' r : ops_ok cf t (ops ++ batches l) -> written (batches l) = written (batches l') ++ r ->
  ops_ok cf t (ops ++ batches l').
Proof.
  intros (H1 & H2 & H3 & H4 & H5 & H6 & H7) E. rewrite written_app, E in *.
  apply starts_app in H5 as [H5 _]. rewrite app_assoc in *. apply Forall_app in H6 as [H6 _]. rewrite app_length in H7.
  split; [assumption|]. split; [assumption|]. split; [assumption|]. split; [assumption|]. split; [apply starts_app; split; [assumption|apply starts_batches]|].
  rewrite written_app. split; [assumption|]. lia.
Qed.
Lemma applied_all ch l : existsb (fails ch) l = false -> applied ch l = l.
Proof.
  induction l as [|s l IH]; [reflexivity|]. cbn [existsb applied]. intros H. apply orb_false_iff in H as [-> H]. now rewrite IH.
Qed.
Lemma batches_app a b : batches (a ++ b) = batches a ++ batches b.
Proof. apply map_app. Qed.
Lemma part_written part whole : first_part part whole -> exists r, written (batches whole) = written (batches part) ++ r.
Proof.
  intros (l1 & x & l2 & k & -> & ->). exists (map (pair (stored_labels x)) (map stored_point (skipn k (ps_samples x))) ++ written (batches l2)).
  rewrite !batches_app, !written_app. cbn [batches map written batch_of ps_labels ps_samples]. unfold stored_labels at 2. cbn [ps_labels]. fold (stored_labels x).
  rewrite app_nil_r, <- !app_assoc. f_equal. rewrite !app_assoc. f_equal. rewrite <- !map_app, firstn_skipn. reflexivity.
Qed.
Lemma part_ops_ok cf t ops whole part : ops_ok cf t (ops ++ batches whole) -> first_part part whole -> ops_ok cf t (ops ++ batches part).
Proof. intros Ho Hp. destruct (part_written _ _ Hp) as (r & E). exact (ops_ok_batches _ _ _ _ _ _ Ho E). Qed.

Theorem cut_applied cf f ops m p : env_ok f -> empty_dir f -> let t0 := f_clock f (f_ticks f) in
  write_request_ok m -> Forall pseries_plain (wq_series m) -> wq_unk m = [] -> write_request_size m < 2 ^ 32 ->
  cut p (write_request_write m) ->
  let whole := map pseries_back (wq_series m) in
  ops_ok cf t0 (ops ++ batches whole) ->
  exists part, first_part part whole /\
  let ch := current_window cf t0 ops in
  let ops' := ops ++ batches (applied ch part) in
  exists w w', db_after cf f ops = Some (outcomes cf t0 ops, w) /\
    drun (server_write (fst (merge_from write_request_read p write_request_new))) w =
      Some (if existsb (fails ch) part then Err InternalErr else Ok tt, w') /\
    db_after cf f ops' = Some (outcomes cf t0 ops', w').
Proof.
  intros He Hd t0 Hok Hpl Hu Hsz Hc whole Ho.
  destruct (write_request_cut m p Hok Hpl Hu Hsz Hc) as (l1 & x & l2 & El & D). unfold server_write.
  set (dec := wq_series (fst (merge_from write_request_read p write_request_new))) in *. clearbody dec. clear Hok Hpl Hu Hsz Hc.
  set (ch := current_window cf t0 ops). set (x' := fun k => mkPSeries (ps_labels (pseries_back x)) (firstn k (ps_samples (pseries_back x))) (ps_unk (pseries_back x))).
  assert (Ew: whole = map pseries_back l1 ++ pseries_back x :: map pseries_back l2).
  { unfold whole. rewrite El, map_app. reflexivity. }
  clearbody whole. clear El. set (l1' := map pseries_back l1) in *. clearbody l1'.
  assert (FP: forall k, first_part (l1' ++ [x' k]) whole) by (intros k; exists l1', (pseries_back x), (map pseries_back l2), k; split; [assumption|reflexivity]).
  (* after the whole series *)
  assert (O1: ops_ok cf t0 (ops ++ batches l1')).
  { apply (ops_ok_batches cf t0 ops whole l1' (written (batches (pseries_back x :: map pseries_back l2))) Ho). rewrite Ew, batches_app. apply written_app. }
  (* the same effect as part *)
  assert (R: exists k, forall w, db_after cf f ops = Some (outcomes cf t0 ops, w) -> drun (write_series dec) w = drun (write_series (l1' ++ [x' k])) w).
  { assert (O2: ops_ok cf t0 (ops ++ batches (applied ch l1'))).
    { destruct (applied_prefix ch l1') as (l' & E). apply (ops_ok_batches cf t0 ops l1' (applied ch l1') (written (batches l')) O1).
      rewrite E at 1. rewrite batches_app. apply written_app. }
    destruct (write_applied cf f ops l1' He Hd O2) as (w & w1 & A1 & A2 & A3). fold t0 ch in A1, A2, A3.
    assert (C: exists k, drun (write_series dec) w = drun (write_series (l1' ++ [x' k])) w).
    { destruct (existsb (fails ch) l1') eqn:F.
      - exists 0%nat. destruct D as [->|(y & -> & _)]; rewrite ?write_series_app, A2; reflexivity.
      - destruct (history cf f _ He Hd O2) as (w1' & B1 & HS). fold t0 in B1. assert (w1' = w1) as -> by congruence.
        destruct D as [->|(y & -> & Hy)].
        + exists 0%nat. rewrite write_series_app, A2, write_series_one. cbn [x' ps_samples firstn map]. symmetry. exact (write_points_none cf _ w1 _ HS).
        + destruct (remnant_same _ _ _ _ _ HS Hy) as (k & E). exists k. rewrite !write_series_app, A2. exact E. }
    destruct C as (k & C). exists k. intros w0 H0. assert (w0 = w) as -> by congruence. exact C. }
  destruct R as (k & R). exists (l1' ++ [x' k]). split; [apply FP|]. cbv zeta. fold ch.
  assert (O3: ops_ok cf t0 (ops ++ batches (l1' ++ [x' k]))) by exact (part_ops_ok _ _ _ _ _ Ho (FP k)).
  assert (O4: ops_ok cf t0 (ops ++ batches (applied ch (l1' ++ [x' k])))).
  { destruct (applied_prefix ch (l1' ++ [x' k])) as (l' & E). apply (ops_ok_batches cf t0 ops _ _ (written (batches l')) O3).
    rewrite E at 1. rewrite batches_app. apply written_app. }
  destruct (write_applied cf f ops _ He Hd O4) as (w & w' & A1 & A2 & A3). exists w, w'. split; [exact A1|]. split; [|exact A3].
  rewrite (R w A1). exact A2.
Qed.

(* ------------------------------------------------------------------ *)
(** * Points outside the window of the current chunk *)

Lemma parts_last cf ops : forall st h, exists l0 A, parts_from cf st h ops = l0 ++ [(the_chunk cf (last_start st ops), A)].
Proof.
  induction ops as [|[ls p|ls pts|st'] ops IH]; intros st h; cbn [parts_from last_start].
  - exists [], (content_of (the_chunk cf st) h). reflexivity.
  - apply IH.
  - apply IH.
  - destruct (IH st' []) as (l0 & A & E). rewrite E. eexists (_ :: l0), A. reflexivity.
Qed.
Lemma write_all_skipped i ch ls pts : (forall p, In p pts -> batch_passes ch p = false) -> write_all i ch ls pts = Ret (Ok false).
Proof.
  induction pts as [|p pts IH]; intros H; [reflexivity|]. cbn [write_all]. rewrite (H p (or_introl eq_refl)). apply IH. intros q Hq. apply H. right. exact Hq.
Qed.
Theorem skipped cf f ops l : env_ok f -> empty_dir f -> let t0 := f_clock f (f_ticks f) in
  ops_ok cf t0 ops ->
  let ch := current_window cf t0 ops in
  (forall s x, In s l -> In x (ps_samples s) -> tp_ts (stored_point x) < c_start ch \/ c_end ch < tp_ts (stored_point x)) ->
  exists w, db_after cf f ops = Some (outcomes cf t0 ops, w) /\ drun (write_series l) w = Some (Ok tt, w).
Proof.
  intros He Hd t0 Ho ch H. destruct (history cf f ops He Hd Ho) as (w & E & HS). fold t0 in E, HS. exists w. split; [exact E|].
  destruct (parts_last cf ops t0 []) as (l0 & A & EP). unfold parts in HS. rewrite EP in HS. fold (current_window cf t0 ops) in HS. fold ch in HS.
  destruct (state_cur _ _ _ _ _ HS) as (d & N & K1 & (_ & K2 & K3) & _ & _).
  induction l as [|s l IH]; [reflexivity|].
  change (s :: l) with ([s] ++ l). rewrite write_series_app, write_series_one.
  replace (drun (db_write_points (stored_labels s) (map stored_point (ps_samples s))) w) with (Some (Ok tt, w)).
  - apply IH. intros s' x H1 H2. apply (H s' x); [right; exact H1|exact H2].
  - unfold drun, db_write_points. rewrite (with_current_run _ w d) by assumption. rewrite write_all_skipped.
    + unfold qbind. cbn [bind run]. clear - K1. destruct w; cbn in *. now subst.
    + intros p Hp. apply in_map_iff in Hp as (x & <- & Hx). pose proof (H s x (or_introl eq_refl) Hx). unfold batch_passes. lia.
Qed.
Theorem negative_dropped cf f ops l : env_ok f -> empty_dir f -> let t0 := f_clock f (f_ticks f) in
  ops_ok cf t0 ops -> c_end (current_window cf t0 ops) < 2 ^ 63 ->
  (forall s x, In s l -> In x (ps_samples s) -> i64 (sm_ts x) /\ sm_ts x < 0) ->
  exists w, db_after cf f ops = Some (outcomes cf t0 ops, w) /\ drun (server_write (mkWriteReq l [])) w = Some (Ok tt, w).
Proof.
  intros He Hd t0 Ho Hend H. apply (skipped cf f ops l He Hd Ho). intros s x Hs Hx. right.
  destruct (H s x Hs Hx) as [H1 H2]. pose proof (negative_point x H1 H2) as N. fold t0.
  change (stored_point x) with (point_of_wire x). lia.
Qed.
