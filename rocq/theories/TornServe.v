(* The process ends while the server is at work on a request. *)
From Coq Require Import ZifyBool ZifyNat Permutation Sorted.
From Verif Require Import WireSpec.
From Verif Require Import Rust StringProofs Prog Gorilla GorillaSpec Storage StorageSpec StorageProofs Labels IndexSpec Indexer
  LabelProofs IntersectProofs IndexProofs IndexHist Chunk ChunkSpec ChunkProofs ChunkFacts ConcSpec Conc CrashProofs ReadsSpec ReadsMay ReadsCrash
  ReadsConc Flush LossSpec FlushProofs LossProofs StopSpec CrashQuery
  Utils DirSpec DirProofs TiKvInit Db DbSpec MapProofs DbProofs DbHist RangeSpec RangeProofs DbFacts SwapSpec SwapProofs
  ReopenSpec ReopenProofs OpenProofs CrashOpen CrashKeep SearchSpec Proto ProtoSpec ProtoProofs ProtoRound ProtoCut Server ServerSpec ServerProofs TornSpec TornProofs TornKnown TornAll TornServeSpec.
Ltac Zify.zify_post_hook ::= Z.div_mod_to_equations.

(** ** requests that write nothing *)
Definition dreadc X (c : dcmd X) : Prop :=
  match c with DC _ c => readc _ c | DCurRead | DCurUnread | DSecRead | DSecUnread => True | _ => False end.
Lemma db_query_only hs bs o q s e : only dreadc (db_query hs bs o q s e).
Proof.
  assert (Q: forall i ch, only dreadc (lift (fun X c => @DC X i c) (chunk_query ch bs o q s e))) by (intros i ch; apply (only_lift readc); [auto|apply query_only]).
  assert (S: forall cs m, only dreadc (query_secondaries hs bs o q s e cs m)).
  { induction cs as [|[i ch] cs IH]; intros m; cbn [query_secondaries]; [exact I|]. destruct (is_with_range ch s e); [|apply IH].
    apply only_bind; [apply Q|]. intros [l|er|]; [|apply IH|exact I]. destruct (merge _ m l); [apply IH|exact I..]. }
  unfold db_query, with_current. apply only_qbind.
  - apply only_bind; [apply only_call; exact I|]. intros [b [i ch]]. destruct b; [apply only_bind; [apply only_call; exact I|intros; exact I]|].
    apply only_bind; [|intros r; apply only_bind; [apply only_call; exact I|intros; exact I]].
    apply only_bind; [apply Q|]. intros r. exact I.
  - intros m. apply only_bind; [apply only_call; exact I|]. intros [b cs].
    apply only_bind; [destruct b; [exact I|apply S]|]. intros r. apply only_bind; [apply only_call; exact I|]. intros; exact I.
Qed.
Lemma query_results_only bs ch qs : forall n, only dreadc (query_results bs ch n qs).
Proof.
  induction qs as [|q qs IH]; intros n; cbn [query_results]; [exact I|]. apply only_bind; [apply db_query_only|].
  intros [l|er|]; [| |exact I]; (apply only_qbind; [apply IH|intros; exact I]).
Qed.
Lemma process_only sv z bs ch rq : rq_url rq = sv_read_path sv \/ rq_url rq <> sv_write_path sv -> only dreadc (process sv z bs ch rq).
Proof.
  intros H. unfold process. destruct (rq_content rq) as [c|]; [|exact I]. destruct (decompress z c) as [body|]; [|exact I].
  destruct (bytes_eqb (rq_url rq) (sv_read_path sv)) eqn:E.
  - destruct (merge_from read_request_read body read_request_new) as [m ok]. destruct (negb ok || (read_request_size m =? 0)); [exact I|].
    apply only_bind; [|intros; exact I]. unfold server_query. apply only_qbind; [apply query_results_only|intros; exact I].
  - destruct H as [H|H]; [rewrite H, bytes_eqb_refl in E; discriminate|].
    rewrite (bytes_eqb_neq (rq_url rq) (sv_write_path sv)) by assumption. exact I.
Qed.
Definition kept (d : dchunk) := (dc_name d, w_st (dc_world d), w_ix (dc_world d)).
Definition same_stores (w v : dworld) : Prop := d_fs v = d_fs w /\ map kept (d_heap v) = map kept (d_heap w).
Lemma map_upd {A B} (g : A -> B) i x : forall l y, nth_error l i = Some y -> g x = g y -> map g (upd l i x) = map g l.
Proof.
  induction i as [|i IH]; intros [|a l] y N E; try discriminate; cbn [nth_error] in N.
  - injection N as ->. change (upd (y :: l) 0 x) with (x :: l). cbn [map]. now rewrite E.
  - change (upd (a :: l) (S i) x) with (a :: upd l i x). cbn [map]. f_equal. now apply (IH l y).
Qed.
Lemma readc_stores ch X (c : ccmd X) w x w' : readc X c -> chandler ch X c w = Some (x, w') -> w_st w' = w_st w /\ w_ix w' = w_ix w.
Proof.
  destruct c as [Y c|Y c| | | | | |]; cbn [readc]; try contradiction; intros R E; cbn [chandler] in E.
  - destruct c; cbn [getc] in R; try contradiction. cbn [kv_fault_handler] in E. injection E as <- <-. split; reflexivity.
  - destruct c; cbn [getc] in R; try contradiction. cbn [kv_fault_handler] in E. injection E as <- <-. split; reflexivity.
  - destruct (w_locked w); [discriminate|]. injection E as <- <-. split; reflexivity.
Qed.
Lemma dreadc_stores X (c : dcmd X) w0 w x w' : dreadc X c -> dhandler X c w = Some (x, w') -> same_stores w0 w -> same_stores w0 w'.
Proof.
  intros R E (H1 & H2). destruct c as [Y i c|Y c|d| | | |i|u| | | |i|u]; cbn [dreadc] in R; try contradiction; cbn [dhandler] in E.
  - destruct (nth_error (d_heap w) i) as [d|] eqn:N; [|discriminate]. destruct (chandler (dc_chunk d) Y c (dc_world d)) as [[y cw]|] eqn:C; [|discriminate].
    injection E as <- <-. destruct (readc_stores _ _ _ _ _ _ R C) as [K1 K2]. split; [exact H1|]. cbn [set_heap d_heap].
    rewrite (map_upd kept i _ _ d N); [exact H2|]. unfold kept. cbn [dc_name dc_world]. now rewrite K1, K2.
  - repeat match type of E with context [match ?t with _ => _ end] => destruct t; try discriminate end; injection E as <- <-; split; assumption.
  - injection E as <- <-; split; assumption.
  - repeat match type of E with context [match ?t with _ => _ end] => destruct t; try discriminate end; injection E as <- <-; split; assumption.
  - injection E as <- <-; split; assumption.
Qed.
Lemma only_keeps {A} w0 (p : prog dcmd A) : only dreadc p -> forall w, same_stores w0 w -> keeps dhandler (same_stores w0) p w.
Proof.
  induction p as [a|X c k IH]; intros O w H; [now apply keeps_ret|]. destruct O as [O1 O2]. apply keeps_do; [assumption|].
  intros x w' E. apply IH; [apply O2|]. eapply dreadc_stores; eassumption.
Qed.
Lemma same_stopped cf w v : same_stores w v -> stopped cf v = stopped cf w.
Proof.
  intros (H1 & H2). unfold stopped, left_behind. rewrite H1. f_equal. apply map_ext. intros en.
  assert (F: option_map kept (find (fun d => name_eqb (dc_name d) (fst en)) (d_heap v)) = option_map kept (find (fun d => name_eqb (dc_name d) (fst en)) (d_heap w))).
  { clear H1. revert H2. generalize (d_heap w). induction (d_heap v) as [|a l IH]; intros [|b l'] E; try discriminate; [reflexivity|].
    cbn [map] in E. assert (Ea: kept a = kept b) by congruence. assert (El: map kept l = map kept l') by congruence.
    cbn [find]. assert (dc_name a = dc_name b) as -> by (unfold kept in Ea; congruence). destruct (name_eqb _ _); [cbn [option_map]; now rewrite Ea|now apply IH]. }
  revert F. destruct (find _ (d_heap v)) as [a|], (find _ (d_heap w)) as [b|]; cbn [option_map]; intros F; try discriminate; [|reflexivity].
  assert (kept a = kept b) as K by congruence. unfold kept in K. assert (w_st (dc_world a) = w_st (dc_world b)) as -> by congruence.
  assert (w_ix (dc_world a) = w_ix (dc_world b)) as -> by congruence. reflexivity.
Qed.
Theorem reading_crash cf sv z bs ch rq n w : rq_url rq = sv_read_path sv \/ rq_url rq <> sv_write_path sv ->
  stopped cf (snd (crash_at dhandler n (process sv z bs ch rq) w)) = stopped cf w.
Proof. intros H. apply same_stopped, only_keeps; [now apply process_only|split; reflexivity]. Qed.

(** ** write requests *)
Lemma run_crash {C W A} (h : handler C W) (p : prog C A) w a w' : run h p w = Some (a, w') -> exists n, w' = snd (crash_at h n p w).
Proof. intros E. eapply (keeps_end h (fun v => exists n, v = snd (crash_at h n p w))); [|exact E]. intros n. eauto. Qed.
Definition in_series (cf : config) (l : list pseries) (w v : dworld) : Prop :=
  exists l1 x l2 rs w' n, l = l1 ++ x :: l2 /\ db_after_from cf (batches l1) w = Some (rs, w') /\ v = snd (crash_at dhandler n (dop_prog cf (batch_of x)) w').
Lemma in_series_cons cf s l w r w2 v : drun (dop_prog cf (batch_of s)) w = Some (r, w2) -> in_series cf l w2 v -> in_series cf (s :: l) w v.
Proof.
  intros E (l1 & x & l2 & rs & w' & n & -> & H2 & H3). exists (s :: l1), x, l2, (r :: rs), w', n. split; [reflexivity|]. split; [|exact H3].
  cbn [batches map db_after_from]. rewrite E. change (map batch_of l1) with (batches l1). now rewrite H2.
Qed.
Lemma after_cons cf o ops w r w2 : drun (dop_prog cf o) w = Some (r, w2) ->
  db_after_from cf (o :: ops) w = match db_after_from cf ops w2 with Some (rs, w3) => Some (r :: rs, w3) | None => None end.
Proof. intros E. cbn [db_after_from]. now rewrite E. Qed.
Lemma write_series_keeps cf start l : l <> [] -> forall w w1, let ch := the_chunk cf start in
  db_after_from cf (batches (applied ch l)) w = Some (outcomes cf start (batches (applied ch l)), w1) ->
  keeps dhandler (in_series cf (applied ch l) w) (write_series l) w.
Proof.
  induction l as [|s l IH]; intros NE w w1 ch H; [congruence|]. cbn [write_series]. unfold qbind. rewrite <- (batch_of_wire cf).
  assert (A1: exists l2, applied ch (s :: l) = s :: l2) by (cbn [applied]; destruct (fails ch s); eauto). destruct A1 as (l2 & A1).
  assert (K0: forall n, in_series cf (applied ch (s :: l)) w (snd (crash_at dhandler n (dop_prog cf (batch_of s)) w))).
  { intros n. rewrite A1. exists [], s, l2, [], w, n. split; [reflexivity|]. split; reflexivity. }
  apply keeps_bind; [exact K0|]. intros r w2 E. destruct (run_crash _ _ _ _ _ E) as (n2 & En).
  assert (K2: in_series cf (applied ch (s :: l)) w w2) by (rewrite En; apply K0).
  destruct r as [u|er|]; [|now apply keeps_ret|now apply keeps_ret].
  destruct l as [|s' l]; [now apply keeps_ret|].
  assert (E': drun (dop_prog cf (batch_of s)) w = Some (Ok u, w2)) by exact E.
  assert (AC: applied ch (s :: s' :: l) = if fails ch s then [s] else s :: applied ch (s' :: l)) by reflexivity.
  rewrite AC in *. clear AC. destruct (fails ch s) eqn:F.
  - change (batches [s]) with [batch_of s] in H. rewrite (after_cons _ _ _ _ _ _ E') in H. cbn [db_after_from] in H. rewrite outcomes_batch in H. fold ch in H. rewrite F in H. exfalso. congruence.
  - change (batches (s :: applied ch (s' :: l))) with (batch_of s :: batches (applied ch (s' :: l))) in H.
    rewrite (after_cons _ _ _ _ _ _ E'), outcomes_batch in H.
    destruct (db_after_from cf (batches (applied ch (s' :: l))) w2) as [[rs w3]|] eqn:E2; [|discriminate].
    assert (rs = outcomes cf start (batches (applied ch (s' :: l)))) as -> by congruence.
    eapply keeps_impl; [|apply (IH ltac:(discriminate) w2 w3 E2)]. intros v. now apply (in_series_cons cf s _ w (Ok u) w2).
Qed.
Lemma process_write_keeps sv z bs ch rq m (P : dworld -> Prop) w : carries sv z rq (CWrite m) -> keeps dhandler P (write_series (wq_series m)) w ->
  keeps dhandler P (process sv z bs ch rq) w.
Proof.
  intros (c & body & E1 & E2 & B1 & B2 & H1 & H2 & fs & H3 & H4) K. unfold process. rewrite E1, E2.
  rewrite (bytes_eqb_neq (rq_url rq) (sv_read_path sv)) by assumption. rewrite H1, bytes_eqb_refl.
  pose proof (taken_write body fs m B1 B2 H3 H4) as R. destruct (merge_from write_request_read body write_request_new) as [m' ok]. cbn [fst] in R. subst m'.
  apply keeps_bind; [exact K|]. intros r w' E. apply keeps_ret. exact (keeps_end _ _ _ _ _ _ K E).
Qed.

Lemma batch_writes x : writes (stored_labels x) (batch_of x).
Proof. right. eexists. reflexivity. Qed.
Lemma parts_shape cf t ops : exists l0 c A, parts cf t ops = l0 ++ [(c, A)].
Proof. destruct (parts_from_snoc cf ops t []) as (l0 & c & h & E & _). eauto. Qed.
Lemma parts_batch cf t ops l0 c A x : parts cf t ops = l0 ++ [(c, A)] -> parts cf t (ops ++ [batch_of x]) = l0 ++ [(c, fold_left (ins c) (written [batch_of x]) A)].
Proof.
  intros E. pose proof (parts_done cf t ops l0 c A _ _ [OpBatch (stored_labels x) (firstn (length (map stored_point (ps_samples x))) (map stored_point (ps_samples x)))]
    E (batch_writes x) (Done_batch _ _ _)) as X. rewrite firstn_all in X. exact X.
Qed.
Lemma stored_batches cf t l : forall ops p, stored (parts cf t ops) p -> stored (parts cf t (ops ++ batches l)) p.
Proof.
  induction l as [|x l IH]; intros ops p H; [now rewrite app_nil_r|].
  change (batches (x :: l)) with ([batch_of x] ++ batches l). rewrite app_assoc. apply IH.
  destruct (parts_shape cf t ops) as (l0 & c & A & E). rewrite (parts_batch _ _ _ _ _ _ x E). rewrite E in H. eapply stored_grown; [apply grown_fold|exact H].
Qed.
(* what was done of a batch, as a series *)
Lemma done_batch cf t ops x done : done_of (batch_of x) done ->
  exists k, parts cf t (ops ++ done) = parts cf t (ops ++ batches [mkPSeries (ps_labels x) (firstn k (ps_samples x)) (ps_unk x)]).
Proof.
  intros D. destruct (parts_shape cf t ops) as (l0 & c & A & E). pose proof (parts_done cf t ops l0 c A _ _ done E (batch_writes x) D) as ->.
  assert (X: exists k, written done = written [OpBatch (stored_labels x) (map stored_point (firstn k (ps_samples x)))]).
  { inversion D as [op E1|ls p E1|ls pts k E1]; subst.
    - exists 0%nat. reflexivity.
    - exists k. now rewrite firstn_map. }
  destruct X as (k & X). exists k. rewrite X. symmetry. exact (parts_batch cf t ops l0 c A (mkPSeries (ps_labels x) (firstn k (ps_samples x)) (ps_unk x)) E).
Qed.
Lemma empty_batch cf t ops ls done : done_of (OpBatch ls []) done -> parts cf t (ops ++ done) = parts cf t ops.
Proof.
  intros D. destruct (parts_shape cf t ops) as (l0 & c & A & E).
  rewrite (parts_done cf t ops l0 c A ls (OpBatch ls []) done E); [|right; eauto|assumption]. rewrite E. inversion D as [op E1|ls' p E1|ls' pts k E1]; subst; [reflexivity|].
  rewrite firstn_nil. reflexivity.
Qed.

(* whatever holds wherever a write is cut holds wherever a request is cut *)
Section Cut.
  Variables (cf : config) (f : fworld) (ops : list dop).
  Hypotheses (He : env_ok f) (Hd : empty_dir f).
  Let t0 := f_clock f (f_ticks f).
  Variable G : list dop -> dworld -> Prop.
  Hypothesis G_ext : forall a b v, parts cf t0 a = parts cf t0 b -> G a v -> G b v.
  Lemma request_cut sv z bs ch rq m n : carries sv z rq (CWrite m) ->
    let S := applied (current_window cf t0 ops) (wq_series m) in
    ops_ok cf t0 (ops ++ batches S) ->
    (forall w, db_after cf f ops = Some (outcomes cf t0 ops, w) -> G ops w) ->
    (forall l1 x l2 n, S = l1 ++ x :: l2 -> exists done rs w, done_of (batch_of x) done /\ db_after cf f (ops ++ batches l1) = Some (rs, w) /\
       G ((ops ++ batches l1) ++ done) (snd (crash_at dhandler n (dop_prog cf (batch_of x)) w))) ->
    exists part w, some_of part S /\ db_after cf f ops = Some (outcomes cf t0 ops, w) /\
      G (ops ++ batches part) (snd (crash_at dhandler n (process sv z bs ch rq) w)).
  Proof.
    intros Hc S Ho G0 G1.
    destruct (after_split cf f ops _ t0 He Hd eq_refl Ho) as (w & w1 & E1 & E2 & E3).
    assert (D: wq_series m = [] \/ wq_series m <> []) by (destruct (wq_series m); [now left|right; discriminate]).
    destruct D as [D|D].
    - exists [], w. split; [left; split; [unfold S; rewrite D; reflexivity|reflexivity]|]. split; [assumption|].
      rewrite app_nil_r. assert (K: keeps dhandler (fun v => v = w) (process sv z bs ch rq) w).
      { eapply process_write_keeps; [exact Hc|]. rewrite D. now apply keeps_ret. }
      rewrite (K n). now apply G0.
    - pose proof (write_series_keeps cf (last_start t0 ops) (wq_series m) D w w1 E2) as K.
      pose proof (process_write_keeps sv z bs ch rq m _ w Hc K n) as (l1 & x & l2 & rs & w' & n' & F1 & F2 & F3).
      change (applied (the_chunk cf (last_start t0 ops)) (wq_series m)) with S in F1.
      destruct (G1 l1 x l2 n' F1) as (done & rs1 & w2 & J1 & J2 & J3).
      assert (w2 = w') as ->.
      { unfold db_after in *. destruct (db_open cf f) as [[[[]|er|] w0]|]; try discriminate. rewrite (after_app _ _ _ _ _ _ E1), F2 in J2. congruence. }
      destruct (done_batch cf t0 (ops ++ batches l1) x done J1) as (k & Ek).
      exists (l1 ++ [mkPSeries (ps_labels x) (firstn k (ps_samples x)) (ps_unk x)]), w. split; [right; exists l1, x, l2, k; auto|]. split; [assumption|].
      rewrite F3. eapply G_ext; [|exact J3]. rewrite Ek. unfold batches. now rewrite map_app, app_assoc.
  Qed.
End Cut.

Section Request.
  Variables (cf : config) (f : fworld) (ops : list dop) (sv : server) (z : snappy) (bs0 : bsearch) (ch : choices) (rq : request) (m : write_request) (n : nat).
  Hypotheses (He : open_env cf f) (Hd : empty_dir f) (Hm : monotone (f_clock f)) (S1 : cf_st cf = Sled) (S2 : cf_ix cf = Sled).
  Let t0 := f_clock f (f_ticks f).
  Let S := applied (current_window cf t0 ops) (wq_series m).
  Hypotheses (Hc : carries sv z rq (CWrite m)) (Ho : ops_ok cf t0 (ops ++ batches S)) (T : timely (written (ops ++ batches S)))
    (Hclk : forall i, (f_ticks f < i)%nat -> last_start t0 ops < f_clock f i)
    (Hpts : forall p, stored (parts cf t0 (ops ++ batches S)) p -> tp_ts p <= f_clock f (Datatypes.S (f_ticks f))).

  Lemma empty_ok : ops_ok cf t0 (ops ++ [OpBatch [] []]) /\ timely (written (ops ++ [OpBatch [] []])) /\ parts cf t0 (ops ++ [OpBatch [] []]) = parts cf t0 ops.
  Proof.
    pose proof (ops_ok_prefix _ _ _ _ Ho) as (Q1 & Q2 & Q3 & Q4 & Q5 & Q6 & Q7).
    assert (W: written (ops ++ [OpBatch [] []]) = written ops) by (rewrite written_app; apply app_nil_r).
    split; [|split].
    - unfold ops_ok. rewrite W. repeat (split; [assumption|]). split; [|split; assumption]. apply (starts_writes cf []); [right; eauto|assumption].
    - rewrite W. rewrite written_app in T. exact (timely_prefix _ _ T).
    - apply (empty_batch cf t0 ops [] [OpBatch [] []]). apply (Done_batch [] [] 0).
  Qed.
  Lemma at_series l1 x l2 : S = l1 ++ x :: l2 ->
    ops_ok cf t0 ((ops ++ batches l1) ++ [batch_of x]) /\ timely (written ((ops ++ batches l1) ++ [batch_of x])) /\
    (forall i, (f_ticks f < i)%nat -> last_start t0 (ops ++ batches l1) < f_clock f i) /\
    (forall p, stored (parts cf t0 ((ops ++ batches l1) ++ [batch_of x])) p -> tp_ts p <= f_clock f (Datatypes.S (f_ticks f))).
  Proof.
    intros E. assert (EQ: ops ++ batches S = ((ops ++ batches l1) ++ [batch_of x]) ++ batches l2) by (rewrite E; unfold batches; rewrite map_app; cbn [map]; now rewrite <- !app_assoc).
    rewrite EQ in *. split; [exact (ops_ok_prefix _ _ _ _ Ho)|]. split; [rewrite written_app in T; exact (timely_prefix _ _ T)|].
    split; [intros i Hi; rewrite ServerProofs.last_start_app, last_start_batches; now apply Hclk|].
    intros p Hp. apply Hpts. now apply stored_batches.
  Qed.

  Theorem request_crash_any : exists part w, some_of part S /\ db_after cf f ops = Some (outcomes cf t0 ops, w) /\
    forall hs bs o q s e, hasher_ok hs -> bs_contract bs -> Forall lab_ok q -> s <= e -> apart_in hs (parts cf t0 (ops ++ batches part)) ->
    exists w' r', db_open cf (stopped cf (snd (crash_at dhandler n (process sv z bs0 ch rq) w))) = Some (Ok tt, w') /\
      drun (db_query hs bs o q s e) w' = Some (Ok r', w') /\ answer_short (parts cf t0 (ops ++ batches part)) q s e r'.
  Proof.
    pose proof He as (Henv & _).
    apply (request_cut cf f ops Henv Hd (fun ops' v => forall hs bs o q s e, hasher_ok hs -> bs_contract bs -> Forall lab_ok q -> s <= e -> apart_in hs (parts cf t0 ops') ->
      exists w' r', db_open cf (stopped cf v) = Some (Ok tt, w') /\ drun (db_query hs bs o q s e) w' = Some (Ok r', w') /\ answer_short (parts cf t0 ops') q s e r')) with (m := m); try assumption.
    - fold t0. intros a b v E H. now rewrite <- E.
    - intros w E. destruct empty_ok as (O1 & O2 & O3).
      destruct (write_crash_any cf f ops (OpBatch [] []) [] 0 He Hd Hm S1 S2 O1 O2 ltac:(right; eauto) Hclk) as (done & rs & w0 & D & E' & H).
      { intros p Hp. fold t0 in Hp. rewrite O3 in Hp. apply Hpts. now apply stored_batches. }
      assert (w0 = w) as -> by congruence. fold t0 in H. rewrite (empty_batch cf t0 ops [] done D) in H. exact H.
    - intros l1 x l2 n' E. destruct (at_series l1 x l2 E) as (O1 & O2 & O3 & O4).
      exact (write_crash_any cf f (ops ++ batches l1) (batch_of x) _ n' He Hd Hm S1 S2 O1 O2 (batch_writes x) O3 O4).
  Qed.

  Lemma has_series_batches l ls : forall a, has_series cf t0 a ls -> has_series cf t0 (a ++ batches l) ls.
  Proof.
    induction l as [|x l IH]; intros a H; [now rewrite app_nil_r|].
    change (batches (x :: l)) with ([batch_of x] ++ batches l). rewrite app_assoc. apply IH.
    destruct H as (l0 & c & A & y & E & Hy & Hp). pose proof (parts_batch _ _ _ _ _ _ x E) as E2.
    apply In_nth_error in Hy as (i & Hi). destruct y as [yl yp]. destruct (grown_fold c (written [batch_of x]) A i yl yp Hi) as (pts' & Hn & _).
    exists l0, c, (fold_left (ins c) (written [batch_of x]) A), (yl, pts'). split; [exact E2|]. split; [eapply nth_error_In; exact Hn|exact Hp].
  Qed.

  Theorem request_crash_known : has_all cf t0 ops S -> exists part w, some_of part S /\ db_after cf f ops = Some (outcomes cf t0 ops, w) /\
    forall hs bs o q s e, hasher_ok hs -> bs_contract bs -> Forall lab_ok q -> unmixed hs (parts cf t0 (ops ++ batches part)) q s e ->
    exists w' r', db_open cf (stopped cf (snd (crash_at dhandler n (process sv z bs0 ch rq) w))) = Some (Ok tt, w') /\
      drun (db_query hs bs o q s e) w' = Some (r', w') /\ comes_to (parts cf t0 (ops ++ batches part)) q s e r'.
  Proof.
    intros HA. pose proof He as (Henv & _).
    apply (request_cut cf f ops Henv Hd (fun ops' v => forall hs bs o q s e, hasher_ok hs -> bs_contract bs -> Forall lab_ok q -> unmixed hs (parts cf t0 ops') q s e ->
      exists w' r', db_open cf (stopped cf v) = Some (Ok tt, w') /\ drun (db_query hs bs o q s e) w' = Some (r', w') /\ comes_to (parts cf t0 ops') q s e r')) with (m := m); try assumption.
    - fold t0. intros a b v E H. now rewrite <- E.
    - intros w E hs bs o q s e Hh Hb Hq Hu. destruct empty_ok as (O1 & O2 & O3).
      destruct (write_crash_keeps_comes cf f ops (OpBatch [] []) [] 0 hs bs o q s e He Hd Hm S1 S2 O1) as (rs & w0 & r & w' & r' & E' & _ & X1 & X2 & _ & X3); try assumption.
      { rewrite written_app in T. exact (timely_prefix _ _ T). }
      { right; eauto. }
      { intros p Hp. apply Hpts. now apply stored_batches. }
      { intros (l & _ & []). }
      assert (w0 = w) as -> by congruence. exists w', r'. split; [exact X1|]. split; [exact X2|exact X3].
    - intros l1 x l2 n' E. change (S = l1 ++ x :: l2) in E. destruct (at_series l1 x l2 E) as (O1 & O2 & O3 & O4).
      assert (HS: has_series cf t0 (ops ++ batches l1) (stored_labels x)) by (apply has_series_batches, HA; rewrite E; apply in_or_app; right; now left).
      destruct (write_crash_known_comes cf f (ops ++ batches l1) (batch_of x) _ n' He Hd Hm S1 S2 O1 O2 (batch_writes x) HS O3 O4) as (done & rs & w & rs1 & w1 & D & E1 & E2 & H).
      exists done, rs, w. split; [exact D|]. split; [exact E1|]. intros hs bs o q s e Hh Hb Hq Hu.
      destruct (H hs bs o q s e Hh Hb Hq Hu) as (r & w' & r' & _ & X1 & X2 & _ & X3). exists w', r'. auto.
  Qed.

  Lemma piece_matching c A B q s e k : part_ok (c, A) -> part_ok (c, B) -> s <= e -> matching B q = matching A q -> piece (c, B) q s e k = piece (c, A) q s e k.
  Proof.
    intros PA PB Hse E. destruct (okl_spec _ q s e PA Hse) as (_ & _ & _ & H1). destruct (okl_spec _ q s e PB Hse) as (_ & _ & _ & H2).
    rewrite <- H1, <- H2. cbn [fst snd]. unfold query_spec. now rewrite E.
  Qed.
  Lemma matching_fold c q h : forall A, wfc A -> Forall (fun r => set_ok (fst r) /\ tp_ok (snd r)) h -> Forall (fun r => ~ shares q (fst r)) h -> matching (fold_left (ins c) h A) q = matching A q.
  Proof.
    induction h as [|r h IH]; intros A W H1 H2; [reflexivity|]. inversion_clear H1 as [|? ? [a b] H]. inversion_clear H2. cbn [fold_left].
    assert (K: matching (ins c A r) q = matching A q /\ wfc (ins c A r)).
    { unfold ins. destruct r as [ls p]. cbn [fst snd] in *. match goal with |- context [if ?b then _ else _] => destruct b end; [split; [now apply add_point_other|now apply wf_add]|auto]. }
    destruct K as [K1 K2]. rewrite IH by assumption. exact K1.
  Qed.
  Lemma piece_batches q s e l : s <= e -> (forall x, In x l -> ~ shares q (stored_labels x)) -> forall a, ops_ok cf t0 (a ++ batches l) -> timely (written (a ++ batches l)) ->
    exists l0 c A B, parts cf t0 a = l0 ++ [(c, A)] /\ parts cf t0 (a ++ batches l) = l0 ++ [(c, B)] /\ forall k, piece (c, B) q s e k = piece (c, A) q s e k.
  Proof.
    intros Hse. induction l as [|x l IH]; intros Hn a HO HT.
    - destruct (parts_shape cf t0 a) as (l0 & c & A & E). exists l0, c, A, A. rewrite app_nil_r. auto.
    - change (batches (x :: l)) with ([batch_of x] ++ batches l) in *. rewrite app_assoc in *.
      destruct (IH ltac:(intros y Hy; apply Hn; now right) _ HO HT) as (l0 & c & A & B & E1 & E2 & E3).
      destruct (parts_shape cf t0 a) as (l0' & c' & A' & E'). pose proof (parts_batch _ _ _ _ _ _ x E') as E4. rewrite E1 in E4. apply app_inj_tail in E4 as [-> E4].
      assert (c = c') as -> by congruence. assert (A = fold_left (ins c') (written [batch_of x]) A') as -> by congruence. clear E4.
      exists l0', c', A', B. split; [exact E'|]. split; [exact E2|]. intros k. rewrite E3.
      pose proof (ops_ok_prefix _ _ _ _ HO) as HO1. rewrite written_app in HT. pose proof (timely_prefix _ _ HT) as HT1.
      pose proof (parts_ok cf t0 _ HO1 HT1) as P1. rewrite E1 in P1. apply Forall_app in P1 as [_ P1]. inversion_clear P1 as [|? ? P1' _].
      pose proof (ops_ok_prefix _ _ _ _ HO1) as HO2. rewrite written_app in HT1. pose proof (timely_prefix _ _ HT1) as HT2.
      pose proof (parts_ok cf t0 _ HO2 HT2) as P2. rewrite E' in P2. apply Forall_app in P2 as [_ P2]. inversion_clear P2 as [|? ? P2' _].
      apply piece_matching; try assumption. apply matching_fold; [apply P2'| |].
      + destruct HO1 as (_ & _ & _ & _ & _ & Q6 & _). rewrite written_app in Q6. apply Forall_app in Q6 as [_ Q6]. exact Q6.
      + apply Forall_forall. intros r Hr. unfold batch_of in Hr. cbn [written] in Hr. rewrite ?app_nil_r in Hr. apply in_map_iff in Hr as (p & <- & _). cbn [fst]. apply Hn. now left.
  Qed.

  Theorem request_crash_others : exists w, db_after cf f ops = Some (outcomes cf t0 ops, w) /\
    forall hs bs o q s e, hasher_ok hs -> bs_contract bs -> Forall lab_ok q -> s <= e -> unmixed hs (parts cf t0 ops) q s e ->
    (forall x, In x S -> ~ shares q (stored_labels x)) ->
    exists w' r', db_open cf (stopped cf (snd (crash_at dhandler n (process sv z bs0 ch rq) w))) = Some (Ok tt, w') /\
      drun (db_query hs bs o q s e) w' = Some (Ok r', w') /\ db_answer (parts cf t0 ops) q s e r'.
  Proof.
    pose proof He as (Henv & _).
    pose (G := fun (ops' : list dop) v => forall hs bs o q s e, hasher_ok hs -> bs_contract bs -> Forall lab_ok q -> s <= e -> unmixed hs (parts cf t0 ops) q s e ->
      (forall x, In x S -> ~ shares q (stored_labels x)) ->
      exists w' r', db_open cf (stopped cf v) = Some (Ok tt, w') /\ drun (db_query hs bs o q s e) w' = Some (Ok r', w') /\ db_answer (parts cf t0 ops) q s e r').
    assert (X: exists part w, some_of part S /\ db_after cf f ops = Some (outcomes cf t0 ops, w) /\
      G (ops ++ batches part) (snd (crash_at dhandler n (process sv z bs0 ch rq) w))).
    { apply (request_cut cf f ops Henv Hd G) with (m := m); try assumption.
      - auto.
      - intros w E hs bs o q s e Hh Hb Hq Hse Hu _. destruct empty_ok as (O1 & O2 & O3).
        destruct (write_crash_keeps_comes cf f ops (OpBatch [] []) [] 0 hs bs o q s e He Hd Hm S1 S2 O1) as (rs & w0 & r & w' & r' & E' & _ & X1 & X2 & _ & X3); try assumption.
        { rewrite written_app in T. exact (timely_prefix _ _ T). }
        { right; eauto. }
        { intros p Hp. apply Hpts. now apply stored_batches. }
        { intros (l & _ & []). }
        assert (w0 = w) as -> by congruence. destruct (comes_fwd _ _ _ _ _ Hse X3) as (a & -> & Ha). exists w', a. split; [exact X1|]. split; [exact X2|exact Ha].
      - intros l1 x l2 n' E. change (S = l1 ++ x :: l2) in E. destruct (at_series l1 x l2 E) as (O1 & O2 & O3 & O4).
        pose proof (ops_ok_prefix _ _ _ _ O1) as Oa. pose proof O2 as Ta. rewrite written_app in Ta. apply timely_prefix in Ta.
        destruct (after_split cf f ops _ t0 Henv Hd eq_refl Oa) as (wa & wb & Ea & Eb & _).
        assert (DA: db_after cf f (ops ++ batches l1) = Some (outcomes cf t0 ops ++ outcomes cf (last_start t0 ops) (batches l1), wb)).
        { unfold db_after in *. destruct (db_open cf f) as [[[[]|er|] w0]|]; try discriminate. rewrite (after_app _ _ _ _ _ _ Ea), Eb. reflexivity. }
        exists [], (outcomes cf t0 ops ++ outcomes cf (last_start t0 ops) (batches l1)), wb. split; [apply Done_none|]. split; [exact DA|].
        intros hs bs o q s e Hh Hb Hq Hse Hu Hns.
        destruct (piece_batches q s e l1 Hse ltac:(intros y Hy; apply Hns; rewrite E; apply in_or_app; now left) ops Oa Ta) as (l0 & c & A & B & F1 & F2 & F3).
        destruct (write_crash_keeps_comes cf f (ops ++ batches l1) (batch_of x) (stored_labels x) n' hs bs o q s e He Hd Hm S1 S2 O1) as (rs & w0 & r & w' & r' & E' & _ & X1 & X2 & _ & X3); try assumption.
        { apply batch_writes. }
        { intros p Hp. apply O4. change [batch_of x] with (batches [x]). now apply stored_batches. }
        { fold t0. assert (I: forall k, (exists c1, In c1 (parts cf t0 (ops ++ batches l1)) /\ piece c1 q s e k <> []) -> exists c1, In c1 (parts cf t0 ops) /\ piece c1 q s e k <> []).
          { intros k (c1 & I1 & N1). rewrite F2 in I1. rewrite F1. apply in_app_iff in I1 as [I1|[<-|[]]]; [exists c1; split; [apply in_or_app; now left|exact N1]|].
            rewrite F3 in N1. exists (c, A). split; [apply in_or_app; right; now left|exact N1]. }
          intros ks k i k' x' U1 U2. apply (Hu ks k i k' x'); [now apply I|]. intros a Ha. apply I. now apply U2. }
        { apply Hns. rewrite E. apply in_or_app. right. now left. }
        assert (w0 = wb) as -> by congruence. destruct (comes_fwd _ _ _ _ _ Hse X3) as (a & -> & (Y1 & Y2)). exists w', a. split; [exact X1|]. split; [exact X2|].
        split; [exact Y1|]. intros k pts. rewrite (Y2 k pts). fold t0. rewrite F1, F2, !map_app, !concat_app. cbn [map concat]. now rewrite F3. }
    destruct X as (part & w & _ & X1 & X2). exists w. auto.
  Qed.
End Request.
