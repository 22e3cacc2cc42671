(* Proofs about the server. *)
From Coq Require Import ZifyBool ZifyNat Permutation.
From Verif Require Import WireSpec WireMsgs WireWrong.
From Verif Require Import Rust Prog Gorilla GorillaSpec Storage StorageSpec StringProofs StorageProofs Labels Indexer IndexSpec LabelProofs IndexProofs
  Chunk ChunkSpec ChunkProofs ChunkFacts Utils DirSpec TiKvInit Db DbSpec DbProofs DbHist DbFacts
  Proto ProtoSpec ProtoProofs ProtoRound ProtoCut Server ServerSpec.

(* ------------------------------------------------------------------ *)
(** * Conversions *)

Lemma sample_round_trip x : i64 (sm_ts x) -> sm_unk x = [] -> wire_sample (point_of_wire x) = x.
Proof.
  unfold i64. destruct x as [v t u]. cbn [sm_ts sm_unk]. intros Ht ->. unfold wire_sample, point_of_wire. cbn [tp_ts tp_val sm_ts sm_value]. f_equal.
  unfold wraps, wrapu. cbv zeta. rewrite Z.mod_mod by lia. destruct (Z.leb_spec 0 t).
  - rewrite Z.mod_small by lia. replace (t <? 2 ^ (64 - 1)) with true by lia. reflexivity.
  - replace (t mod 2 ^ 64) with (t + 2 ^ 64).
    + replace (t + 2 ^ 64 <? 2 ^ (64 - 1)) with false by lia. lia.
    + symmetry. replace t with (t + 2 ^ 64 + (-1) * 2 ^ 64) at 1 by lia. rewrite Z_mod_plus_full. apply Z.mod_small. lia.
Qed.
Lemma point_round_trip p : u64 (tp_ts p) -> point_of_wire (wire_sample p) = p.
Proof.
  unfold u64. destruct p as [t v]. cbn [tp_ts]. intros H. unfold wire_sample, point_of_wire. cbn [tp_ts tp_val sm_ts sm_value]. f_equal.
  unfold wraps, wrapu. cbv zeta. rewrite (Z.mod_small t) by lia. destruct (Z.ltb_spec t (2 ^ (64 - 1))).
  - apply Z.mod_small. lia.
  - replace (t - 2 ^ 64) with (t + (-1) * 2 ^ 64) by lia. rewrite Z_mod_plus_full. apply Z.mod_small. lia.
Qed.
Lemma sent_point_ok p : u64 (tp_ts p) -> wire_sample p = sent_point p.
Proof.
  unfold u64. intros H. unfold wire_sample, sent_point, wraps. cbv zeta. f_equal. rewrite Z.mod_small by lia.
  change (2 ^ (64 - 1)) with (2 ^ 63). reflexivity.
Qed.
Lemma negative_point x : i64 (sm_ts x) -> sm_ts x < 0 -> 2 ^ 63 <= tp_ts (point_of_wire x) < 2 ^ 64.
Proof.
  unfold i64. intros Ht Hn. unfold point_of_wire, wrapu. cbn [tp_ts].
  replace (sm_ts x mod 2 ^ 64) with (sm_ts x + 2 ^ 64); [lia|].
  symmetry. replace (sm_ts x) with (sm_ts x + 2 ^ 64 + (-1) * 2 ^ 64) at 1 by lia. rewrite Z_mod_plus_full. apply Z.mod_small. lia.
Qed.
Lemma point_of_wire_ok x : sample_ok x -> tp_ok (point_of_wire x).
Proof. intros (Hv & _ & _). split; [apply Z.mod_pos_bound; lia|exact Hv]. Qed.

(* ------------------------------------------------------------------ *)
(** * Writing *)

Lemma batch_of_wire cf s : dop_prog cf (batch_of s) = db_write_points (fst (series_of_wire s)) (snd (series_of_wire s)).
Proof. reflexivity. Qed.

Lemma outcomes_batch cf start s ops :
  outcomes cf start (batch_of s :: ops) = (if fails (the_chunk cf start) s then Err InternalErr else Ok tt) :: outcomes cf start ops.
Proof. reflexivity. Qed.

Lemma outcomes_app cf a b : forall t, outcomes cf t (a ++ b) = outcomes cf t a ++ outcomes cf (last_start t a) b.
Proof. induction a as [|o a IH]; intros t; [reflexivity|]. cbn [app outcomes]. rewrite IH. destruct o; reflexivity. Qed.
Lemma outcomes_length cf a : forall t, length (outcomes cf t a) = length a.
Proof. induction a as [|o a IH]; intros t; [reflexivity|]. cbn [outcomes List.length]. now rewrite IH. Qed.
Lemma starts_app cf a b : forall t, starts_ok cf t (a ++ b) <-> starts_ok cf t a /\ starts_ok cf (last_start t a) b.
Proof.
  induction a as [|o a IH]; intros t; cbn [app starts_ok last_start]; [tauto|].
  destruct o; try apply IH. rewrite IH. tauto.
Qed.
Lemma written_app a b : written (a ++ b) = written a ++ written b.
Proof. induction a as [|o a IH]; [reflexivity|]. cbn [app written]. destruct o; rewrite IH; try reflexivity. apply app_assoc. Qed.
Lemma ops_ok_prefix cf t a b : ops_ok cf t (a ++ b) -> ops_ok cf t a.
Proof.
  intros (H1 & H2 & H3 & H4 & H5 & H6 & H7). rewrite written_app in *. apply starts_app in H5 as [H5 _].
  apply Forall_app in H6 as [H6 _]. rewrite app_length in H7. repeat (split; [assumption|]). lia.
Qed.
Lemma timely_prefix a b : timely (a ++ b) -> timely a.
Proof. intros H. change (a ++ b) with ([] ++ a ++ b) in H. exact (timely_mid [] a b H). Qed.
Lemma last_start_batches l : forall t, last_start t (batches l) = t.
Proof. induction l as [|s l IH]; intros t; [reflexivity|apply IH]. Qed.
Lemma last_start_app a b : forall t, last_start t (a ++ b) = last_start (last_start t a) b.
Proof. induction a as [|o a IH]; intros t; [reflexivity|]. cbn [app last_start]. destruct o; apply IH. Qed.
Lemma applied_prefix ch l : exists l', l = applied ch l ++ l'.
Proof.
  induction l as [|s l [l' IH]]; [exists []; reflexivity|]. cbn [applied]. destruct (fails ch s).
  - exists l. reflexivity.
  - exists l'. cbn [app]. congruence.
Qed.
Lemma after_split cf f ops1 ops2 t : env_ok f -> empty_dir f -> t = f_clock f (f_ticks f) -> ops_ok cf t (ops1 ++ ops2) ->
  exists w w', db_after cf f ops1 = Some (outcomes cf t ops1, w) /\
    db_after_from cf ops2 w = Some (outcomes cf (last_start t ops1) ops2, w') /\
    db_after cf f (ops1 ++ ops2) = Some (outcomes cf t (ops1 ++ ops2), w').
Proof.
  intros He Hd -> Ho. destruct (history cf f _ He Hd Ho) as (w' & E & _).
  destruct (history cf f _ He Hd (ops_ok_prefix _ _ _ _ Ho)) as (w & E1 & _). exists w.
  unfold db_after in *. destruct (db_open cf f) as [[[[]|e|] w0]|]; try discriminate.
  rewrite (after_app _ _ _ _ _ _ E1), outcomes_app in E.
  destruct (db_after_from cf ops2 w) as [[rs2 w2]|] eqn:E2; [|discriminate].
  assert (R: outcomes cf (f_clock f (f_ticks f)) ops1 ++ rs2 =
             outcomes cf (f_clock f (f_ticks f)) ops1 ++ outcomes cf (last_start (f_clock f (f_ticks f)) ops1) ops2) by congruence.
  apply app_inv_head in R. exists w2. split; [assumption|]. split; [congruence|].
  rewrite (after_app _ _ _ _ _ _ E1), E2, outcomes_app, R. reflexivity.
Qed.

Lemma write_series_run cf start ops l : forall w w1,
  db_after_from cf (batches (applied (the_chunk cf start) l) ++ ops) w =
    Some (outcomes cf start (batches (applied (the_chunk cf start) l) ++ ops), w1) ->
  let ch := the_chunk cf start in
  exists w', drun (write_series l) w = Some (if existsb (fails ch) l then Err InternalErr else Ok tt, w') /\
    db_after_from cf (batches (applied ch l)) w = Some (outcomes cf start (batches (applied ch l)), w').
Proof.
  intros w w1 H ch. fold ch in H. revert w w1 H. induction l as [|s l IH]; intros w w1 H.
  - exists w. split; reflexivity.
  - cbn [applied existsb write_series] in *. unfold drun in *.
    destruct (fails ch s) eqn:F; cbn [orb batches map app db_after_from] in *; unfold drun in *; rewrite batch_of_wire in *; rewrite run_qbind;
      destruct (run dhandler (db_write_points (fst (series_of_wire s)) (snd (series_of_wire s))) w) as [[r w2]|] eqn:E; try discriminate.
    + rewrite outcomes_batch in *. fold ch in H |- *. rewrite F in *.
      destruct (db_after_from cf ops w2) as [[rs w3]|] eqn:E2; [|discriminate].
      assert (r = Err InternalErr) as -> by congruence. exists w2. split; reflexivity.
    + change (map batch_of (applied ch l)) with (batches (applied ch l)) in *. rewrite outcomes_batch in *. fold ch in H |- *. rewrite F in *.
      destruct (db_after_from cf (batches (applied ch l) ++ ops) w2) as [[rs w3]|] eqn:E2; [|discriminate].
      assert (r = Ok tt) as -> by congruence. assert (rs = outcomes cf start (batches (applied ch l) ++ ops)) as -> by congruence.
      destruct (IH _ _ E2) as (w' & R1 & R2). exists w'. split; [exact R1|]. rewrite R2. reflexivity.
Qed.
Theorem write_applied cf f ops l : env_ok f -> empty_dir f -> let t0 := f_clock f (f_ticks f) in
  let ch := current_window cf t0 ops in
  let ops' := ops ++ batches (applied ch l) in
  ops_ok cf t0 ops' ->
  exists w w', db_after cf f ops = Some (outcomes cf t0 ops, w) /\
    drun (write_series l) w = Some (if existsb (fails ch) l then Err InternalErr else Ok tt, w') /\
    db_after cf f ops' = Some (outcomes cf t0 ops', w').
Proof.
  intros He Hd t0 ch ops' Ho. destruct (after_split cf f ops _ t0 He Hd eq_refl Ho) as (w & w1 & E1 & E2 & E3).
  destruct (write_series_run cf (last_start t0 ops) [] l w w1) as (w' & R1 & R2).
  { rewrite app_nil_r. exact E2. }
  exists w, w'. split; [assumption|]. split; [exact R1|].
  unfold ops', db_after in *. destruct (db_open cf f) as [[[[]|e|] w0]|]; try discriminate.
  rewrite (after_app _ _ _ _ _ _ E1). unfold ch, current_window. rewrite R2, outcomes_app. reflexivity.
Qed.

(* ------------------------------------------------------------------ *)
(** * Reading *)

Lemma answer_written cf t ops q s e r : ops_ok cf t ops -> db_answer (parts cf t ops) q s e r ->
  forall m pts p, In (m, pts) r -> In p pts -> exists ls, In (ls, p) (written ops) /\ same_set ls m.
Proof.
  intros Ho Ha m pts p Hin Hip.
  apply Ha in Hin as [_ ->]. apply in_concat in Hip as (x & Hx & Hip). apply in_map_iff in Hx as (c & <- & Hc).
  apply piece_in in Hip as (ls & pts & H1 & H2 & H3 & H4 & H5 & _).
  destruct (parts_seg cf ops t [] c Hc) as (a & seg & b & E & Ec & _). cbn [app] in E.
  assert (Hs: Forall ireq_ok seg) by (eapply seg_ok; [exact E|apply Ho]).
  pose proof H1 as H1'. rewrite Ec in H1'. destruct (content_sound _ _ Hs _ _ H1') as [Hls Hsound].
  destruct (Hsound p H4) as (ls' & K1 & K2 & K3).
  assert (SM: same_set ls m) by (subst m; apply sort_perm).
  exists ls'. split; [rewrite E; apply in_or_app; right; apply in_or_app; now left|]. eapply perm_trans; [exact K2|exact SM].
Qed.
Lemma sent_series_ok a : (forall m pts p, In (m, pts) a -> In p pts -> u64 (tp_ts p)) -> map wire_series a = map sent_series a.
Proof.
  intros H. apply map_ext_in. intros [m pts] Hin. unfold wire_series, sent_series. cbn [fst snd]. f_equal.
  apply map_ext_in. intros p Hp. apply sent_point_ok. exact (H m pts p Hin Hp).
Qed.

Lemma query_results_run cf w bs (ch : choices) l qs : state cf w l -> Forall part_ok l -> bs_contract bs -> (forall n, hasher_ok (fst (ch n))) ->
  Forall (query_ok ch l) qs ->
  (forall q s e r, db_answer l q s e r -> forall m pts p, In (m, pts) r -> In p pts -> u64 (tp_ts p)) ->
  forall n, exists rs, drun (query_results bs ch n qs) w = Some (Ok rs, w) /\ results_for l qs rs.
Proof.
  intros HS Hl Hb Hh Hq Hu. induction qs as [|q qs IH]; intros n.
  - exists []. split; [reflexivity|constructor].
  - apply Forall_cons_iff in Hq as [(Q1 & Q2 & Q3) Hq]. destruct (IH Hq (S n)) as (rs & R1 & R2).
    destruct (query_answer (fst (ch n)) bs (snd (ch n)) _ _ _ w l (state_quiet _ _ _ HS) Hl (Hh n) Hb Q1 Q2 (Q3 n)) as (a & A1 & A2).
    exists (mkQResult (map wire_series a) [] :: rs). split.
    + unfold drun in *. cbn [query_results]. rewrite run_bind.
      change (map from_label_matcher (pq_matchers q)) with (asked_labels q).
      change (wrapu 64 (pq_start q)) with (asked_from q). change (wrapu 64 (pq_end q)) with (asked_to q).
      rewrite A1. cbn match. rewrite run_qbind, R1. reflexivity.
    + constructor; [|exact R2]. exists a. split; [exact A2|]. cbn [qr_series qr_unk]. split; [|reflexivity].
      apply sent_series_ok. exact (Hu _ _ _ _ A2).
Qed.
Theorem read_answered cf f bs ch ops m : env_ok f -> empty_dir f -> let t0 := f_clock f (f_ticks f) in
  ops_ok cf t0 ops -> timely (written ops) -> bs_contract bs -> (forall n, hasher_ok (fst (ch n))) ->
  Forall (query_ok ch (parts cf t0 ops)) (rq_queries m) ->
  exists w rs, db_after cf f ops = Some (outcomes cf t0 ops, w) /\
    drun (server_query bs ch m) w = Some (Ok rs, w) /\ results_for (parts cf t0 ops) (rq_queries m) (rp_results rs) /\ rp_unk rs = [].
Proof.
  intros He Hd t0 Ho T Hb Hh Hq. destruct (history cf f ops He Hd Ho) as (w & E & HS). fold t0 in E, HS.
  destruct (query_results_run cf w bs ch _ (rq_queries m) HS (parts_ok cf t0 ops Ho T) Hb Hh Hq) with (n := 0%nat) as (rs & R1 & R2).
  - intros q s e r Ha mm pts p H1 H2. destruct (answer_written _ _ _ _ _ _ _ Ho Ha _ _ _ H1 H2) as (ls & H3 & _).
    destruct Ho as (_ & _ & _ & _ & _ & Hw & _). rewrite Forall_forall in Hw. apply (Hw _ H3).
  - exists w, (mkReadResp rs []). split; [exact E|]. split; [|split; [exact R2|reflexivity]].
    unfold drun, server_query in *. rewrite run_qbind, R1. reflexivity.
Qed.

(* what is sent can be received *)
Definition texts (ops : list dop) : Prop := Forall (fun r => Forall (fun lb => text (l_key lb) /\ text (l_val lb)) (fst r)) (written ops).
Theorem results_ok cf t ops qs rs : ops_ok cf t ops -> texts ops -> results_for (parts cf t ops) qs rs -> read_response_ok (mkReadResp rs []).
Proof.
  intros Ho Ht H. split; [|constructor]. cbn [rp_results]. induction H as [|q r qs rs (a & Ha & E1 & E2) H IH]; [constructor|].
  constructor; [|exact IH]. split; [|rewrite E2; constructor]. rewrite E1. apply Forall_forall. intros x Hx.
  apply in_map_iff in Hx as ([m pts] & <- & Hin). unfold sent_series. cbn [fst snd].
  destruct Ho as (O1 & O2 & O3 & O4 & O5 & Hw & O7). unfold texts in Ht. rewrite Forall_forall in Ht. pose proof Hw as Hw'. rewrite Forall_forall in Hw'.
  assert (Ho: ops_ok cf t ops) by (repeat (split; [assumption|]); assumption).
  split; [|split; [|constructor]].
  - cbn [ps_labels]. assert (exists p, In p pts) as (p & Hp).
    { pose proof (proj1 (proj2 Ha m pts) Hin) as [N _]. destruct pts as [|p ?]; [congruence|]. exists p. left. reflexivity. }
    destruct (answer_written _ _ _ _ _ _ _ Ho Ha _ _ _ Hin Hp) as (ls & H3 & H4).
    specialize (Ht _ H3). cbn [fst] in Ht. rewrite Forall_forall in Ht. apply Forall_forall. intros y Hy. apply in_map_iff in Hy as (lb & <- & Hlb).
    destruct (Ht lb) as [T1 T2]; [apply (Permutation_in lb (Permutation_sym H4)), Hlb|].
    split; [exact T1|]. split; [exact T2|constructor].
  - cbn [ps_samples]. apply Forall_forall. intros y Hy. apply in_map_iff in Hy as (p & <- & Hp).
    destruct (answer_written _ _ _ _ _ _ _ Ho Ha _ _ _ Hin Hp) as (ls & H3 & H4). destruct (Hw' _ H3) as [_ [B1 B2]]. cbn [snd] in B1, B2.
    split; [exact B2|]. split; [|constructor]. unfold i64. cbn [sent_point sm_ts]. destruct (Z.ltb_spec (tp_ts p) (2 ^ 63)); lia.
Qed.

Lemma query_results_types bs ch : forall a b, Forall2 (fun p q => pq_start p = pq_start q /\ pq_end p = pq_end q /\
     Forall2 (fun m n => mt_name m = mt_name n /\ mt_value m = mt_value n) (pq_matchers p) (pq_matchers q)) a b ->
  forall n, query_results bs ch n a = query_results bs ch n b.
Proof.
  intros a b H. induction H as [|p q a b (H1 & H2 & H3) H IH]; intros n; [reflexivity|]. cbn [query_results].
  rewrite H1, H2, IH. replace (map from_label_matcher (pq_matchers p)) with (map from_label_matcher (pq_matchers q)); [reflexivity|].
  clear -H3. induction H3 as [|m n ms ns [E1 E2] H IH]; [reflexivity|]. cbn [map]. rewrite IH. unfold from_label_matcher. rewrite E1, E2. reflexivity.
Qed.
Theorem types_ignored bs ch a b : same_but_types a b -> server_query bs ch a = server_query bs ch b.
Proof. intros H. unfold server_query. now rewrite (query_results_types bs ch _ _ H 0%nat). Qed.

(* ------------------------------------------------------------------ *)
(** * Requests *)

Lemma sum_zero {A} (f : A -> Z) l : (forall x, 0 < f x) -> sum (map f l) = 0 -> l = [].
Proof.
  intros H E. destruct l as [|a l]; [reflexivity|]. exfalso. pose proof (H a).
  assert (0 <= sum (map f l)). { clear -H. unfold sum. induction l as [|b l IH]; [cbn; lia|]. pose proof (H b). cbn [map fold_right]. lia. }
  unfold sum in *. cbn [map fold_right] in E. lia.
Qed.
Lemma unknown_size_pos x : 0 < unknown_size x.
Proof.
  destruct x as [n v]. unfold unknown_size, tag_size, varint32_size, varint64_size. cbn [fst snd].
  assert (0 < varint_size 5 (n * 8)). { cbn [varint_size]. destruct (n * 8 <? 128); [lia|]. pose proof (varint_size_nonneg 4 (n * 8 / 128)). cbn [varint_size] in *. lia. }
  destruct v as [z|z|z|b]; try lia.
  - pose proof (varint_size_nonneg 10 z). lia.
  - pose proof (varint_size_nonneg 5 (Z.of_nat (length b))). lia.
Qed.
Lemma nothing_asked_size m : read_request_size m = 0 <-> nothing_asked m.
Proof.
  unfold read_request_size, nothing_asked. pose proof (repeated_nonneg pquery_size (rq_queries m) pquery_size_nonneg).
  pose proof (unknowns_size_nonneg (rq_unk m)).
  assert (T: forall t, 0 < enum_size 2 (rtype_value t)) by (intros []; reflexivity).
  assert (0 <= sum (map (fun t => enum_size 2 (rtype_value t)) (rq_types m))).
  { apply (sum_nonneg (fun t => enum_size 2 (rtype_value t))). intros t _. pose proof (T t). lia. }
  split.
  - intros E. split; [|split].
    + apply (sum_zero (fun x => message_size (pquery_size x))); [|lia]. intros x. pose proof (pquery_size_nonneg x). pose proof (message_size_lt (pquery_size x)). lia.
    + apply (sum_zero (fun t => enum_size 2 (rtype_value t))); [exact T|lia].
    + apply (sum_zero unknown_size); [|unfold unknowns_size in *; lia]. intros [n v]. apply unknown_size_pos.
  - intros (-> & -> & ->). reflexivity.
Qed.

Section Process.
  Variables (sv : server) (z : snappy) (bs : bsearch) (ch : choices).

  Theorem process_bad rq w : rq_content rq = None \/ (exists c, rq_content rq = Some c /\ decompress z c = None) ->
    drun (process sv z bs ch rq) w = Some (Panic, w).
  Proof.
    unfold drun, process. intros [->|(c & -> & ->)]; reflexivity.
  Qed.
  Theorem process_other rq w c body : rq_content rq = Some c -> decompress z c = Some body ->
    rq_url rq <> sv_read_path sv -> rq_url rq <> sv_write_path sv ->
    drun (process sv z bs ch rq) w = Some (Ok (empty_response 404), w).
  Proof.
    intros H1 H2 H3 H4. unfold drun, process. rewrite H1, H2.
    rewrite (bytes_eqb_neq (rq_url rq) (sv_read_path sv)) by assumption.
    rewrite (bytes_eqb_neq (rq_url rq) (sv_write_path sv)) by assumption. reflexivity.
  Qed.
  Theorem process_read_bad rq w c body : rq_content rq = Some c -> decompress z c = Some body -> rq_url rq = sv_read_path sv ->
    (snd (merge_from read_request_read body read_request_new) = false \/
     nothing_asked (fst (merge_from read_request_read body read_request_new))) ->
    drun (process sv z bs ch rq) w = Some (Ok (empty_response 500), w).
  Proof.
    intros H1 H2 H3 H4. unfold drun, process. rewrite H1, H2, H3, bytes_eqb_refl.
    destruct (merge_from read_request_read body read_request_new) as [m ok]. cbn [fst snd] in H4.
    replace (negb ok || (read_request_size m =? 0)) with true; [reflexivity|].
    symmetry. apply orb_true_iff. destruct H4 as [-> | H4]; [left; reflexivity|right]. apply Z.eqb_eq, nothing_asked_size, H4.
  Qed.
  Theorem process_read rq w c body m : rq_content rq = Some c -> decompress z c = Some body -> rq_url rq = sv_read_path sv ->
    merge_from read_request_read body read_request_new = (m, true) -> ~ nothing_asked m ->
    forall rs w' c', drun (server_query bs ch m) w = Some (Ok rs, w') -> compress z (read_response_write rs) = Some c' ->
    drun (process sv z bs ch rq) w = Some (Ok (mkResponse 200 c'), w').
  Proof.
    intros H1 H2 H3 H4 H5 rs w' c' H6 H7. unfold drun, process in *. rewrite H1, H2, H3, bytes_eqb_refl, H4.
    replace (read_request_size m =? 0) with false.
    - cbn [negb orb]. rewrite run_bind, H6. cbn [run]. rewrite H7. reflexivity.
    - symmetry. apply Z.eqb_neq. intros E. apply H5, nothing_asked_size, E.
  Qed.
  Theorem process_write rq w c body r w' : rq_content rq = Some c -> decompress z c = Some body ->
    rq_url rq = sv_write_path sv -> rq_url rq <> sv_read_path sv ->
    drun (server_write (fst (merge_from write_request_read body write_request_new))) w = Some (r, w') ->
    drun (process sv z bs ch rq) w =
      Some (match r with Ok _ => Ok (empty_response 200) | Err _ => Ok (empty_response 500) | Panic => Panic end, w').
  Proof.
    intros H1 H2 H3 H4 H5. unfold drun, process in *. rewrite H1, H2.
    rewrite (bytes_eqb_neq (rq_url rq) (sv_read_path sv)) by assumption. rewrite H3, bytes_eqb_refl.
    destruct (merge_from write_request_read body write_request_new) as [m ok]. cbn [fst] in H5. rewrite run_bind, H5. reflexivity.
  Qed.
End Process.

Theorem serve_stops sv z bs ch bad rqs2 : rq_content bad = None \/ (exists c, rq_content bad = Some c /\ decompress z c = None) ->
  forall rqs1 k w rs w1, drun (serve sv z bs ch k rqs1) w = Some ((rs, Ok tt), w1) ->
  drun (serve sv z bs ch k (rqs1 ++ bad :: rqs2)) w = Some ((rs, Panic), w1).
Proof.
  intros Hb. induction rqs1 as [|rq rqs1 IH]; intros k w rs w1 H; unfold drun in *; cbn [app serve] in *.
  - cbn [run] in H. assert (rs = []) as -> by congruence. assert (w = w1) as -> by congruence.
    rewrite run_bind. pose proof (process_bad sv z bs (ch k) bad w1 Hb) as E. unfold drun in E. rewrite E. reflexivity.
  - rewrite run_bind in *. destruct (run dhandler (process sv z bs (ch k) rq) w) as [[[r|e|] w2]|]; try discriminate.
    rewrite run_bind in *. destruct (run dhandler (serve sv z bs ch (S k) rqs1) w2) as [[[rs' r'] w3]|] eqn:E; [|discriminate].
    cbn [run fst snd] in *. assert (r' = Ok tt) as -> by congruence. assert (rs = r :: rs') as -> by congruence. assert (w3 = w1) as -> by congruence.
    rewrite (IH _ _ _ _ E). reflexivity.
Qed.

(* ------------------------------------------------------------------ *)
(** * Sessions *)

(* what is taken from a body *)
Lemma taken_write body fs m : Forall is_byte body -> Z.of_nat (length body) < 2 ^ 64 ->
  body_in write_request_desc body fs \/ stops_in write_request_desc body fs -> m = write_request_of fs ->
  fst (merge_from write_request_read body write_request_new) = m.
Proof.
  intros Hb Hl H ->. unfold merge_from. change write_request_new with (write_request_of []). destruct H as [H|H].
  - assert (Q: write_request_read (2 ^ 64 - 1 - Z.of_nat (length body)) body (write_request_of []) = (write_request_of fs, true))
      by (apply write_request_reads; [lia|assumption|exists fs; auto]). now rewrite Q.
  - assert (Q: write_request_read (2 ^ 64 - 1 - Z.of_nat (length body)) body (write_request_of []) = (write_request_of fs, false))
      by (apply write_request_wrongs; [lia|assumption|exists fs; auto]). now rewrite Q.
Qed.
Lemma taken_read body fs m : Forall is_byte body -> Z.of_nat (length body) < 2 ^ 64 ->
  body_in read_request_desc body fs -> m = read_request_of fs -> merge_from read_request_read body read_request_new = (m, true).
Proof.
  intros Hb Hl H ->. unfold merge_from. change read_request_new with (read_request_of []). apply read_request_reads; [lia|assumption|exists fs; auto].
Qed.
Lemma taken_garbled body : Forall is_byte body -> Z.of_nat (length body) < 2 ^ 64 ->
  ~ (exists fs, body_in read_request_desc body fs) -> snd (merge_from read_request_read body read_request_new) = false.
Proof.
  intros Hb Hl H. destruct (merge_from read_request_read body read_request_new) as [m ok] eqn:E. destruct ok; [|reflexivity]. destruct H.
  unfold merge_from in E. change read_request_new with (read_request_of []) in E. apply read_request_reads in E as (fs & E & _); [|lia|assumption]. now exists fs.
Qed.

Lemma after_session_ext cf t0 l : forall ops, exists more, after_session cf t0 ops l = ops ++ more.
Proof.
  induction l as [|c l IH]; intros ops; cbn [after_session]; [exists []; symmetry; apply app_nil_r|].
  destruct (IH (received cf t0 ops c)) as (more & ->). destruct c as [m|m|]; cbn [received]; [|exists more; reflexivity..].
  eexists. rewrite <- app_assoc. reflexivity.
Qed.

Theorem session_served cf f sv z bs (ch : nat -> choices) : env_ok f -> empty_dir f -> let t0 := f_clock f (f_ticks f) in
  bs_contract bs -> (forall k n, hasher_ok (fst (ch k n))) ->
  forall rqs l, Forall2 (carries sv z) rqs l -> forall k ops,
  session_ok ch cf t0 z ops l ->
  let ops' := after_session cf t0 ops l in
  ops_ok cf t0 ops' -> timely (written ops') ->
  exists w rss w', db_after cf f ops = Some (outcomes cf t0 ops, w) /\
    drun (serve sv z bs ch k rqs) w = Some ((rss, Ok tt), w') /\
    db_after cf f ops' = Some (outcomes cf t0 ops', w') /\
    session_answered cf t0 z ops l rss.
Proof.
  intros He Hd t0 Hb Hh rqs l H. induction H as [|rq c rqs l Hc H IH]; intros k ops Hok ops' Ho Ht.
  - cbn [after_session] in ops'. subst ops'. destruct (history cf f ops He Hd Ho) as (w & E & _). exists w, [], w.
    split; [exact E|]. split; [reflexivity|]. split; [exact E|exact I].
  - cbn [session_ok] in Hok. destruct Hok as [Hok1 Hok2]. cbn [after_session] in ops'.
    destruct (IH (S k) (received cf t0 ops c) Hok2 Ho Ht) as (w1 & rss & w' & E1 & E2 & E3 & E4).
    assert (P: exists w rs, db_after cf f ops = Some (outcomes cf t0 ops, w) /\
               drun (process sv z bs (ch k) rq) w = Some (Ok rs, w1) /\ answered cf t0 z ops c rs).
    { destruct (after_session_ext cf t0 l (received cf t0 ops c)) as (more & Em).
      assert (Ho': ops_ok cf t0 (received cf t0 ops c)) by (apply ops_ok_prefix with more; rewrite <- Em; exact Ho).
      assert (Ht': timely (written (received cf t0 ops c))) by (apply timely_prefix with (written more); rewrite <- written_app, <- Em; exact Ht).
      destruct Hc as (content & body & C1 & C3 & B1 & B2 & C2). destruct c as [m|m|]; cbn [received client_ok answered] in *.
      - destruct C2 as (C2 & C4 & fs & C5 & C6).
        destruct (write_applied cf f ops (wq_series m) He Hd Ho') as (w & w2 & R1 & R2 & R3). fold t0 in R1, R2, R3.
        assert (w2 = w1) as -> by congruence. exists w.
        eexists. split; [exact R1|]. split; [|reflexivity].
        assert (R2': drun (server_write (fst (merge_from write_request_read body write_request_new))) w =
                     Some (if existsb (fails (current_window cf t0 ops)) (wq_series m) then Err InternalErr else Ok tt, w1))
          by (rewrite (taken_write body fs m B1 B2 C5 C6); exact R2).
        rewrite (process_write sv z bs (ch k) rq w content _ _ w1 C1 C3 C2 C4 R2'). destruct (existsb _ _); reflexivity.
      - destruct C2 as (C2 & fs & C5 & C6). destruct Hok1 as (K3 & K4). pose proof (taken_read body fs m B1 B2 C5 C6) as T.
        destruct (read_answered cf f bs (ch k) ops m He Hd Ho' Ht' Hb (Hh k) (K3 k)) as (w & rs & R1 & R2 & R3 & R4). fold t0 in R1, R3.
        assert (w = w1) as -> by congruence. exists w1.
        assert (D: nothing_asked m \/ ~ nothing_asked m).
        { rewrite <- nothing_asked_size. destruct (Z.eq_dec (read_request_size m) 0); auto. }
        destruct D as [D|D].
        + exists (empty_response 500). split; [exact R1|]. split; [|left; auto].
          apply (process_read_bad sv z bs (ch k) rq w1 content _ C1 C3 C2). right. rewrite T. exact D.
        + destruct rs as [rr ru]. cbn [rp_results rp_unk] in *. subst ru. specialize (K4 rr R3).
          destruct (compress z (read_response_write (mkReadResp rr []))) as [c'|] eqn:Ec; [|congruence].
          exists (mkResponse 200 c'). split; [exact R1|]. split.
          * exact (process_read sv z bs (ch k) rq w1 content _ m C1 C3 C2 T D _ _ _ R2 Ec).
          * right. split; [exact D|]. split; [reflexivity|]. exists rr. split; [exact Ec|exact R3].
      - destruct C2 as (C2 & C4). exists w1, (empty_response 500). split; [exact E1|]. split; [|reflexivity].
        apply (process_read_bad sv z bs (ch k) rq w1 content _ C1 C3 C2). left. exact (taken_garbled body B1 B2 C4). }
    destruct P as (w & rs & P1 & P2 & P3). exists w, (rs :: rss), w'. split; [exact P1|]. split.
    + unfold drun in *. cbn [serve]. rewrite run_bind, P2, run_bind, E2. reflexivity.
    + split; [exact E3|]. split; assumption.
Qed.
