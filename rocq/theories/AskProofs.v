(* Proofs about queries over any two instants. *)
From Coq Require Import Permutation ZifyBool ZifyNat.
From Verif Require Import WireSpec WireMsgs WireWrong.
From Verif Require Import Rust Prog Gorilla GorillaSpec Storage StorageSpec StorageProofs Labels IndexSpec Indexer Chunk ChunkSpec Utils DirSpec Db DbSpec RangeSpec Proto ProtoSpec
  Server ServerSpec AskSpec.
From Verif Require Import StringProofs LabelProofs IndexProofs ChunkProofs ChunkFacts MapProofs DbProofs DbHist DbFacts RangeProofs ServerProofs.

(** ** one chunk *)
Lemma numbered_app n a b : numbered n (a ++ b) = numbered n a ++ numbered (n + Z.of_nat (length a)) b.
Proof.
  revert n. induction a as [|x a IH]; intros n; [cbn; f_equal; lia|]. cbn [app numbered]. rewrite IH. cbn [length]. f_equal. f_equal. f_equal. lia.
Qed.
Lemma numbered_snd n a x : In x (numbered n a) -> In (snd x) a.
Proof. revert n. induction a as [|y a IH]; intros n; [intros []|]. intros [<-|H]; [now left|right; eauto]. Qed.

(* a query over any two instants, the database at rest *)
Theorem query_any_range cf t ops w hs bs o q s e : ops_ok cf t ops -> timely (written ops) -> let l := parts cf t ops in
  state cf w l -> hasher_ok hs -> bs_contract bs -> Forall lab_ok q -> unmixed hs l q s e ->
  exists r, drun (db_query hs bs o q s e) w = Some (r, w) /\ comes_to l q s e r.
Proof.
  intros Ho T l HS. apply query_any; [exact (state_quiet _ _ _ HS)|]. exact (parts_ok cf t ops Ho T).
Qed.

Theorem any_range cf f hs bs o ops q s e : env_ok f -> empty_dir f -> let t0 := f_clock f (f_ticks f) in
  ops_ok cf t0 ops -> timely (written ops) -> hasher_ok hs -> bs_contract bs -> Forall lab_ok q ->
  let l := parts cf t0 ops in unmixed hs l q s e ->
  exists w r, db_after cf f ops = Some (outcomes cf t0 ops, w) /\ drun (db_query hs bs o q s e) w = Some (r, w) /\ comes_to l q s e r.
Proof.
  intros He Hd t0 Ho T Hh Hb Hq l Hu. destruct (history cf f ops He Hd Ho) as (w & E & HS). fold t0 in E, HS. fold l in HS.
  destruct (query_any_range cf t0 ops w hs bs o q s e Ho T HS Hh Hb Hq Hu) as (r & R1 & R2). exists w, r. auto.
Qed.

(** ** the server *)
Lemma results_any_range cf w bs (ch : choices) t ops qs : ops_ok cf t ops -> timely (written ops) -> let l := parts cf t ops in
  state cf w l -> bs_contract bs -> (forall n, hasher_ok (fst (ch n))) -> Forall (query_sane ch l) qs ->
  let bad := exists q p, In q qs /\ In p l /\ crashes p (asked_labels q) (asked_from q) (asked_to q) in
  forall n, exists r, drun (query_results bs ch n qs) w = Some (r, w) /\
    (bad /\ r = Panic \/ ~ bad /\ exists rs, r = Ok rs /\ results_for l qs rs).
Proof.
  intros Ho T l HS Hb Hh Hq. cbv zeta. induction qs as [|q qs IH]; intros n.
  - exists (Ok []). split; [reflexivity|]. right. split; [intros (q & p & [] & _)|]. exists []. split; [reflexivity|constructor].
  - apply Forall_cons_iff in Hq as [(Q1 & Q3) Hq]. destruct (IH Hq (S n)) as (rr & R1 & R2).
    destruct (query_any_range cf t ops w (fst (ch n)) bs (snd (ch n)) _ _ _ Ho T HS (Hh n) Hb Q1 (Q3 n)) as (ra & A1 & A2).
    fold l in A2. exists (if panics ra then Panic else match rr with Ok rs => Ok (mkQResult (map wire_series (okl ra)) [] :: rs) | Err x => Err x | Panic => Panic end). split.
    { unfold drun in *. cbn [query_results]. rewrite run_bind.
      change (map from_label_matcher (pq_matchers q)) with (asked_labels q).
      change (wrapu 64 (pq_start q)) with (asked_from q). change (wrapu 64 (pq_end q)) with (asked_to q).
      rewrite A1. destruct A2 as [[_ ->]|(_ & a & -> & _)]; cbn match; [reflexivity|].
      rewrite run_qbind, R1. destruct R2 as [[_ ->]|(_ & rs & -> & _)]; reflexivity. }
    destruct A2 as [[(p & P1 & P2) ->]|(NA & a & -> & A2)].
    + left. split; [|reflexivity]. exists q, p. cbn [In]. auto.
    + destruct R2 as [[(q' & p & P1 & P2) ->]|(NR & rs & -> & R2)].
      * left. split; [|reflexivity]. exists q', p. cbn [In]. tauto.
      * right. split.
        { intros (q' & p & [->|P1] & P2); [apply NA|apply NR]; [exists p|exists q', p]; tauto. }
        eexists. split; [reflexivity|]. constructor; [|assumption].
        exists a. split; [assumption|]. split; [|reflexivity]. cbn [okl qr_series]. apply sent_series_ok.
        intros mm pts x H1 H2. destruct (answer_written _ _ _ _ _ _ _ Ho A2 _ _ _ H1 H2) as (ls & H3 & _).
        destruct Ho as (_ & _ & _ & _ & _ & Hw & _). rewrite Forall_forall in Hw. apply (Hw _ H3).
Qed.

Lemma process_read_panic sv z bs ch rq w c body m w' : rq_content rq = Some c -> decompress z c = Some body -> rq_url rq = sv_read_path sv ->
  merge_from read_request_read body read_request_new = (m, true) -> ~ nothing_asked m ->
  drun (server_query bs ch m) w = Some (Panic, w') -> drun (process sv z bs ch rq) w = Some (Panic, w').
Proof.
  intros H1 H2 H3 H4 H5 H6. unfold drun, process in *. rewrite H1, H2, H3, bytes_eqb_refl, H4.
  replace (read_request_size m =? 0) with false.
  - cbn [negb orb]. rewrite run_bind, H6. reflexivity.
  - symmetry. apply Z.eqb_neq. intros E. apply H5, nothing_asked_size, E.
Qed.
Lemma after_events_ext cf t0 l : forall ops, exists more, after_events cf t0 ops l = ops ++ more.
Proof.
  induction l as [|c l IH]; intros ops; cbn [after_events]; [exists []; symmetry; apply app_nil_r|].
  destruct (IH (taken cf t0 ops c)) as (more & ->). destruct c as [[m|m|]| |]; cbn [taken received]; [|exists more; reflexivity..].
  eexists. rewrite <- app_assoc. reflexivity.
Qed.

Theorem session_any cf f sv z bs (ch : nat -> choices) : env_ok f -> empty_dir f -> let t0 := f_clock f (f_ticks f) in
  bs_contract bs -> (forall k n, hasher_ok (fst (ch k n))) ->
  forall rqs l, Forall2 (brings sv z) rqs l -> forall k ops,
  events_sane ch cf t0 z ops l ->
  ops_ok cf t0 (after_events cf t0 ops l) -> timely (written (after_events cf t0 ops l)) ->
  exists w rss r w' ops', db_after cf f ops = Some (outcomes cf t0 ops, w) /\
    drun (serve sv z bs ch k rqs) w = Some ((rss, r), w') /\
    (r = Panic -> forall more, drun (serve sv z bs ch k (rqs ++ more)) w = Some ((rss, r), w')) /\
    db_after cf f ops' = Some (outcomes cf t0 ops', w') /\
    session_runs cf t0 z ops l rss r ops'.
Proof.
  intros He Hd t0 Hb Hh rqs l H. induction H as [|rq c rqs l Hc H IH]; intros k ops Hok Ho Ht.
  - cbn [after_events] in *. destruct (history cf f ops He Hd Ho) as (w & E & _). exists w, [], (Ok tt), w, ops.
    split; [exact E|]. split; [reflexivity|]. split; [discriminate|]. split; [exact E|]. repeat split; reflexivity.
  - cbn [events_sane after_events] in *. destruct Hok as [Hok1 Hok2].
    destruct (IH (S k) (taken cf t0 ops c) Hok2 Ho Ht) as (w1 & rss & r & w' & ops' & E1 & E2 & E3 & E4 & E5).
    destruct (after_events_ext cf t0 l (taken cf t0 ops c)) as (more & Em).
    assert (Ho': ops_ok cf t0 (taken cf t0 ops c)) by (apply ops_ok_prefix with more; rewrite <- Em; exact Ho).
    assert (Ht': timely (written (taken cf t0 ops c))) by (apply timely_prefix with (written more); rewrite <- written_app, <- Em; exact Ht).
    assert (P: exists w, db_after cf f ops = Some (outcomes cf t0 ops, w) /\
       ((fatal cf t0 ops c /\ drun (process sv z bs (ch k) rq) w = Some (Panic, w)) \/
        (~ fatal cf t0 ops c /\ exists rs, drun (process sv z bs (ch k) rq) w = Some (Ok rs, w1) /\ event_answered cf t0 z ops c rs))).
    { destruct c as [c| |]; cbn [brings taken event_sane fatal event_answered] in *.
      - destruct Hc as (content & body & C1 & C3 & B1 & B2 & C2). destruct c as [m|m|]; cbn [received answered] in *.
        + destruct C2 as (C2 & C4 & fs & C5 & C6).
          destruct (write_applied cf f ops (wq_series m) He Hd Ho') as (w & w2 & R1 & R2 & R3). fold t0 in R1, R2, R3.
          assert (w2 = w1) as -> by congruence. exists w. split; [exact R1|]. right. split; [intros []|].
          eexists. split; [|reflexivity].
          assert (R2': drun (server_write (fst (merge_from write_request_read body write_request_new))) w =
                       Some (if existsb (fails (current_window cf t0 ops)) (wq_series m) then Err InternalErr else Ok tt, w1))
            by (rewrite (taken_write body fs m B1 B2 C5 C6); exact R2).
          rewrite (process_write sv z bs (ch k) rq w content _ _ w1 C1 C3 C2 C4 R2'). destruct (existsb _ _); reflexivity.
        + destruct C2 as (C2 & fs & C5 & C6). destruct Hok1 as (K3 & K4). pose proof (taken_read body fs m B1 B2 C5 C6) as T.
          destruct (history cf f ops He Hd Ho') as (w & R1 & HS). fold t0 in R1, HS.
          assert (w = w1) as -> by congruence. exists w1. split; [exact R1|].
          destruct (results_any_range cf w1 bs (ch k) t0 ops (rq_queries m) Ho' Ht' HS Hb (Hh k) (K3 k) O) as (rr & Q1 & Q2).
          assert (D: nothing_asked m \/ ~ nothing_asked m).
          { rewrite <- nothing_asked_size. destruct (Z.eq_dec (read_request_size m) 0); auto. }
          destruct D as [D|D].
          * right. split; [intros (q & p & I & _); destruct D as (D & _); rewrite D in I; destruct I|].
            exists (empty_response 500). split; [|left; auto].
            apply (process_read_bad sv z bs (ch k) rq w1 content _ C1 C3 C2). right. rewrite T. exact D.
          * assert (SQ: drun (server_query bs (ch k) m) w1 = Some (match rr with Ok x => Ok (mkReadResp x []) | Err e => Err e | Panic => Panic end, w1)).
            { unfold drun, server_query in *. rewrite run_qbind, Q1. destruct rr; reflexivity. }
            destruct Q2 as [[F ->]|(F & rs & -> & R3)].
            -- left. split; [exact F|]. exact (process_read_panic sv z bs (ch k) rq w1 content _ m w1 C1 C3 C2 T D SQ).
            -- right. split; [exact F|]. specialize (K4 rs R3).
               destruct (compress z (read_response_write (mkReadResp rs []))) as [c'|] eqn:Ec; [|congruence].
               exists (mkResponse 200 c'). split.
               ++ exact (process_read sv z bs (ch k) rq w1 content _ m C1 C3 C2 T D _ _ _ SQ Ec).
               ++ right. split; [exact D|]. split; [reflexivity|]. exists rs. split; [exact Ec|exact R3].
        + destruct C2 as (C2 & C4). exists w1. split; [exact E1|]. right. split; [intros []|]. exists (empty_response 500). split; [|reflexivity].
          apply (process_read_bad sv z bs (ch k) rq w1 content _ C1 C3 C2). left. exact (taken_garbled body B1 B2 C4).
      - destruct Hc as ((content & body & C1 & C2) & C3 & C4). exists w1. split; [exact E1|]. right. split; [intros []|].
        eexists. split; [|reflexivity]. exact (process_other sv z bs (ch k) rq w1 content body C1 C2 C3 C4).
      - exists w1. split; [exact E1|]. left. split; [exact I|]. now apply process_bad. }
    destruct P as (w & P1 & [(F & P2)|(F & rs & P2 & P3)]).
    + exists w, [], Panic, w, ops. split; [exact P1|].
      assert (Z0: forall rqs, drun (serve sv z bs ch k (rq :: rqs)) w = Some (([], Panic), w)).
      { intros x. unfold drun in *. cbn [serve]. rewrite run_bind, P2. reflexivity. }
      split; [apply Z0|]. split; [intros _ x; apply (Z0 (rqs ++ x))|]. split; [exact P1|]. left. auto.
    + exists w, (rs :: rss), r, w', ops'. split; [exact P1|].
      split; [|split; [|split; [exact E4|]]].
      * unfold drun in *. cbn [serve]. rewrite run_bind, P2, run_bind, E2. reflexivity.
      * intros R x. specialize (E3 R x). unfold drun in *. cbn [serve app]. rewrite run_bind, P2, run_bind, E3. reflexivity.
      * right. split; [exact F|]. exists rs, rss. auto.
Qed.

(** ** instants before 1970 *)
Lemma part_points cf t ops c : ops_ok cf t ops -> In c (parts cf t ops) -> forall ls pts p, In (ls, pts) (snd c) -> In p pts ->
  in_window (fst c) (tp_ts p).
Proof.
  intros Ho Hc ls pts p H1 H2. destruct (parts_seg cf ops t [] c Hc) as (a & seg & b & E & Ec & _). cbn [app] in E.
  assert (Hs: Forall ireq_ok seg) by (eapply seg_ok; [exact E|apply Ho]).
  rewrite Ec in H1. destruct (content_sound _ _ Hs _ _ H1) as [_ Q]. now destruct (Q p H2) as (_ & _ & _ & W).
Qed.
Lemma late_start cf t ops q s e : (forall c, In c (parts cf t ops) -> c_end (fst c) < s) ->
  ~ (exists c, In c (parts cf t ops) /\ crashes c q s e) /\
  (forall m, concat (map (fun c => piece c q s e m) (parts cf t ops)) = []) /\
  forall hs, unmixed hs (parts cf t ops) q s e.
Proof.
  intros H. assert (P: forall c m, In c (parts cf t ops) -> piece c q s e m = []).
  { intros c m Hc. unfold piece, answers. replace (s <=? c_end (fst c)) with false by (specialize (H c Hc); lia).
    now rewrite andb_false_r. }
  split; [|split].
  - intros (c & Hc & _ & (_ & W) & _). specialize (H c Hc). lia.
  - intros m. induction (parts cf t ops) as [|c l IH]; [reflexivity|]. cbn [map concat]. rewrite P by now left. apply IH; intros; [apply H|apply P]; now right.
  - intros hs. unfold unmixed, tells_apart. intros; repeat match goal with X : exists c, In c _ /\ piece c _ _ _ _ <> [] |- _ => destruct X as (? & ? & X); rewrite P in X by assumption; congruence end.
Qed.
Theorem before_1970 cf f bs ch ops m : env_ok f -> empty_dir f -> let t0 := f_clock f (f_ticks f) in
  ops_ok cf t0 ops -> timely (written ops) -> bs_contract bs -> (forall n, hasher_ok (fst (ch n))) ->
  (forall c, In c (parts cf t0 ops) -> c_end (fst c) < 2 ^ 63) ->
  Forall (fun q => Forall lab_ok (asked_labels q) /\ - 2 ^ 63 <= pq_start q < 0) (rq_queries m) ->
  exists w, db_after cf f ops = Some (outcomes cf t0 ops, w) /\
    drun (server_query bs ch m) w = Some (Ok (mkReadResp (map (fun _ => mkQResult [] []) (rq_queries m)) []), w).
Proof.
  intros He Hd t0 Ho T Hb Hh Hend Hq. destruct (history cf f ops He Hd Ho) as (w & E & HS). fold t0 in E, HS. exists w. split; [exact E|].
  assert (L: forall q, In q (rq_queries m) -> ~ (exists c, In c (parts cf t0 ops) /\ crashes c (asked_labels q) (asked_from q) (asked_to q)) /\
     (forall x, concat (map (fun c => piece c (asked_labels q) (asked_from q) (asked_to q) x) (parts cf t0 ops)) = []) /\
     forall hs, unmixed hs (parts cf t0 ops) (asked_labels q) (asked_from q) (asked_to q)).
  { intros q Hin. apply late_start. intros c Hc. specialize (Hend c Hc). rewrite Forall_forall in Hq. destruct (Hq q Hin) as [_ Hs].
    unfold asked_from. rewrite <- (Z_mod_plus_full (pq_start q) 1 (2 ^ 64)), Z.mod_small; lia. }
  destruct (results_any_range cf w bs ch t0 ops (rq_queries m) Ho T HS Hb Hh) with (n := 0%nat) as (r & R1 & R2).
  { rewrite Forall_forall in *. intros q Hin. split; [apply (Hq q Hin)|]. intros n. now apply L. }
  destruct R2 as [[(q & p & H1 & H2) _]|(_ & rs & -> & R2)]; [exfalso; apply (L q H1); eauto|].
  assert (rs = map (fun _ => mkQResult [] []) (rq_queries m)) as ->.
  { clear R1. induction R2 as [|q r qs rs (a & A1 & A2 & A3) R2 IH]; [reflexivity|]. cbn [map].
    rewrite IH; [|now apply Forall_cons_iff in Hq|intros; apply L; now right]. f_equal.
    destruct a as [|[x pts] a]; [destruct r; cbn in *; congruence|]. exfalso.
    destruct (proj1 (proj2 A1 x pts)) as [N X]; [now left|]. apply N. rewrite X. apply L. now left. }
  unfold drun, server_query in *. rewrite run_qbind, R1. reflexivity.
Qed.

Lemma same_end cf t ops q s e e' : ops_ok cf t ops -> (forall c, In c (parts cf t ops) -> c_end (fst c) <= e /\ c_end (fst c) <= e') ->
  forall c m, In c (parts cf t ops) -> piece c q s e m = piece c q s e' m.
Proof.
  intros Ho H c m Hc. pose proof (part_points cf t ops c Ho Hc) as P. destruct (H c Hc) as [H1 H2].
  assert (Q: forall ls pts p, In (ls, pts) (snd c) -> In p pts -> tp_ts p <= e /\ tp_ts p <= e' /\ c_start (fst c) <= tp_ts p).
  { intros ls pts p I1 I2. specialize (P ls pts p I1 I2). unfold in_window in P. lia. }
  assert (A: answers c q s e = answers c q s e').
  { unfold answers. assert (W: forall ls pts, In (ls, pts) (snd c) -> touchesb s e pts = touchesb s e' pts).
    { intros ls pts I1. unfold touchesb. f_equal. 
      assert (X: forall l, (forall p, In p l -> In p pts) -> existsb (fun p => tp_ts p <=? e) l = existsb (fun p => tp_ts p <=? e') l).
      { induction l as [|p l IH]; intros Hl; [reflexivity|]. cbn [existsb]. rewrite IH by (intros; apply Hl; now right). f_equal.
        destruct (Q ls pts p I1 (Hl p (or_introl eq_refl))). lia. }
      apply X. auto. }
    assert (F: forall l : content, (forall x, In x l -> In x (snd c)) ->
       forallb (fun x => negb (matches (snd c) q (fst x)) || touchesb s e (snd x)) l =
       forallb (fun x => negb (matches (snd c) q (fst x)) || touchesb s e' (snd x)) l).
    { induction l as [|[ls pts] l IH]; intros Hl; [reflexivity|]. cbn [forallb fst snd]. rewrite IH by (intros; apply Hl; now right).
      now rewrite (W ls pts) by (apply Hl; now left). }
    rewrite F by auto. f_equal. f_equal.
    destruct (parts_seg cf ops t [] c Hc) as (_ & _ & _ & _ & _ & st & Ec).
    assert (c_start (fst c) <= c_end (fst c)) by (rewrite Ec; cbn [the_chunk c_start c_end]; destruct Ho as (_ & _ & Ho & _); lia). lia. }
  unfold piece. rewrite <- A. destruct (answers c q s e); [|reflexivity]. destruct (find _ (snd c)) as [[ls pts]|] eqn:F; [|reflexivity].
  apply find_some in F as [F _]. cbn [snd]. apply filter_ext_in. intros p Hp. destruct (Q ls pts p F Hp). lia.
Qed.
Theorem ends_before_1970 cf t0 ops q : ops_ok cf t0 ops -> (forall c, In c (parts cf t0 ops) -> c_end (fst c) < 2 ^ 63) ->
  0 <= pq_start q < 2 ^ 63 -> - 2 ^ 63 <= pq_end q < 0 ->
  asked_from q <= asked_to q /\
  forall a, db_answer (parts cf t0 ops) (asked_labels q) (asked_from q) (asked_to q) a <->
            db_answer (parts cf t0 ops) (asked_labels q) (pq_start q) (2 ^ 63 - 1) a.
Proof.
  intros Ho Hend Hs He.
  assert (E1: asked_from q = pq_start q) by (unfold asked_from; apply Z.mod_small; lia).
  assert (E2: asked_to q = pq_end q + 2 ^ 64) by (unfold asked_to; rewrite <- (Z_mod_plus_full (pq_end q) 1 (2 ^ 64)), Z.mod_small; lia).
  split; [lia|]. intros a. rewrite E1. unfold db_answer.
  assert (X: forall m, concat (map (fun c => piece c (asked_labels q) (pq_start q) (asked_to q) m) (parts cf t0 ops)) =
                       concat (map (fun c => piece c (asked_labels q) (pq_start q) (2 ^ 63 - 1) m) (parts cf t0 ops))).
  { intros m. f_equal. apply map_ext_in. intros c Hc. apply (same_end cf t0 ops); [assumption| |assumption]. intros c' Hc'. specialize (Hend c' Hc'). lia. }
  split; intros [N H]; (split; [exact N|]); intros m pts; [rewrite <- X|rewrite X]; apply H.
Qed.

Theorem every_request sv z rq :
  (forall c b, rq_content rq = Some c -> decompress z c = Some b -> Forall is_byte b /\ Z.of_nat (length b) < 2 ^ 64) ->
  exists v, brings sv z rq v.
Proof.
  intros Hb. destruct (rq_content rq) as [content|] eqn:E1; [|exists Unreadable; now left].
  destruct (decompress z content) as [body|] eqn:E2; [|exists Unreadable; right; eauto].
  destruct (Hb content body eq_refl E2) as [B1 B2].
  destruct (bytes_eqb (rq_url rq) (sv_read_path sv)) eqn:R.
  - apply bytes_eqb_spec in R. destruct (merge_from read_request_read body read_request_new) as [m ok] eqn:E. destruct ok.
    + exists (Asked (CRead m)), content, body. repeat (split; [assumption|]).
      unfold merge_from in E. change read_request_new with (read_request_of []) in E. apply read_request_reads in E as (fs & F1 & F2); [|lia|assumption]. eauto.
    + exists (Asked CGarbled), content, body. repeat (split; [assumption|]). intros (fs & F).
      assert (Q: merge_from read_request_read body read_request_new = (read_request_of fs, true)) by (eapply taken_read; eauto). congruence.
  - destruct (bytes_eqb (rq_url rq) (sv_write_path sv)) eqn:W.
    + apply bytes_eqb_spec in W. destruct (merge_from write_request_read body write_request_new) as [m ok] eqn:E.
      exists (Asked (CWrite m)), content, body. repeat (split; [assumption|]). split; [intros X; rewrite X, bytes_eqb_refl in R; discriminate|].
      unfold merge_from in E. change write_request_new with (write_request_of []) in E. destruct ok.
      * apply write_request_reads in E as (fs & F1 & F2); [|lia|assumption]. eauto.
      * apply write_request_wrongs in E as (fs & F1 & F2); [|lia|assumption]. eauto.
    + exists Elsewhere. split; [eauto|]. split; intros X; rewrite X, bytes_eqb_refl in *; discriminate.
Qed.
