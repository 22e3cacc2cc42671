(* The process ends at any moment while the server answers a sequence of requests. *)
From Coq Require Import ZifyBool ZifyNat Permutation Sorted.
From Verif Require Import WireSpec.
From Verif Require Import Rust StringProofs Prog Gorilla GorillaSpec Storage StorageSpec StorageProofs Labels IndexSpec Indexer
  LabelProofs Chunk ChunkSpec ChunkProofs ChunkFacts StopSpec CrashQuery
  Utils DirSpec DirProofs TiKvInit Db DbSpec MapProofs DbProofs DbHist RangeSpec RangeProofs DbFacts
  ReopenSpec ReopenProofs OpenProofs CrashOpen CrashKeep SearchSpec Proto ProtoSpec Server ServerSpec ServerProofs TornSpec TornProofs TornKnown TornAll TornServeSpec TornServe.

Lemma crash_done {C W A} (h : handler C W) (p : prog C A) : forall w a w', run h p w = Some (a, w') ->
  forall n, (cost h p w <= n)%nat -> crash_at h n p w = (Ret a, w').
Proof.
  induction p as [b|X c q IH]; intros w a w' H n L; cbn [run] in H.
  - assert (b = a /\ w = w') as [-> ->] by (split; congruence). destruct n; reflexivity.
  - cbn [cost] in L. destruct (h X c w) as [[x w1]|] eqn:E; [|discriminate]. destruct n as [|n]; [lia|]. cbn [crash_at]. rewrite E.
    apply IH; [assumption|lia].
Qed.
Lemma crash_undone {C W A B} (h : handler C W) (p : prog C A) (k : A -> prog C B) n : forall w, (n < cost h p w)%nat -> forall b, fst (crash_at h n (bind p k) w) <> Ret b.
Proof.
  revert p. induction n as [|n IH]; intros p w H b; (destruct p as [a|X c q]; cbn [cost] in H; [lia|]).
  - discriminate.
  - cbn [bind crash_at]. destruct (h X c w) as [[x w']|]; [|lia]. apply IH. lia.
Qed.
Lemma crash_map {C W A B} (h : handler C W) (g : A -> B) n : forall (p : prog C A) w,
  crash_at h n (bind p (fun x => Ret (g x))) w = (bind (fst (crash_at h n p w)) (fun x => Ret (g x)), snd (crash_at h n p w)).
Proof.
  induction n as [|n IH]; intros p w; [destruct p; reflexivity|]. destruct p as [a|X c q]; [reflexivity|].
  cbn [bind crash_at]. destruct (h X c w) as [[x w']|]; [apply IH|reflexivity].
Qed.

Section Session.
  Variables (cf : config) (f : fworld) (sv : server) (z : snappy) (bs0 : bsearch) (ch : nat -> choices).
  Hypotheses (He : env_ok f) (Hd : empty_dir f) (Hb0 : bs_contract bs0) (Hh0 : forall k n, hasher_ok (fst (ch k n))).
  Let t0 := f_clock f (f_ticks f).

  Lemma serve_one k rq c ops : carries sv z rq c -> client_ok ch z (parts cf t0 ops) c -> ops_ok cf t0 (received cf t0 ops c) -> timely (written (received cf t0 ops c)) ->
    exists w rs w', db_after cf f ops = Some (outcomes cf t0 ops, w) /\ drun (process sv z bs0 (ch k) rq) w = Some (Ok rs, w') /\
      db_after cf f (received cf t0 ops c) = Some (outcomes cf t0 (received cf t0 ops c), w') /\ answered cf t0 z ops c rs.
  Proof.
    intros Hc Hok Ho Ht.
    destruct (session_served cf f sv z bs0 ch He Hd Hb0 Hh0 [rq] [c] ltac:(constructor; [exact Hc|constructor]) k ops) as (w & rss & w' & E1 & E2 & E3 & E4).
    - split; [exact Hok|exact I].
    - exact Ho.
    - exact Ht.
    - cbn [after_session] in E3. cbn [serve] in E2. unfold drun in E2. rewrite run_bind in E2.
      destruct (run dhandler (process sv z bs0 (ch k) rq) w) as [[[rs|er|] w1]|] eqn:E; try discriminate.
      cbn [bind run] in E2. assert (w1 = w') as -> by congruence. assert (rss = [rs]) as -> by (cbn [fst] in E2; congruence).
      destruct E4 as [E4 _]. exists w, rs, w'. auto.
  Qed.

  Lemma serve_cut rqs l : Forall2 (carries sv z) rqs l -> forall k ops n, session_ok ch cf t0 z ops l ->
    ops_ok cf t0 (after_session cf t0 ops l) -> timely (written (after_session cf t0 ops l)) ->
    exists w rqs1 rqs2 l1 l2 rss w1, rqs = rqs1 ++ rqs2 /\ l = l1 ++ l2 /\ db_after cf f ops = Some (outcomes cf t0 ops, w) /\
      answered_by n sv z bs0 ch k rqs1 rqs2 rss w /\ session_answered cf t0 z ops l1 rss /\
      db_after cf f (after_session cf t0 ops l1) = Some (outcomes cf t0 (after_session cf t0 ops l1), w1) /\
      ((rqs2 = [] /\ l2 = [] /\ snd (crash_at dhandler n (serve sv z bs0 ch k rqs) w) = w1) \/
       exists rq rqs3 c l3 k' n2, rqs2 = rq :: rqs3 /\ l2 = c :: l3 /\ carries sv z rq c /\
         snd (crash_at dhandler n (serve sv z bs0 ch k rqs) w) = snd (crash_at dhandler n2 (process sv z bs0 (ch k') rq) w1)).
  Proof.
    intros F. induction F as [|rq c rqs l Hc F IH]; intros k ops n Hok Ho Ht.
    - cbn [after_session] in *. destruct (history cf f ops He Hd Ho) as (w & E & _). exists w, [], [], [], [], [], w.
      split; [reflexivity|]. split; [reflexivity|]. split; [exact E|]. split; [split; [exists w; destruct n; reflexivity|discriminate]|]. split; [exact I|].
      split; [exact E|]. left. split; [reflexivity|]. split; [reflexivity|]. destruct n; reflexivity.
    - cbn [session_ok] in Hok. destruct Hok as [Hok1 Hok2]. cbn [after_session] in Ho, Ht.
      destruct (after_session_ext cf t0 l (received cf t0 ops c)) as (more & Em).
      assert (Ho': ops_ok cf t0 (received cf t0 ops c)) by (apply ops_ok_prefix with more; rewrite <- Em; exact Ho).
      assert (Ht': timely (written (received cf t0 ops c))) by (apply timely_prefix with (written more); rewrite <- written_app, <- Em; exact Ht).
      destruct (serve_one k rq c ops Hc Hok1 Ho' Ht') as (w & rs & w1 & P1 & P2 & P3 & P4).
      destruct (Nat.lt_ge_cases n (cost dhandler (process sv z bs0 (ch k) rq) w)) as [L|L].
      + exists w, [], (rq :: rqs), [], (c :: l), [], w.
        split; [reflexivity|]. split; [reflexivity|]. split; [exact P1|]. split.
        { split; [exists w; destruct n; reflexivity|]. intros rq' rqs3 E a. assert (rq' = rq) as -> by congruence. cbn [app serve]. now apply crash_undone. }
        split; [exact I|]. split; [exact P1|]. right. exists rq, rqs, c, l, k, n. split; [reflexivity|]. split; [reflexivity|]. split; [exact Hc|].
        cbn [serve]. apply crash_before. lia.
      + assert (K: forall r, crash_at dhandler n (serve sv z bs0 ch k (rq :: r)) w =
                 crash_at dhandler (n - cost dhandler (process sv z bs0 (ch k) rq) w) (let! rest := serve sv z bs0 ch (S k) r in Ret (rs :: fst rest, snd rest)) w1).
        { intros r. cbn [serve]. replace n with (cost dhandler (process sv z bs0 (ch k) rq) w + (n - cost dhandler (process sv z bs0 (ch k) rq) w))%nat at 1 by lia.
          now rewrite (crash_after dhandler _ _ w _ w1 P2). }
        set (n' := (n - cost dhandler (process sv z bs0 (ch k) rq) w)%nat) in *.
        destruct (IH (S k) (received cf t0 ops c) n' Hok2 Ho Ht) as (w0 & rqs1 & rqs2 & l1 & l2 & rss & w2 & E1 & E2 & E3 & E4 & E5 & E6 & E7).
        assert (w0 = w1) as -> by congruence.
        exists w, (rq :: rqs1), rqs2, (c :: l1), l2, (rs :: rss), w2.
        split; [now rewrite E1|]. split; [now rewrite E2|]. split; [exact P1|]. split.
        { destruct E4 as ((wx & E4) & E8). split.
          - exists wx. rewrite K, crash_map, E4. reflexivity.
          - intros rq' rqs3 E a. change ((rq :: rqs1) ++ [rq']) with (rq :: (rqs1 ++ [rq'])). rewrite K, crash_map. cbn [fst].
            specialize (E8 rq' rqs3 E). destruct (fst (crash_at dhandler n' (serve sv z bs0 ch (S k) (rqs1 ++ [rq'])) w1)) as [a'|X c' q']; [exfalso; now apply (E8 a')|discriminate]. }
        split; [split; assumption|]. split; [exact E6|]. rewrite K, crash_map. cbn [snd]. exact E7.
  Qed.
End Session.

Lemma received_batches cf t ops c : exists l, received cf t ops c = ops ++ batches l.
Proof. destruct c; cbn [received]; [eexists; reflexivity|exists []; symmetry; apply app_nil_r..]. Qed.
Lemma session_batches cf t l : forall ops, exists b, after_session cf t ops l = ops ++ batches b.
Proof.
  induction l as [|c l IH]; intros ops; cbn [after_session]; [exists []; symmetry; apply app_nil_r|].
  destruct (IH (received cf t ops c)) as (b & ->). destruct (received_batches cf t ops c) as (b' & ->). exists (b' ++ b). unfold batches. now rewrite map_app, app_assoc.
Qed.
Lemma after_session_app cf t l1 : forall ops l2, after_session cf t ops (l1 ++ l2) = after_session cf t (after_session cf t ops l1) l2.
Proof. induction l1 as [|c l1 IH]; intros ops l2; [reflexivity|]. cbn [app after_session]. apply IH. Qed.

Section Ends.
  Variables (cf : config) (f : fworld) (sv : server) (z : snappy) (bs0 : bsearch) (ch : nat -> choices).
  Hypotheses (He : open_env cf f) (Hd : empty_dir f) (Hm : monotone (f_clock f)) (S1 : cf_st cf = Sled) (S2 : cf_ix cf = Sled)
    (Hb0 : bs_contract bs0) (Hh0 : forall k n, hasher_ok (fst (ch k n))).
  Let t0 := f_clock f (f_ticks f).
  Variables (rqs : list request) (l : list client) (k : nat) (ops : list dop) (n : nat).
  Hypotheses (Hc : Forall2 (carries sv z) rqs l) (Hok : session_ok ch cf t0 z ops l).
  Let ops' := after_session cf t0 ops l.
  Hypotheses (Ho : ops_ok cf t0 ops') (T : timely (written ops'))
    (Hclk : forall i, (f_ticks f < i)%nat -> last_start t0 ops < f_clock f i)
    (Hpts : forall p, stored (parts cf t0 ops') p -> tp_ts p <= f_clock f (S (f_ticks f))).

  (* the hypotheses of the theorems about one request *)
  Lemma session_at l1 l2 : l = l1 ++ l2 -> let a := after_session cf t0 ops l1 in let todo := next_series cf t0 a l2 in
    ops_ok cf t0 (a ++ batches todo) /\ timely (written (a ++ batches todo)) /\
    (forall i, (f_ticks f < i)%nat -> last_start t0 a < f_clock f i) /\
    (forall p, stored (parts cf t0 (a ++ batches todo)) p -> tp_ts p <= f_clock f (S (f_ticks f))).
  Proof.
    intros E a todo.
    assert (X: exists b, ops' = (a ++ batches todo) ++ batches b).
    { unfold ops'. rewrite E, after_session_app. fold a. unfold todo. destruct l2 as [|[m|m|] l2]; cbn [next_series after_session received].
      - exists []. now rewrite !app_nil_r.
      - apply session_batches.
      - cbn [batches map]. rewrite app_nil_r. apply session_batches.
      - cbn [batches map]. rewrite app_nil_r. apply session_batches. }
    destruct X as (b & X). rewrite X in *.
    split; [exact (ops_ok_prefix _ _ _ _ Ho)|]. split; [rewrite written_app in T; exact (timely_prefix _ _ T)|]. split.
    - intros i Hi. unfold a. destruct (session_batches cf t0 l1 ops) as (b1 & ->). rewrite ServerProofs.last_start_app, last_start_batches. now apply Hclk.
    - intros p Hp. apply Hpts. now apply stored_batches.
  Qed.

  (* what holds of the end of a request holds of the end of a session *)
  Variable Q : list dop -> list client -> fworld -> Prop.
  Hypothesis Q_write : forall l1 m l2 rq k' n2, l = l1 ++ CWrite m :: l2 -> carries sv z rq (CWrite m) ->
    exists w, db_after cf f (after_session cf t0 ops l1) = Some (outcomes cf t0 (after_session cf t0 ops l1), w) /\
      Q (after_session cf t0 ops l1) (CWrite m :: l2) (stopped cf (snd (crash_at dhandler n2 (process sv z bs0 (ch k') rq) w))).
  Hypothesis Q_rest : forall l1 l2 w, l = l1 ++ l2 -> (forall m l3, l2 <> CWrite m :: l3) ->
    db_after cf f (after_session cf t0 ops l1) = Some (outcomes cf t0 (after_session cf t0 ops l1), w) ->
      Q (after_session cf t0 ops l1) l2 (stopped cf w).
  Lemma session_ends : exists w rqs1 rqs2 l1 l2 rss, rqs = rqs1 ++ rqs2 /\ l = l1 ++ l2 /\ db_after cf f ops = Some (outcomes cf t0 ops, w) /\
    answered_by n sv z bs0 ch k rqs1 rqs2 rss w /\ session_answered cf t0 z ops l1 rss /\
    Q (after_session cf t0 ops l1) l2 (stopped cf (snd (crash_at dhandler n (serve sv z bs0 ch k rqs) w))).
  Proof.
    pose proof He as (Henv & _).
    destruct (serve_cut cf f sv z bs0 ch Henv Hd Hb0 Hh0 rqs l Hc k ops n Hok Ho T) as (w & rqs1 & rqs2 & l1 & l2 & rss & w1 & E1 & E2 & E3 & E4 & E5 & E6 & E7).
    exists w, rqs1, rqs2, l1, l2, rss. split; [exact E1|]. split; [exact E2|]. split; [exact E3|]. split; [exact E4|]. split; [exact E5|].
    fold t0 in E6. destruct E7 as [(F1 & F2 & ->)|(rq & rqs3 & c & l3 & k' & n2 & F1 & F2 & F3 & ->)].
    - apply Q_rest; [exact E2|intros m l3; rewrite F2; discriminate|exact E6].
    - destruct c as [m|m|].
      + rewrite F2 in *. destruct (Q_write l1 m l3 rq k' n2 E2 F3) as (w2 & G1 & G2). assert (w2 = w1) as -> by congruence. exact G2.
      + rewrite (reading_crash cf) by (left; destruct F3 as (c1 & c2 & _ & _ & _ & _ & F3 & _); exact F3). apply Q_rest; [exact E2|intros m' l4; rewrite F2; discriminate|exact E6].
      + rewrite (reading_crash cf) by (left; destruct F3 as (c1 & c2 & _ & _ & _ & _ & F3 & _); exact F3). apply Q_rest; [exact E2|intros m' l4; rewrite F2; discriminate|exact E6].
  Qed.
End Ends.

Section Rest.
  Variables (cf : config) (f : fworld) (a : list dop) (w : dworld).
  Hypotheses (He : open_env cf f) (Hd : empty_dir f) (Hm : monotone (f_clock f)) (S1 : cf_st cf = Sled) (S2 : cf_ix cf = Sled).
  Let t0 := f_clock f (f_ticks f).
  Hypotheses (Ho : ops_ok cf t0 a) (T : timely (written a))
    (Hclk : forall i, (f_ticks f < i)%nat -> last_start t0 a < f_clock f i)
    (Hpts : forall p, stored (parts cf t0 a) p -> tp_ts p <= f_clock f (S (f_ticks f)))
    (Hw : db_after cf f a = Some (outcomes cf t0 a, w)).
  Lemma rest_any hs bs o q s e : hasher_ok hs -> bs_contract bs -> Forall lab_ok q -> s <= e -> apart_in hs (parts cf t0 a) ->
    exists w' r', db_open cf (stopped cf w) = Some (Ok tt, w') /\ drun (db_query hs bs o q s e) w' = Some (Ok r', w') /\ answer_short (parts cf t0 a) q s e r'.
  Proof.
    destruct (empty_ok cf f a (mkWriteReq [] [])) as (O1 & O2 & O3); [cbn [wq_series applied batches map]; now rewrite app_nil_r..|].
    destruct (write_crash_any cf f a (OpBatch [] []) [] 0 He Hd Hm S1 S2 O1 O2 ltac:(right; eauto) Hclk) as (done & rs & w0 & D & E' & H).
    { intros p Hp. rewrite O3 in Hp. now apply Hpts. }
    assert (w0 = w) as -> by congruence. fold t0 in H. rewrite (empty_batch cf t0 a [] done D) in H. exact (H hs bs o q s e).
  Qed.
  Lemma rest_comes hs bs o q s e : hasher_ok hs -> bs_contract bs -> Forall lab_ok q -> unmixed hs (parts cf t0 a) q s e ->
    exists w' r', db_open cf (stopped cf w) = Some (Ok tt, w') /\ drun (db_query hs bs o q s e) w' = Some (r', w') /\ comes_to (parts cf t0 a) q s e r'.
  Proof.
    intros Hh Hb Hq Hu.
    destruct (empty_ok cf f a (mkWriteReq [] [])) as (O1 & O2 & O3); [cbn [wq_series applied batches map]; now rewrite app_nil_r..|].
    destruct (write_crash_keeps_comes cf f a (OpBatch [] []) [] 0 hs bs o q s e He Hd Hm S1 S2 O1) as (rs & w0 & r & w' & r' & E' & _ & X1 & X2 & _ & X3); try assumption.
    { right; eauto. }
    { intros (x & _ & []). }
    assert (w0 = w) as -> by congruence. exists w', r'. split; [exact X1|]. split; [exact X2|exact X3].
  Qed.
End Rest.

Section Sessions.
  Variables (cf : config) (f : fworld) (sv : server) (z : snappy) (bs0 : bsearch) (ch : nat -> choices).
  Hypotheses (He : open_env cf f) (Hd : empty_dir f) (Hm : monotone (f_clock f)) (S1 : cf_st cf = Sled) (S2 : cf_ix cf = Sled)
    (Hb0 : bs_contract bs0) (Hh0 : forall k n, hasher_ok (fst (ch k n))).
  Let t0 := f_clock f (f_ticks f).
  Variables (rqs : list request) (l : list client) (k : nat) (ops : list dop) (n : nat).
  Hypotheses (Hc : Forall2 (carries sv z) rqs l) (Hok : session_ok ch cf t0 z ops l).
  Let ops' := after_session cf t0 ops l.
  Hypotheses (Ho : ops_ok cf t0 ops') (T : timely (written ops'))
    (Hclk : forall i, (f_ticks f < i)%nat -> last_start t0 ops < f_clock f i)
    (Hpts : forall p, stored (parts cf t0 ops') p -> tp_ts p <= f_clock f (S (f_ticks f))).
  Lemma no_write_left a l2 : (forall m l3, l2 <> CWrite m :: l3) -> next_series cf t0 a l2 = [] /\ (forall part, part = [] -> cut_in cf t0 a l2 part).
  Proof. intros H. destruct l2 as [|[m|m|] l2]; [split; [reflexivity|auto]|exfalso; now apply (H m l2)|split; [reflexivity|auto]..]. Qed.

  Theorem session_crash_any : exists w rqs1 rqs2 l1 l2 rss, rqs = rqs1 ++ rqs2 /\ l = l1 ++ l2 /\ db_after cf f ops = Some (outcomes cf t0 ops, w) /\
    answered_by n sv z bs0 ch k rqs1 rqs2 rss w /\ session_answered cf t0 z ops l1 rss /\
    exists part, cut_in cf t0 (after_session cf t0 ops l1) l2 part /\ let seen := parts cf t0 (after_session cf t0 ops l1 ++ batches part) in
    forall hs bs o q s e, hasher_ok hs -> bs_contract bs -> Forall lab_ok q -> s <= e -> apart_in hs seen ->
    exists w' r', db_open cf (stopped cf (snd (crash_at dhandler n (serve sv z bs0 ch k rqs) w))) = Some (Ok tt, w') /\
      drun (db_query hs bs o q s e) w' = Some (Ok r', w') /\ answer_short seen q s e r'.
  Proof.
    apply (session_ends cf f sv z bs0 ch He Hd Hb0 Hh0 rqs l k ops n Hc Hok Ho T
      (fun a l2 v => exists part, cut_in cf t0 a l2 part /\ let seen := parts cf t0 (a ++ batches part) in
        forall hs bs o q s e, hasher_ok hs -> bs_contract bs -> Forall lab_ok q -> s <= e -> apart_in hs seen ->
        exists w' r', db_open cf v = Some (Ok tt, w') /\ drun (db_query hs bs o q s e) w' = Some (Ok r', w') /\ answer_short seen q s e r')).
    - intros l1 m l2 rq k' n2 E Hq. destruct (session_at cf f l ops Ho T Hclk Hpts l1 _ E) as (O1 & O2 & O3 & O4).
      destruct (request_crash_any cf f _ sv z bs0 (ch k') rq m n2 He Hd Hm S1 S2 Hq O1 O2 O3 O4) as (part & w & X1 & X2 & X3).
      exists w. split; [exact X2|]. exists part. split; [exact X1|exact X3].
    - intros l1 l2 w E HN DA. destruct (session_at cf f l ops Ho T Hclk Hpts l1 _ E) as (O1 & O2 & O3 & O4).
      destruct (no_write_left (after_session cf t0 ops l1) l2 HN) as [NW CI]. fold t0 in O1, O2, O3, O4. rewrite NW in O1, O2, O4. cbn [batches map] in O1, O2, O4. rewrite app_nil_r in O1, O2, O4.
      exists []. split; [now apply CI|]. cbn [batches map]. rewrite app_nil_r. intros seen hs bs o q s e. now apply rest_any.
  Qed.

  Theorem session_crash_others : exists w rqs1 rqs2 l1 l2 rss, rqs = rqs1 ++ rqs2 /\ l = l1 ++ l2 /\ db_after cf f ops = Some (outcomes cf t0 ops, w) /\
    answered_by n sv z bs0 ch k rqs1 rqs2 rss w /\ session_answered cf t0 z ops l1 rss /\
    let done := after_session cf t0 ops l1 in
    forall hs bs o q s e, hasher_ok hs -> bs_contract bs -> Forall lab_ok q -> s <= e -> unmixed hs (parts cf t0 done) q s e ->
    (forall x, In x (next_series cf t0 done l2) -> ~ shares q (stored_labels x)) ->
    exists w' r', db_open cf (stopped cf (snd (crash_at dhandler n (serve sv z bs0 ch k rqs) w))) = Some (Ok tt, w') /\
      drun (db_query hs bs o q s e) w' = Some (Ok r', w') /\ db_answer (parts cf t0 done) q s e r'.
  Proof.
    apply (session_ends cf f sv z bs0 ch He Hd Hb0 Hh0 rqs l k ops n Hc Hok Ho T
      (fun a l2 v => forall hs bs o q s e, hasher_ok hs -> bs_contract bs -> Forall lab_ok q -> s <= e -> unmixed hs (parts cf t0 a) q s e ->
        (forall x, In x (next_series cf t0 a l2) -> ~ shares q (stored_labels x)) ->
        exists w' r', db_open cf v = Some (Ok tt, w') /\ drun (db_query hs bs o q s e) w' = Some (Ok r', w') /\ db_answer (parts cf t0 a) q s e r')).
    - intros l1 m l2 rq k' n2 E Hq. destruct (session_at cf f l ops Ho T Hclk Hpts l1 _ E) as (O1 & O2 & O3 & O4).
      destruct (request_crash_others cf f _ sv z bs0 (ch k') rq m n2 He Hd Hm S1 S2 Hq O1 O2 O3 O4) as (w & X2 & X3).
      exists w. split; [exact X2|exact X3].
    - intros l1 l2 w E HN DA hs bs o q s e Hh Hb Hq Hse Hu _. destruct (session_at cf f l ops Ho T Hclk Hpts l1 _ E) as (O1 & O2 & O3 & O4).
      destruct (no_write_left (after_session cf t0 ops l1) l2 HN) as [NW CI]. fold t0 in O1, O2, O3, O4. rewrite NW in O1, O2, O4. cbn [batches map] in O1, O2, O4. rewrite app_nil_r in O1, O2, O4.
      destruct (rest_comes cf f _ w He Hd Hm S1 S2 O1 O2 O3 O4 DA hs bs o q s e Hh Hb Hq Hu) as (w' & r' & X1 & X2 & X3).
      destruct (comes_fwd _ _ _ _ _ Hse X3) as (r & -> & Hr). exists w', r. auto.
  Qed.

  Theorem session_crash_known : (forall l1 l2, l = l1 ++ l2 -> has_all cf t0 (after_session cf t0 ops l1) (next_series cf t0 (after_session cf t0 ops l1) l2)) ->
    exists w rqs1 rqs2 l1 l2 rss, rqs = rqs1 ++ rqs2 /\ l = l1 ++ l2 /\ db_after cf f ops = Some (outcomes cf t0 ops, w) /\
    answered_by n sv z bs0 ch k rqs1 rqs2 rss w /\ session_answered cf t0 z ops l1 rss /\
    exists part, cut_in cf t0 (after_session cf t0 ops l1) l2 part /\ let seen := parts cf t0 (after_session cf t0 ops l1 ++ batches part) in
    forall hs bs o q s e, hasher_ok hs -> bs_contract bs -> Forall lab_ok q -> unmixed hs seen q s e ->
    exists w' r', db_open cf (stopped cf (snd (crash_at dhandler n (serve sv z bs0 ch k rqs) w))) = Some (Ok tt, w') /\
      drun (db_query hs bs o q s e) w' = Some (r', w') /\ comes_to seen q s e r'.
  Proof.
    intros HA.
    apply (session_ends cf f sv z bs0 ch He Hd Hb0 Hh0 rqs l k ops n Hc Hok Ho T
      (fun a l2 v => exists part, cut_in cf t0 a l2 part /\ let seen := parts cf t0 (a ++ batches part) in
        forall hs bs o q s e, hasher_ok hs -> bs_contract bs -> Forall lab_ok q -> unmixed hs seen q s e ->
        exists w' r', db_open cf v = Some (Ok tt, w') /\ drun (db_query hs bs o q s e) w' = Some (r', w') /\ comes_to seen q s e r')).
    - intros l1 m l2 rq k' n2 E Hq. destruct (session_at cf f l ops Ho T Hclk Hpts l1 _ E) as (O1 & O2 & O3 & O4).
      destruct (request_crash_known cf f _ sv z bs0 (ch k') rq m n2 He Hd Hm S1 S2 Hq O1 O2 O3 O4 (HA _ _ E)) as (part & w & X1 & X2 & X3).
      exists w. split; [exact X2|]. exists part. split; [exact X1|exact X3].
    - intros l1 l2 w E HN DA. destruct (session_at cf f l ops Ho T Hclk Hpts l1 _ E) as (O1 & O2 & O3 & O4).
      destruct (no_write_left (after_session cf t0 ops l1) l2 HN) as [NW CI]. fold t0 in O1, O2, O3, O4. rewrite NW in O1, O2, O4. cbn [batches map] in O1, O2, O4. rewrite app_nil_r in O1, O2, O4.
      exists []. split; [now apply CI|]. cbn [batches map]. rewrite app_nil_r. intros seen hs bs o q s e. now apply rest_comes.
  Qed.
End Sessions.
