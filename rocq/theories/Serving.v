(* The server answering requests while the swap thread works. *)
From Coq Require Import ZifyBool ZifyNat Permutation.
From Verif Require Import Rust StringProofs Prog Gorilla GorillaSpec Storage StorageSpec StorageProofs Labels IndexSpec Indexer
  LabelProofs IndexProofs Chunk ChunkSpec ChunkProofs ChunkFacts ConcSpec Conc Utils DirSpec DirProofs TiKvInit Db DbSpec MapProofs
  DbProofs DbHist DbFacts FaultsSpec FaultsProofs FaultsMain SwapSpec SwapProofs SwapConc SwapMain ReadsSpec WritersSpec WritersProofs WritersConc WritersMain
  ReadsMay ReadsCrash ReadsConc ReadsFacts SharedSpec SharedLog SharedConc SharedMay SharedMain SharedFacts SharedAck Script ScriptWork
  Proto ProtoSpec ProtoProofs ProtoRound ProtoCut Server ServerSpec ServerProofs ServingSpec.

(** ** the server as a script *)
Fixpoint sbind {A B} (s : script A) (f : A -> script B) : script B :=
  match s with
  | SRet a => f a
  | SCall v k => SCall v (fun r => sbind (k r) f)
  end.
Lemma peq_sym {C A} (p q : prog C A) : peq p q -> peq q p.
Proof. induction 1; constructor; auto. Qed.
Lemma sprog_bind {A B} (s : script A) (f : A -> script B) : peq (sprog (sbind s f)) (bind (sprog s) (fun a => sprog (f a))).
Proof.
  induction s as [a|v k IH]; cbn [sbind sprog bind]; [apply peq_refl|]. eapply peq_trans; [|apply peq_sym, peq_assoc]. apply peq_bind; [apply peq_refl|exact IH].
Qed.
Lemma follows_bind {A B} (s : script A) (f : A -> script B) : forall ds b, follows (sbind s f) ds (SRet b) ->
  exists d1 a d2, ds = d1 ++ d2 /\ follows s d1 (SRet a) /\ follows (f a) d2 (SRet b).
Proof.
  induction s as [a|v k IH]; intros ds b H; cbn [sbind] in H.
  - exists [], a, ds. split; [reflexivity|]. split; [constructor|exact H].
  - assert (X: match ds with [] => False | existT _ v' r :: ds' => exists E : v = v', follows (sbind (k (match E in _ = y return vres y -> vres v with eq_refl => fun z => z end r)) f) ds' (SRet b) end).
    { refine (match H in follows s ds s' return match s with SCall v k => match s' with SRet b => match ds with [] => False | existT _ v' r :: ds' => exists E : v = v', follows (k (match E in _ = y return vres y -> vres v with eq_refl => fun z => z end r)) ds' (SRet b) end | _ => True end | _ => True end with
       | Fo_end s => _ | Fo_call v k r ds s H' => _ end).
      - destruct s; exact I.
      - destruct s; [|exact I]. exists eq_refl. exact H'. }
    destruct ds as [|[v' r] ds]; [contradiction|]. destruct X as (E & X). subst v'. destruct (IH r ds b X) as (d1 & a & d2 & -> & F1 & F2).
    exists (existT _ v r :: d1), a, d2. split; [reflexivity|]. split; [constructor; exact F1|exact F2].
Qed.
Lemma follows_call {A} v (k : vres v -> script A) ds b : follows (SCall v k) ds (SRet b) -> exists r ds', ds = existT _ v r :: ds' /\ follows (k r) ds' (SRet b).
Proof.
  intros H. change (SCall v k) with (sbind (SCall v (fun r => SRet r)) k) in H.
  assert (X: match ds with [] => False | existT _ v' r :: ds' => exists E : v = v', follows (k (match E in _ = y return vres y -> vres v with eq_refl => fun z => z end r)) ds' (SRet b) end).
  { refine (match H in follows s ds s' return match s with SCall v k => match s' with SRet b => match ds with [] => False | existT _ v' r :: ds' => exists E : v = v', follows (k (match E in _ = y return vres y -> vres v with eq_refl => fun z => z end r)) ds' (SRet b) end | _ => True end | _ => True end with
       | Fo_end s => _ | Fo_call v k r ds s H' => _ end).
    - destruct s; exact I.
    - destruct s; [|exact I]. exists eq_refl. exact H'. }
  destruct ds as [|[v' r] ds]; [contradiction|]. destruct X as (E & X). subst v'. exists r, ds. split; [reflexivity|exact X].
Qed.
Lemma follows_ret {A} (a b : A) ds : follows (SRet a) ds (SRet b) -> ds = [] /\ b = a.
Proof. intros H. inversion H; subst. split; reflexivity. Qed.

Definition server_ask (bs : bsearch) (ch : choices) (n : nat) (q : pquery) : ask :=
  mkAsk (fst (ch n)) bs (snd (ch n)) (asked_labels q) (asked_from q) (asked_to q).
Fixpoint query_script (bs : bsearch) (ch : choices) (n : nat) (qs : list pquery) : script (res (list query_result)) :=
  match qs with
  | [] => SRet (Ok [])
  | q :: qs' => SCall (VAsk (server_ask bs ch n q)) (fun r =>
      match r with
      | Panic => SRet Panic
      | _ => sbind (query_script bs ch (S n) qs') (fun x => SRet
          match x with
          | Ok rest => Ok (mkQResult (map wire_series (match r with Ok l => l | _ => [] end)) [] :: rest)
          | Err e => Err e
          | Panic => Panic
          end)
      end)
  end.
Lemma query_script_ok bs ch qs : forall n, peq (query_results bs ch n qs) (sprog (query_script bs ch n qs)).
Proof.
  induction qs as [|q qs IH]; intros n; [apply peq_refl|]. cbn [query_results query_script sprog]. apply peq_bind; [apply peq_refl|]. intros r.
  assert (G: forall f, peq (let? rest := query_results bs ch (S n) qs in Ret (Ok (f :: rest)))
    (sprog (sbind (query_script bs ch (S n) qs) (fun x => SRet match x with Ok rest => Ok (f :: rest) | Err e => Err e | Panic => Panic end)))).
  { intros f. eapply peq_trans; [|apply peq_sym, sprog_bind]. unfold qbind. apply peq_bind; [apply IH|]. intros [x|e|]; apply peq_refl. }
  destruct r as [l|e|]; [apply G|apply G|apply peq_refl].
Qed.
Fixpoint write_script (l : list pseries) : script (res unit) :=
  match l with
  | [] => SRet (Ok tt)
  | s :: l' => SCall (VWrite (batch_call s)) (fun r => match r with Ok _ => write_script l' | Err e => SRet (Err e) | Panic => SRet Panic end)
  end.
Lemma write_script_ok l : peq (write_series l) (sprog (write_script l)).
Proof.
  induction l as [|s l IH]; [apply peq_refl|]. cbn [write_series write_script sprog]. unfold qbind. apply peq_bind; [apply peq_refl|]. intros [x|e|]; [exact IH|apply peq_refl|apply peq_refl].
Qed.
Definition process_script (z : snappy) (bs : bsearch) (ch : choices) (x : want) : script (res response) :=
  match x with
  | Wants (CRead m) =>
      if read_request_size m =? 0 then SRet (Ok (empty_response 500))
      else sbind (query_script bs ch 0 (rq_queries m)) (fun r => SRet
             match r with
             | Ok l => match compress z (read_response_write (mkReadResp l [])) with Some c => Ok (mkResponse 200 c) | None => Panic end
             | Err _ => Ok (empty_response 500)
             | Panic => Panic
             end)
  | Wants (CWrite m) => sbind (write_script (wq_series m)) (fun r => SRet
      match r with Ok _ => Ok (empty_response 200) | Err _ => Ok (empty_response 500) | Panic => Panic end)
  | Wants CGarbled => SRet (Ok (empty_response 500))
  | Elsewhere => SRet (Ok (empty_response 404))
  | Broken => SRet Panic
  end.
Lemma process_script_ok sv z bs ch rq x : wanting sv z rq x -> peq (process sv z bs ch rq) (sprog (process_script z bs ch x)).
Proof.
  intros Hx. unfold process. destruct x as [[m|m|]| |]; cbn [wanting process_script] in *.
  - destruct Hx as (c & body & -> & -> & B1 & B2 & H1 & H2 & fs & H3 & H4). rewrite (bytes_eqb_neq (rq_url rq) (sv_read_path sv)) by assumption. rewrite H1, bytes_eqb_refl.
    pose proof (taken_write body fs m B1 B2 H3 H4) as R. destruct (merge_from write_request_read body write_request_new) as [m' ok]. cbn [fst] in R. subst m'. eapply peq_trans; [|apply peq_sym, sprog_bind]. apply peq_bind; [apply write_script_ok|]. intros r. apply peq_refl.
  - destruct Hx as (c & body & -> & -> & B1 & B2 & H1 & fs & H3 & H4). rewrite H1, bytes_eqb_refl. rewrite (taken_read body fs m B1 B2 H3 H4). cbn [negb orb].
    destruct (read_request_size m =? 0); [apply peq_refl|]. eapply peq_trans; [|apply peq_sym, sprog_bind]. unfold server_query, qbind. eapply peq_trans; [apply peq_assoc|].
    apply peq_bind; [apply query_script_ok|]. intros [l|e|]; apply peq_refl.
  - destruct Hx as (c & body & -> & -> & B1 & B2 & H1 & H3). rewrite H1, bytes_eqb_refl. pose proof (taken_garbled body B1 B2 H3) as R.
    destruct (merge_from read_request_read body read_request_new) as [m ok]. cbn [snd] in R. subst ok. apply peq_refl.
  - destruct Hx as ((c & -> & Hd) & H1 & H2). destruct (decompress z c); [|contradiction].
    rewrite (bytes_eqb_neq (rq_url rq) (sv_read_path sv)) by assumption. rewrite (bytes_eqb_neq (rq_url rq) (sv_write_path sv)) by assumption. apply peq_refl.
  - destruct Hx as [->|(c & -> & ->)]; apply peq_refl.
Qed.
Fixpoint serve_script (z : snappy) (bs : bsearch) (ch : nat -> choices) (k : nat) (l : list want) : script (list response * res unit) :=
  match l with
  | [] => SRet ([], Ok tt)
  | x :: l' => sbind (process_script z bs (ch k) x) (fun r =>
      match r with
      | Ok rs => sbind (serve_script z bs ch (S k) l') (fun rest => SRet (rs :: fst rest, snd rest))
      | Err e => SRet ([], Err e)
      | Panic => SRet ([], Panic)
      end)
  end.
Lemma serve_script_ok sv z bs ch rqs l : Forall2 (wanting sv z) rqs l -> forall k, peq (serve sv z bs ch k rqs) (sprog (serve_script z bs ch k l)).
Proof.
  induction 1 as [|rq x rqs l Hx H IH]; intros k; [apply peq_refl|]. cbn [serve serve_script]. eapply peq_trans; [|apply peq_sym, sprog_bind].
  apply peq_bind; [eapply process_script_ok; eassumption|]. intros [rs|e|]; [|apply peq_refl|apply peq_refl]. eapply peq_trans; [|apply peq_sym, sprog_bind]. apply peq_bind; [now apply IH|]. intros rest. apply peq_refl.
Qed.

(** ** the calls of a session *)
Lemma points_v_app a b : points_v (a ++ b) = points_v a ++ points_v b.
Proof. unfold points_v. now rewrite map_app, concat_app. Qed.
Definition asks_in (bs : bsearch) (ch : nat -> choices) (qs : list pquery) (V : list vcall) : Prop :=
  forall a, In (VAsk a) V -> exists k n q, In q qs /\ a = server_ask bs (ch k) n q.
Definition queries_of (x : want) : list pquery := match x with Wants (CRead m) => rq_queries m | _ => [] end.

Lemma query_calls bs ch k qs : forall n ds r, follows (query_script bs (ch k) n qs) ds (SRet r) -> points_v (map called ds) = [] /\ asks_in bs ch qs (map called ds).
Proof.
  induction qs as [|q qs IH]; intros n ds r H; cbn [query_script] in H.
  - apply follows_ret in H as [-> _]. split; [reflexivity|intros a []].
  - apply follows_call in H as (x & ds' & -> & H).
    assert (G: points_v (map called ds') = [] /\ asks_in bs ch qs (map called ds')).
    { destruct x as [y|e|].
      - apply follows_bind in H as (d1 & a & d2 & -> & F1 & F2). apply follows_ret in F2 as [-> _]. rewrite app_nil_r. eapply IH; exact F1.
      - apply follows_bind in H as (d1 & a & d2 & -> & F1 & F2). apply follows_ret in F2 as [-> _]. rewrite app_nil_r. eapply IH; exact F1.
      - apply follows_ret in H as [-> _]. split; [reflexivity|intros a []]. }
    destruct G as [G1 G2]. split; [exact G1|]. intros a [Ha|Ha].
    + cbn [called projT1] in Ha. injection Ha as <-. exists k, n, q. split; [now left|reflexivity].
    + destruct (G2 a Ha) as (k' & n' & q' & H1 & H2). exists k', n', q'. split; [now right|exact H2].
Qed.
Lemma write_calls l : forall ds r, follows (write_script l) ds (SRet r) -> subseq (points_v (map called ds)) (concat (map series_points l)) /\ forall a, ~ In (VAsk a) (map called ds).
Proof.
  induction l as [|s l IH]; intros ds r H; cbn [write_script] in H.
  - apply follows_ret in H as [-> _]. split; [constructor|intros a []].
  - apply follows_call in H as (x & ds' & -> & H).
    assert (G: subseq (points_v (map called ds')) (concat (map series_points l)) /\ forall a, ~ In (VAsk a) (map called ds')).
    { destruct x as [y|e|]; [eapply IH; exact H| |]; apply follows_ret in H as [-> _]; (split; [apply ss_any|intros a []]). }
    destruct G as [G1 G2]. split; [|intros a [Ha|Ha]; [discriminate|exact (G2 a Ha)]].
    cbn [map called projT1 concat]. change (VWrite (batch_call s) :: map called ds') with ([VWrite (batch_call s)] ++ map called ds'). rewrite points_v_app. apply ss_app; [|exact G1].
    unfold points_v. cbn [map concat call_points batch_call]. rewrite app_nil_r. apply ss_refl.
Qed.
Lemma process_calls z bs ch k x ds r : follows (process_script z bs (ch k) x) ds (SRet r) -> subseq (points_v (map called ds)) (want_points x) /\ asks_in bs ch (queries_of x) (map called ds).
Proof.
  destruct x as [[m|m|]| |]; cbn [process_script want_points queries_of]; intros H.
  - apply follows_bind in H as (d1 & a & d2 & -> & F1 & F2). apply follows_ret in F2 as [-> _]. rewrite app_nil_r. destruct (write_calls _ _ _ F1) as [G1 G2]. split; [exact G1|]. intros y Hy. now apply G2 in Hy.
  - destruct (read_request_size m =? 0); [apply follows_ret in H as [-> _]; split; [constructor|intros a []]|].
    apply follows_bind in H as (d1 & a & d2 & -> & F1 & F2). apply follows_ret in F2 as [-> _]. rewrite app_nil_r. destruct (query_calls bs ch k _ _ _ _ F1) as [G1 G2]. split; [rewrite G1; constructor|exact G2].
  - apply follows_ret in H as [-> _]. split; [constructor|intros a []].
  - apply follows_ret in H as [-> _]. split; [constructor|intros a []].
  - apply follows_ret in H as [-> _]. split; [constructor|intros a []].
Qed.
Lemma serve_calls z bs ch l : forall k ds r, follows (serve_script z bs ch k l) ds (SRet r) -> subseq (points_v (map called ds)) (all_points l) /\ asks_in bs ch (concat (map queries_of l)) (map called ds).
Proof.
  induction l as [|x l IH]; intros k ds r H; cbn [serve_script] in H.
  - apply follows_ret in H as [-> _]. split; [constructor|intros a []].
  - apply follows_bind in H as (d1 & a & d2 & -> & F1 & F2). destruct (process_calls _ _ _ _ _ _ _ F1) as [G1 G2].
    assert (K: subseq (points_v (map called d2)) (all_points l) /\ asks_in bs ch (concat (map queries_of l)) (map called d2)).
    { destruct a as [rs|e|]; [|apply follows_ret in F2 as [-> _]; split; [apply ss_any|intros a []]|apply follows_ret in F2 as [-> _]; split; [apply ss_any|intros a []]].
      apply follows_bind in F2 as (d3 & a & d4 & -> & F3 & F4). apply follows_ret in F4 as [-> _]. rewrite app_nil_r. eapply IH; exact F3. }
    destruct K as [K1 K2]. rewrite map_app, points_v_app. cbn [map concat]. unfold all_points. cbn [map concat]. split; [apply ss_app; assumption|].
    intros y Hy. apply in_app_or in Hy as [Hy|Hy]; [destruct (G2 y Hy) as (k' & n & q & H1 & H2)|destruct (K2 y Hy) as (k' & n & q & H1 & H2)]; exists k', n, q; (split; [apply in_app_iff; auto|exact H2]).
Qed.

(** ** what the calls of a session met *)
Lemma query_turns chunks_of bs ch qs : forall n ds r before ts, follows (query_script bs ch n qs) ds (SRet r) -> turns_of chunks_of before ts ds ->
  (exists l, r = Ok l /\ results_in chunks_of before qs (concat ts) l) \/ (r = Panic /\ crash_in chunks_of before qs (concat ts)).
Proof.
  induction qs as [|q qs IH]; intros n ds r before ts H T; cbn [query_script] in H.
  - apply follows_ret in H as [-> ->]. destruct ts; [|contradiction]. left. exists []. split; [reflexivity|constructor].
  - apply follows_call in H as (x & ds' & -> & H). destruct ts as [|t ts]; [contradiction|]. destruct T as [(T1 & [[T2 T3]|(T0 & a & T2 & T3 & T4)]) T5]; cbn [projT2] in T2, T3.
    + subst x. apply follows_ret in H as [-> ->]. destruct ts; [|contradiction]. right. split; [reflexivity|]. cbn [concat]. rewrite app_nil_r. change t with ([] ++ t). change (q :: qs) with ([] ++ q :: qs).
      apply (Ci_query chunks_of before [] q qs [] t []); [constructor|exact T1|]. rewrite app_nil_r. exact T2.
    + subst x. apply follows_bind in H as (d1 & y & d2 & -> & F1 & F2). apply follows_ret in F2 as [-> ->]. rewrite app_nil_r in T5. destruct (IH _ _ _ _ _ F1 T5) as [(l & -> & R)|[-> R]].
      * left. eexists. split; [reflexivity|]. cbn [concat]. eapply Ri_query; [exact T1|exact T0|exact T3| |reflexivity|exact R]. cbn [qr_series]. now apply sent_series_ok.
      * right. split; [reflexivity|]. cbn [concat]. inversion R as [? qs1 q' qs2 turn more l R1 R2 R3 E1 E2 E3]; subst. rewrite app_assoc. change (q :: qs1 ++ q' :: qs2) with ((q :: qs1) ++ q' :: qs2).
        eapply Ci_query; [|exact R2|rewrite app_assoc; exact R3]. apply (Ri_query chunks_of before q qs1 t turn a (mkQResult (map sent_series a) []) l T1 T0 T3 eq_refl eq_refl R1).
Qed.
Lemma write_turns chunks_of l : forall ds r before ts, follows (write_script l) ds (SRet r) -> turns_of chunks_of before ts ds ->
  exists ok, written_in l (concat ts) ok /\ match r with Ok _ => ok = true | Err _ => ok = false | Panic => False end.
Proof.
  induction l as [|s l IH]; intros ds r before ts H T; cbn [write_script] in H.
  - apply follows_ret in H as [-> ->]. destruct ts; [|contradiction]. exists true. split; [constructor|reflexivity].
  - apply follows_call in H as (x & ds' & -> & H). destruct ts as [|t ts]; [contradiction|]. destruct T as [T1 T5]. change (session [batch_call s] (of_thread 1 t) [x]) in T1. destruct x as [[]|e|].
    + destruct (IH _ _ _ _ H T5) as (ok & W & Eok). exists ok. split; [|exact Eok]. cbn [concat]. now constructor.
    + apply follows_ret in H as [-> ->]. destruct ts; [|contradiction]. exists false. split; [|reflexivity]. cbn [concat]. rewrite app_nil_r. econstructor. exact T1.
    + exfalso. unfold batch_call in T1. inversion T1 as [| |ls pts us cs es rs L H2 E1 E2 E3]; subst. destruct (existsb is_err us); discriminate.
Qed.
Lemma serve_turns chunks_of z bs ch l : forall k ds rss r before ts, follows (serve_script z bs ch k l) ds (SRet (rss, r)) -> turns_of chunks_of before ts ds ->
  conversation chunks_of z before l (concat ts) rss r.
Proof.
  induction l as [|x l IH]; intros k ds rss r before ts H T; cbn [serve_script] in H.
  - apply follows_ret in H as [-> E]. injection E as -> ->. destruct ts; [|contradiction]. constructor.
  - apply follows_bind in H as (d1 & a & d2 & -> & F1 & F2). apply turns_of_app in T as (t1 & t2 & -> & T1 & T2). rewrite concat_app.
    assert (REST: forall rs, a = Ok rs -> exists rss', rss = rs :: rss' /\ conversation chunks_of z (before ++ concat t1) l (concat t2) rss' r).
    { intros rs ->. apply follows_bind in F2 as (d3 & [rss' r'] & d4 & -> & F3 & F4). apply follows_ret in F4 as [-> E]. cbn [fst snd] in E. injection E as -> ->. rewrite app_nil_r in T2. exists rss'. split; [reflexivity|]. eapply IH; [exact F3|exact T2]. }
    assert (STOP: a = Panic -> rss = [] /\ r = Panic /\ t2 = []).
    { intros ->. apply follows_ret in F2 as [-> E]. injection E as -> ->. destruct t2; [auto|contradiction]. }
    clear F2. destruct x as [[m|m|]| |]; cbn [process_script] in F1.
    + apply follows_bind in F1 as (d3 & y & d4 & -> & F3 & F4). apply follows_ret in F4 as [-> ->]. rewrite app_nil_r in T1. destruct (write_turns chunks_of _ _ _ _ _ F3 T1) as (ok & W & Eok).
      destruct y as [u|e|]; [| |contradiction]; subst ok; destruct (REST _ eq_refl) as (rss' & -> & C).
      * exact (Co_write chunks_of z before m l _ _ true rss' r W C).
      * exact (Co_write chunks_of z before m l _ _ false rss' r W C).
    + destruct (Z.eqb_spec (read_request_size m) 0) as [Z0|Z0].
      * apply follows_ret in F1 as [-> ->]. destruct t1; [|contradiction]. destruct (REST _ eq_refl) as (rss' & -> & C). cbn [concat app] in *. rewrite app_nil_r in C. apply Co_nothing; [now apply nothing_asked_size|exact C].
      * assert (NA: ~ nothing_asked m) by (rewrite <- nothing_asked_size; exact Z0).
        apply follows_bind in F1 as (d3 & y & d4 & -> & F3 & F4). apply follows_ret in F4 as [-> ->]. rewrite app_nil_r in T1. destruct (query_turns chunks_of _ _ _ _ _ _ _ _ F3 T1) as [(q & -> & R)|[-> R]]; [|destruct (STOP eq_refl) as (-> & -> & ->); cbn [concat]; rewrite app_nil_r; exact (Co_crash chunks_of z before m l _ NA R)].
        destruct (compress z (read_response_write (mkReadResp q []))) as [body|] eqn:Ec.
        -- destruct (REST _ eq_refl) as (rss' & -> & C). exact (Co_read chunks_of z before m l _ _ q body rss' r NA R Ec C).
        -- destruct (STOP eq_refl) as (-> & -> & ->). cbn [concat]. rewrite app_nil_r. exact (Co_large chunks_of z before m l _ q NA R Ec).
    + apply follows_ret in F1 as [-> ->]. destruct t1; [|contradiction]. destruct (REST _ eq_refl) as (rss' & -> & C). cbn [concat app] in *. rewrite app_nil_r in C. apply Co_garbled. exact C.
    + apply follows_ret in F1 as [-> ->]. destruct t1; [|contradiction]. destruct (REST _ eq_refl) as (rss' & -> & C). cbn [concat app] in *. rewrite app_nil_r in C. apply Co_other. exact C.
    + apply follows_ret in F1 as [-> ->]. destruct t1; [|contradiction]. destruct (STOP eq_refl) as (-> & -> & ->). constructor.
Qed.

(** ** all together *)
Lemma interleave_peq {C W A} (h : handler C W) s : forall (ts us : list (prog C A)) w, Forall2 peq ts us ->
  Forall2 peq (fst (interleave h s ts w)) (fst (interleave h s us w)) /\ snd (interleave h s ts w) = snd (interleave h s us w).
Proof.
  induction s as [|i s IH]; intros ts us w F; [split; [exact F|reflexivity]|]. cbn [interleave].
  assert (N: match nth_error ts i, nth_error us i with Some p, Some q => peq p q | None, None => True | _, _ => False end).
  { clear - F. revert i. induction F as [|p q ts us H F IHf]; intros [|i]; cbn [nth_error]; auto. apply IHf. }
  destruct (nth_error ts i) as [p|], (nth_error us i) as [q|]; try contradiction; [|now apply IH].
  assert (U: forall p' q', peq p' q' -> Forall2 peq (upd ts i p') (upd us i q')).
  { clear - F. revert i. induction F as [|p q ts us H F IHf]; intros [|i] p' q' Hpq; cbn [upd]; [constructor|constructor|constructor; assumption|constructor; [exact H|now apply IHf]]. }
  destruct N as [a|X c k k' Hk]; cbn [step]; [now apply IH|]. destruct (h X c w) as [[x w']|]; [|now apply IH]. apply IH, U, Hk.
Qed.
Local Notation vok cf := (WritersConc.vok (good cf) fok).
Theorem served cf (old : list part) t0 ops rs0 starts w00 w sv z bs ch rqs l sched p0 rss r v :
  fstate cf w00 (old ++ [(the_chunk cf t0, [])]) t0 -> vok cf w00 -> Forall part_ok old -> ops_ok cf t0 ops -> db_after_from cf ops w00 = Some (rs0, w) ->
  starts_ok cf (last_start t0 ops) (map OpSwap starts) ->
  bs_contract bs -> (forall k n, hasher_ok (fst (ch k n))) -> Forall2 (wanting sv z) rqs l -> wants_ok ch cf old ops l ->
  interleave dhandler sched (at_work cf starts sv z bs ch rqs) w = ([p0; Ret (Served (rss, r))], v) ->
  exists turns post, conversation (fun log => old ++ chunks_after cf t0 ops rs0 log) z [] l turns rss r /\
    let log := turns ++ post in
    Forall (fun e => e_who e <= 1)%nat log /\ of_thread 1 post = [] /\
    (exists v', one_by_one cf log w v' /\ (finished p0 -> v' = v)) /\
    (exists rest rs, rotations starts (of_thread 0 log ++ rest) rs /\ forall x, p0 = Ret x -> rest = [] /\ x = Swaps (Rotated rs)) /\
    reported cf t0 (ops ++ map e_op log) (rs0 ++ map e_res log).
Proof.
  intros Hstart Hvok Hold Hops Hafter Hstarts Hbs Hhs Hwant (W1 & W2 & W3 & W4) Hrun.
  assert (P: Forall2 peq (at_work cf starts sv z bs ch rqs) [bind (rotator cf starts) (fun x => Ret (Swaps x)); bind (sprog (serve_script z bs ch 0 l)) (fun x => Ret (Served x))]).
  { constructor; [apply peq_refl|]. constructor; [|constructor]. apply peq_bind; [eapply serve_script_ok; eassumption|]. intros a. apply peq_refl. }
  destruct (interleave_peq dhandler sched _ _ w P) as [I1 I2]. rewrite Hrun in I1, I2. cbn [fst snd] in I1, I2.
  destruct (interleave dhandler sched [bind (rotator cf starts) (fun x => Ret (Swaps x)); bind (sprog (serve_script z bs ch 0 l)) (fun x => Ret (Served x))] w) as [us v2] eqn:Eu. cbn [fst snd] in I1, I2. subst v2.
  inversion I1 as [|? q0 ? ? Q0 I3]; subst. inversion I3 as [|? q1 ? ? Q1 I4]; subst. inversion I4; subst. apply peq_sym in Q1. apply peq_ret_inv in Q1. subst q1.
  destruct (script_run cf old t0 ops rs0 starts w00 w (serve_script z bs ch 0 l) Swaps Served sched q0 (rss, r) v) as (ds & turns & post & F & T & L1 & L2 & (v' & L3 & L3') & (rest & rs & L4 & L4') & L5); try assumption.
  - intros x y E. now injection E.
  - intros ds F. destruct (serve_calls _ _ _ _ _ _ _ F) as [C1 C2]. unfold calls_fit.
    split; [|split; [|split]].
    + rewrite Forall_forall in *. intros y Hy. apply W2. eapply ss_in; [exact C1|exact Hy].
    + assert (length (points_v (map called ds)) <= length (all_points l))%nat by (clear - C1; induction C1; cbn [length]; lia). lia.
    + destruct W4 as [W4|W4]; [left|now right]. eapply timely_sub; [|exact W4]. apply ss_app; [apply ss_refl|exact C1].
    + intros a Ha. destruct (C2 a Ha) as (k & n & q & Hq & ->). apply in_concat in Hq as (qs & Hqs & Hq). apply in_map_iff in Hqs as (x & <- & Hx). rewrite Forall_forall in W1. specialize (W1 x Hx).
      destruct x as [[m|m|]| |]; try contradiction. cbn [queries_of want_ok] in *. rewrite Forall_forall in W1. destruct (W1 q Hq) as (A1 & A3).
      split; [split; [apply Hhs|split; [exact Hbs|exact A1]]|]. cbn [server_ask k_labels k_hs]. refine (apart_less _ _ _ _ (A3 k n)). intros mm (y & Hy & Hy2 & ->). exists y. split; [|auto]. revert Hy;
        (apply incl_app_app; [apply incl_refl|]; intros u Hu; apply in_map_iff in Hu as (pt & <- & Hpt); apply in_map; apply in_app_or in Hpt as [Hpt|Hpt]; apply in_app_iff; [now left|right; eapply ss_in; [exact C1|exact Hpt]]).
  - exists (concat turns), post. split; [eapply serve_turns; [exact F|exact T]|]. cbv zeta in *. split; [exact L1|]. split; [exact L2|]. split; [|split; [|exact L5]].
    + exists v'. split; [exact L3|]. intros (x & ->). apply L3'. apply peq_sym, peq_ret_inv in Q0. exists x. exact Q0.
    + exists rest, rs. split; [exact L4|]. intros x ->. apply L4'. apply peq_sym, peq_ret_inv in Q0. exact Q0.
Qed.
