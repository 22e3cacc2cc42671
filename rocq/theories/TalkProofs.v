(* Proofs about a server in front of a database of any kind. *)
From Coq Require Import Permutation ZifyBool ZifyNat.
From Verif Require Import WireSpec WireMsgs WireWrong.
From Verif Require Import Rust Prog Gorilla GorillaSpec Storage StorageSpec StorageProofs Labels IndexSpec Indexer Chunk ChunkSpec Utils DirSpec Db DbSpec RangeSpec Proto ProtoSpec
  Server ServerSpec AskSpec TalkSpec.
From Verif Require Import StringProofs LabelProofs IndexProofs ChunkProofs ChunkFacts MapProofs DbProofs DbHist DbFacts RangeProofs ServerProofs AskProofs.

Section Any.
  Context {W : Type} (H : handler dcmd W).
  Section Process.
    Variables (sv : server) (z : snappy) (bs : bsearch) (ch : choices).
    Lemma g_bad rq w : rq_content rq = None \/ (exists c, rq_content rq = Some c /\ decompress z c = None) ->
      run H (process sv z bs ch rq) w = Some (Panic, w).
    Proof. intros [E|(c & E1 & E2)]; unfold process; [now rewrite E|now rewrite E1, E2]. Qed.
    Lemma g_other rq w c body : rq_content rq = Some c -> decompress z c = Some body ->
      rq_url rq <> sv_read_path sv -> rq_url rq <> sv_write_path sv ->
      run H (process sv z bs ch rq) w = Some (Ok (empty_response 404), w).
    Proof.
      intros H1 H2 H3 H4. unfold process. rewrite H1, H2.
      rewrite (bytes_eqb_neq _ _ H3), (bytes_eqb_neq _ _ H4). reflexivity.
    Qed.
    Lemma g_read_bad rq w c body : rq_content rq = Some c -> decompress z c = Some body -> rq_url rq = sv_read_path sv ->
      (snd (merge_from read_request_read body read_request_new) = false \/
       nothing_asked (fst (merge_from read_request_read body read_request_new))) ->
      run H (process sv z bs ch rq) w = Some (Ok (empty_response 500), w).
    Proof.
      intros H1 H2 H3 H4. unfold process. rewrite H1, H2, H3, bytes_eqb_refl.
      destruct (merge_from read_request_read body read_request_new) as [m ok]. cbn [fst snd] in *.
      replace (negb ok || (read_request_size m =? 0)) with true; [reflexivity|].
      symmetry. apply orb_true_iff. destruct H4 as [-> | H4]; [left; reflexivity|right]. apply Z.eqb_eq, nothing_asked_size, H4.
    Qed.
    Lemma g_read rq w c body m : rq_content rq = Some c -> decompress z c = Some body -> rq_url rq = sv_read_path sv ->
      merge_from read_request_read body read_request_new = (m, true) -> ~ nothing_asked m ->
      forall r w', run H (server_query bs ch m) w = Some (r, w') ->
      run H (process sv z bs ch rq) w = Some (match r with
                                              | Ok rs => match compress z (read_response_write rs) with Some c => Ok (mkResponse 200 c) | None => Panic end
                                              | Err _ => Ok (empty_response 500)
                                              | Panic => Panic
                                              end, w').
    Proof.
      intros H1 H2 H3 H4 H5 r w' H6. unfold process. rewrite H1, H2, H3, bytes_eqb_refl, H4.
      replace (read_request_size m =? 0) with false.
      - cbn [negb orb]. rewrite run_bind, H6. destruct r; reflexivity.
      - symmetry. apply Z.eqb_neq. intros E. apply H5, nothing_asked_size, E.
    Qed.
    Lemma g_write rq w c body r w' : rq_content rq = Some c -> decompress z c = Some body ->
      rq_url rq = sv_write_path sv -> rq_url rq <> sv_read_path sv ->
      run H (server_write (fst (merge_from write_request_read body write_request_new))) w = Some (r, w') ->
      run H (process sv z bs ch rq) w = Some (match r with Ok _ => Ok (empty_response 200) | Err _ => Ok (empty_response 500) | Panic => Panic end, w').
    Proof.
      intros H1 H2 H3 H4 H5. unfold process. rewrite H1, H2. rewrite (bytes_eqb_neq _ _ H4). rewrite H3, bytes_eqb_refl.
      destruct (merge_from write_request_read body write_request_new) as [m ok]. cbn [fst] in H5. rewrite run_bind, H5. destruct r; reflexivity.
    Qed.
  End Process.

  (* the database: its state after a history, which histories are meant, and what an operation and a query do *)
  Context {D : Type} (step : D -> dop -> D * res unit) (chunks : D -> list part).
  Variables (at_ : list dop -> W -> Prop) (dof : list dop -> D) (ok : list dop -> Prop).
  Hypothesis ok_prefix : forall a b, ok (a ++ b) -> ok a.
  Hypothesis dof_step : forall ops o, dof (ops ++ [o]) = fst (step (dof ops) o).
  Hypothesis writes : forall ops w ls pts, at_ ops w -> ok (ops ++ [OpBatch ls pts]) ->
    exists w', run H (db_write_points ls pts) w = Some (snd (step (dof ops) (OpBatch ls pts)), w') /\ at_ (ops ++ [OpBatch ls pts]) w'.
  Hypothesis no_panic : forall ops o, snd (step (dof ops) o) <> Panic.
  Hypothesis queries : forall ops w hs bs o q s e, at_ ops w -> ok ops -> hasher_ok hs -> bs_contract bs -> Forall lab_ok q -> unmixed hs (chunks (dof ops)) q s e ->
    exists r, run H (db_query hs bs o q s e) w = Some (r, w) /\ comes_to (chunks (dof ops)) q s e r.
  Hypothesis instants : forall ops, ok ops -> forall c ls pts p, In c (chunks (dof ops)) -> In (ls, pts) (snd c) -> In p pts -> u64 (tp_ts p).

  Lemma dof_steps ops more : dof (ops ++ more) = steps step (dof ops) more.
  Proof.
    revert ops. induction more as [|o more IH]; intros ops; [now rewrite app_nil_r|]. change (o :: more) with ([o] ++ more). rewrite app_assoc, IH, dof_step. reflexivity.
  Qed.

  Lemma g_series l : forall ops w, at_ ops w -> ok (ops ++ batches_made step (dof ops) l) ->
    exists r w', run H (write_series l) w = Some (r, w') /\ at_ (ops ++ batches_made step (dof ops) l) w' /\
      (if all_made step (dof ops) l then r = Ok tt else exists e, r = Err e).
  Proof.
    induction l as [|s l IH]; intros ops w A O; cbn [batches_made all_made write_series] in *.
    - rewrite app_nil_r. exists (Ok tt), w. auto.
    - rewrite run_qbind. change (db_write_points (fst (series_of_wire s)) (snd (series_of_wire s))) with (db_write_points (stored_labels s) (map stored_point (ps_samples s))).
      destruct (writes ops w (stored_labels s) (map stored_point (ps_samples s)) A) as (w1 & E1 & A1).
      { refine (ok_prefix _ (match step (dof ops) (batch_of s) with (d', Ok _) => batches_made step d' l | _ => [] end) _). rewrite <- app_assoc. exact O. }
      rewrite E1. fold (batch_of s) in *. pose proof (no_panic ops (batch_of s)) as NP. pose proof (dof_step ops (batch_of s)) as DS.
      destruct (step (dof ops) (batch_of s)) as [d' [u|e|]]; cbn [fst snd] in *; [|exists (Err e), w1; split; [reflexivity|]; split; [exact A1|eauto]|contradiction].
      rewrite <- DS in *. change (batch_of s :: batches_made step (dof (ops ++ [batch_of s])) l) with ([batch_of s] ++ batches_made step (dof (ops ++ [batch_of s])) l) in *. rewrite (app_assoc ops) in *.
      destruct (IH _ w1 A1 O) as (r & w' & E2 & A2 & R). exists r, w'. auto.
  Qed.

  Lemma g_results bs (ch : choices) ops w qs : at_ ops w -> ok ops -> bs_contract bs -> (forall n, hasher_ok (fst (ch n))) -> let l := chunks (dof ops) in
    Forall (query_sane ch l) qs ->
    let bad := exists q p, In q qs /\ In p l /\ crashes p (asked_labels q) (asked_from q) (asked_to q) in
    forall n, exists r, run H (query_results bs ch n qs) w = Some (r, w) /\ (bad /\ r = Panic \/ ~ bad /\ exists rs, r = Ok rs /\ results_for l qs rs).
  Proof.
    intros A O Hb Hh l Hq. cbv zeta. induction qs as [|q qs IH]; intros n.
    - exists (Ok []). split; [reflexivity|]. right. split; [intros (q & p & [] & _)|]. exists []. split; [reflexivity|constructor].
    - apply Forall_cons_iff in Hq as [(Q1 & Q3) Hq]. destruct (IH Hq (S n)) as (rr & R1 & R2).
      destruct (queries ops w (fst (ch n)) bs (snd (ch n)) _ _ _ A O (Hh n) Hb Q1 (Q3 n)) as (ra & A1 & A2).
      fold l in A2. exists (if panics ra then Panic else match rr with Ok rs => Ok (mkQResult (map wire_series (okl ra)) [] :: rs) | Err x => Err x | Panic => Panic end). split.
      { cbn [query_results]. rewrite run_bind.
        change (map from_label_matcher (pq_matchers q)) with (asked_labels q).
        change (wrapu 64 (pq_start q)) with (asked_from q). change (wrapu 64 (pq_end q)) with (asked_to q).
        rewrite A1. destruct A2 as [[_ ->]|(_ & a & -> & _)]; cbn match; [reflexivity|].
        rewrite run_qbind, R1. destruct R2 as [[_ ->]|(_ & rs & -> & _)]; reflexivity. }
      destruct A2 as [[(p & P1 & P2) ->]|(NA & a & -> & A2)].
      + left. split; [|reflexivity]. exists q, p. cbn [In]. auto.
      + destruct R2 as [[(q' & p & P1 & P2) ->]|(NR & rs & -> & R2)].
        * left. split; [|reflexivity]. exists q', p. cbn [In]. tauto.
        * right. split.
          { intros (q' & p & [->|P1] & P2); [apply NA|apply NR]; [exists p|exists q', p]; tauto. }
          eexists. split; [reflexivity|]. constructor; [|assumption].
          exists a. split; [assumption|]. split; [|reflexivity]. cbn [okl qr_series]. apply sent_series_ok.
          intros m pts x H1 H2. destruct A2 as [_ A2]. apply A2 in H1 as [_ ->]. apply in_concat in H2 as (y & Hy & Hx).
          apply in_map_iff in Hy as (c & <- & Hc). unfold piece in Hx. destruct (answers c _ _ _); [|destruct Hx].
          destruct (find _ (snd c)) as [[ls pts]|] eqn:F; [|destruct Hx]. apply find_some in F as [F _]. cbn [snd] in Hx. unfold within in Hx. apply filter_In in Hx as [Hx _].
          eapply instants; eassumption.
  Qed.

  Theorem g_serve sv z bs (ch : nat -> choices) : bs_contract bs -> (forall k n, hasher_ok (fst (ch k n))) ->
    forall rqs l, Forall2 (brings sv z) rqs l -> forall k ops w, at_ ops w -> talk_sane step chunks ch z (dof ops) l -> ok (ops ++ all_ops step (dof ops) l) ->
    exists rss r w' more, run H (serve sv z bs ch k rqs) w = Some ((rss, r), w') /\
      (r = Panic -> forall rest, run H (serve sv z bs ch k (rqs ++ rest)) w = Some ((rss, r), w')) /\
      at_ (ops ++ more) w' /\ talk step chunks z (dof ops) l rss r more.
  Proof.
    intros Hb Hh rqs l HF. induction HF as [|rq v rqs l Hc HF IH]; intros k ops w A S O.
    - exists [], (Ok tt), w, []. rewrite app_nil_r. split; [reflexivity|]. split; [discriminate|]. split; [exact A|]. repeat split; reflexivity.
    - cbn [talk_sane all_ops] in S, O. destruct S as [S1 S2]. rewrite app_assoc in O.
      pose proof (ok_prefix _ _ O) as O1. pose proof (ok_prefix _ _ O1) as O2.
      assert (P: (ends chunks (dof ops) v /\ run H (process sv z bs (ch k) rq) w = Some (Panic, w)) \/
                 (~ ends chunks (dof ops) v /\ exists rs w1, run H (process sv z bs (ch k) rq) w = Some (Ok rs, w1) /\ at_ (ops ++ made step (dof ops) v) w1 /\
                    replied step chunks z (dof ops) v rs)).
      { destruct v as [c| |]; cbn [brings made event_sane ends replied] in *.
        - destruct Hc as (content & body & C1 & C3 & B1 & B2 & C2). destruct c as [m|m|]; cbn [event_sane] in *.
          + destruct C2 as (C2 & C4 & fs & C5 & C6). right. split; [intros []|].
            destruct (g_series (wq_series m) ops w A O1) as (r & w1 & R1 & R2 & R3).
            assert (R1': run H (server_write (fst (merge_from write_request_read body write_request_new))) w = Some (r, w1)).
            { rewrite (taken_write body fs m B1 B2 C5 C6). exact R1. }
            eexists. exists w1. split; [|split; [exact R2|reflexivity]]. rewrite (g_write sv z bs (ch k) rq w content body r w1 C1 C3 C2 C4 R1').
            destruct (all_made _ _ _); [now subst|]. destruct R3 as (e & ->). reflexivity.
          + destruct C2 as (C2 & fs & C5 & C6). destruct S1 as (K3 & K4). pose proof (taken_read body fs m B1 B2 C5 C6) as T.
            destruct (g_results bs (ch k) ops w (rq_queries m) A O2 Hb (Hh k) (K3 k) 0%nat) as (rr & Q1 & Q2). rewrite app_nil_r.
            assert (DD: nothing_asked m \/ ~ nothing_asked m).
            { rewrite <- nothing_asked_size. destruct (Z.eq_dec (read_request_size m) 0); auto. }
            destruct DD as [DD|DD].
            * right. split; [intros (q & p & I & _); destruct DD as (DD & _); rewrite DD in I; destruct I|].
              exists (empty_response 500), w. split; [|split; [exact A|left; auto]].
              apply (g_read_bad sv z bs (ch k) rq w content body C1 C3 C2). right. rewrite T. exact DD.
            * assert (SQ: run H (server_query bs (ch k) m) w = Some (match rr with Ok x => Ok (mkReadResp x []) | Err e => Err e | Panic => Panic end, w)).
              { unfold server_query. rewrite run_qbind, Q1. destruct rr; reflexivity. }
              pose proof (g_read sv z bs (ch k) rq w content body m C1 C3 C2 T DD _ _ SQ) as PR.
              destruct Q2 as [[F ->]|(F & rs & -> & R3)]; cbn match in PR.
              -- left. split; [exact F|exact PR].
              -- right. split; [exact F|]. specialize (K4 rs R3).
                 destruct (compress z (read_response_write (mkReadResp rs []))) as [c'|] eqn:Ec; [|congruence].
                 exists (mkResponse 200 c'), w. split; [exact PR|]. split; [exact A|].
                 right. split; [exact DD|]. split; [reflexivity|]. exists rs. split; [exact Ec|exact R3].
          + destruct C2 as (C2 & C4). right. split; [intros []|]. exists (empty_response 500), w. rewrite app_nil_r. split; [|split; [exact A|reflexivity]].
            apply (g_read_bad sv z bs (ch k) rq w content body C1 C3 C2). left. exact (taken_garbled body B1 B2 C4).
        - destruct Hc as ((content & body & C1 & C2) & C3 & C4). right. split; [intros []|]. rewrite app_nil_r.
          exists (empty_response 404), w. split; [|split; [exact A|reflexivity]]. exact (g_other sv z bs (ch k) rq w content body C1 C2 C3 C4).
        - left. split; [exact I|]. now apply g_bad. }
      destruct P as [(F & P)|(F & rs & w1 & P1 & A1 & P2)].
      + exists [], Panic, w, []. rewrite app_nil_r.
        assert (Z0: forall rqs, run H (serve sv z bs ch k (rq :: rqs)) w = Some (([], Panic), w)).
        { intros x. cbn [serve]. rewrite run_bind, P. reflexivity. }
        split; [apply Z0|]. split; [intros _ x; apply (Z0 (rqs ++ x))|]. split; [exact A|]. left. auto.
      + rewrite <- dof_steps in S2. rewrite <- dof_steps in O.
        destruct (IH (S k) (ops ++ made step (dof ops) v) w1 A1 S2 O) as (rss & r & w' & more & E1 & E2 & E3 & E4).
        exists (rs :: rss), r, w', (made step (dof ops) v ++ more). split; [|split; [|split]].
        * cbn [serve]. rewrite run_bind, P1, run_bind, E1. reflexivity.
        * intros R x. specialize (E2 R x). cbn [serve app]. rewrite run_bind, P1, run_bind, E2. reflexivity.
        * now rewrite app_assoc.
        * cbn [talk]. right. split; [exact F|]. exists rs, rss, more. rewrite dof_steps in E4. auto.
  Qed.
End Any.

(** ** two databases that look the same *)
Section Same.
  Context {D1 D2 : Type} (step1 : D1 -> dop -> D1 * res unit) (step2 : D2 -> dop -> D2 * res unit) (chunks1 : D1 -> list part) (chunks2 : D2 -> list part).
  Variable R : D1 -> D2 -> Prop.
  Hypothesis R_chunks : forall a b, R a b -> chunks1 a = chunks2 b.
  Hypothesis R_step : forall a b s, R a b -> R (fst (step1 a (batch_of s))) (fst (step2 b (batch_of s))) /\ snd (step1 a (batch_of s)) = snd (step2 b (batch_of s)).

  Lemma same_batches l : forall a b, R a b ->
    batches_made step1 a l = batches_made step2 b l /\ all_made step1 a l = all_made step2 b l /\
    R (steps step1 a (batches_made step1 a l)) (steps step2 b (batches_made step2 b l)).
  Proof.
    induction l as [|s l IH]; intros a b H; cbn [batches_made all_made]; [repeat split; exact H|].
    destruct (R_step a b s H) as [H1 H2]. unfold steps in *. cbn [fold_left]. destruct (step1 a (batch_of s)) as [a' r], (step2 b (batch_of s)) as [b' r']. cbn [fst snd] in *.
    subst r'. destruct r as [u|e|]; cbn [fold_left]; [|repeat split; exact H1..]. destruct (IH _ _ H1) as (I1 & I2 & I3). rewrite I1 in *. auto.
  Qed.
  Lemma same_made v a b : R a b -> made step1 a v = made step2 b v /\ R (steps step1 a (made step1 a v)) (steps step2 b (made step2 b v)).
  Proof. intros H. destruct v as [[m|m|]| |]; cbn [made]; try (split; [reflexivity|exact H]). destruct (same_batches (wq_series m) a b H) as (I1 & _ & I3). auto. Qed.
  Lemma same_all l : forall a b, R a b -> all_ops step1 a l = all_ops step2 b l.
  Proof.
    induction l as [|v l IH]; intros a b H; [reflexivity|]. cbn [all_ops]. destruct (same_made v a b H) as [H1 H2]. f_equal; [exact H1|]. now apply IH.
  Qed.
  Lemma same_sane ch z l : forall a b, R a b -> talk_sane step1 chunks1 ch z a l <-> talk_sane step2 chunks2 ch z b l.
  Proof.
    induction l as [|v l IH]; intros a b H; [reflexivity|]. cbn [talk_sane]. rewrite (R_chunks a b H). destruct (same_made v a b H) as [_ H2]. rewrite (IH _ _ H2). reflexivity.
  Qed.
  Lemma same_ends v a b : R a b -> ends chunks1 a v = ends chunks2 b v.
  Proof. intros H. destruct v as [[m|m|]| |]; cbn [ends]; try reflexivity. now rewrite (R_chunks a b H). Qed.
  Lemma same_replied z v rs a b : R a b -> replied step1 chunks1 z a v rs = replied step2 chunks2 z b v rs.
  Proof.
    intros H. destruct v as [[m|m|]| |]; cbn [replied]; try reflexivity; [|now rewrite (R_chunks a b H)].
    destruct (same_batches (wq_series m) a b H) as (_ & -> & _). reflexivity.
  Qed.
  Lemma same_talk z l : forall a b rss r ops, R a b -> talk step1 chunks1 z a l rss r ops <-> talk step2 chunks2 z b l rss r ops.
  Proof.
    induction l as [|v l IH]; intros a b rss r ops H; [reflexivity|]. cbn [talk]. rewrite (same_ends v a b H). destruct (same_made v a b H) as [H1 H2].
    split; (intros [?|(F & rs & rss' & ops' & E1 & E2 & E3 & E4)]; [left; assumption|right; split; [exact F|]; exists rs, rss', ops'; split; [exact E1|]]).
    - split; [congruence|]. rewrite <- (same_replied z v rs a b H). split; [exact E3|]. now apply (IH _ _ _ _ _ H2).
    - split; [congruence|]. rewrite (same_replied z v rs a b H). split; [exact E3|]. now apply (IH _ _ _ _ _ H2).
  Qed.
End Same.
