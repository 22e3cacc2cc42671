(* A process that ends at work on a request, in a directory that cut processes worked on. *)
From Coq Require Import ZifyBool ZifyNat Permutation Sorted.
From Verif Require Import WireSpec.
From Verif Require Import Rust StringProofs Prog Gorilla GorillaSpec Storage StorageSpec StorageProofs Labels IndexSpec Indexer
  LabelProofs Chunk ChunkSpec ChunkProofs ChunkFacts Conc CrashProofs Utils DirSpec DirProofs TiKvInit Db DbSpec DbProofs DbHist RangeSpec RangeProofs DbFacts
  ReopenSpec ReopenProofs OpenProofs CrashOpen CrashKeep StopSpec SearchSpec Proto ProtoSpec Server ServerSpec ServerProofs TornSpec TornProofs TornKnown TornAll TornServeSpec TornServe
  TornLivesSpec TornLives TornManySpec TornMany TornCuts TornReqSpec.
Local Notation length := List.length.

Lemma live_cut_app L y : forall f f0, live_cut L f = Some f0 -> live_cut (L ++ [y]) f = live_cut [y] f0.
Proof.
  induction L as [|x L IH]; intros f f0 H; cbn [app live_cut] in *; [now injection H as ->|].
  destruct (db_after (cl_cf x) f (cl_ops x)) as [[rs w]|]; [|discriminate]. now apply IH.
Qed.
Lemma after_both cf ops1 ops2 : forall w rs w', db_after_from cf (ops1 ++ ops2) w = Some (rs, w') ->
  exists rs1 rs2 w1, db_after_from cf ops1 w = Some (rs1, w1) /\ db_after_from cf ops2 w1 = Some (rs2, w') /\ rs = rs1 ++ rs2 /\ length rs1 = length ops1.
Proof.
  induction ops1 as [|o ops1 IH]; intros w rs w' H; cbn [app db_after_from] in *; [exists [], rs, w; auto|].
  destruct (drun (dop_prog cf o) w) as [[r w1]|]; [|discriminate]. destruct (db_after_from cf (ops1 ++ ops2) w1) as [[rs1 w2]|] eqn:E; [|discriminate].
  assert (rs = r :: rs1) as -> by congruence. assert (w2 = w') as -> by congruence. destruct (IH _ _ _ E) as (ra & rb & w3 & -> & K2 & -> & K4).
  exists (r :: ra), rb, w3. split; [reflexivity|]. split; [exact K2|]. split; [reflexivity|]. cbn [List.length]. now rewrite K4.
Qed.
Lemma cut_len clock : forall L last D D' tick n, Forall2 done_by L D -> Forall2 done_by L D' -> cuts_ok clock tick n last L ->
  length (cut_parts clock tick n (combine L D)) = length (cut_parts clock tick n (combine L D')).
Proof.
  induction L as [|x L IH]; intros last D D' tick n F F' H; inversion F; inversion F'; subst; [reflexivity|].
  cbn [combine cut_parts cuts_ok] in *. destruct H as (_ & _ & _ & _ & H5 & H6 & _ & H8). rewrite !app_length, !marked_length.
  destruct (done_parts _ _ _ H5 H6 H2) as (_ & -> & _). destruct (done_parts _ _ _ H5 H6 H8) as (_ & -> & _) || destruct (done_parts x _ y0 H5 H6 ltac:(assumption)) as (_ & -> & _).
  f_equal. eapply IH; eassumption.
Qed.
Lemma cuts_front clock y : forall L tick n last, cuts_ok clock tick n last (L ++ [y]) -> cuts_ok clock tick n last L.
Proof.
  induction L as [|x L IH]; intros tick n last H; cbn [app cuts_ok] in *; [exact I|]. destruct H as (H1 & H2 & H3 & H4 & H5 & H6 & H7 & H8).
  split; [exact H1|]. split; [exact H2|]. split; [exact H3|]. split; [exact H4|]. split; [exact H5|]. split; [exact H6|]. split; [|eapply IH; exact H8].
  intros _. apply H7. destruct L; discriminate.
Qed.

Theorem request_as_cut f L D cf ops sv z bs ch rq m n : env_ok f -> empty_dir f -> monotone (f_clock f) -> Forall2 done_by L D ->
  forall f' w rs, live_cut L f = Some f' -> db_after cf f' ops = Some (rs, w) ->
  let start := f_clock f (f_ticks f' + length (cut_parts (f_clock f) (f_ticks f) 0 (combine L D)))%nat in
  let S := applied (current_window cf start ops) (wq_series m) in
  let all := L ++ [mkCut cf (ops ++ batches S) None] in
  cuts_ok (f_clock f) (f_ticks f) 0 (-1) all -> timely (cut_written all) -> carries sv z rq (CWrite m) ->
  exists y, within y cf ops S /\ live_cut (L ++ [y]) f = Some (stopped cf (snd (crash_at dhandler n (process sv z bs ch rq) w))).
Proof.
  intros He Hd Hm F f' w rs EL EA start S all HL HT Hc.
  destruct (cuts_refine f L cf (ops ++ batches S) He Hd Hm HL HT) as (D' & f2 & w1 & F' & EL' & E & _).
  assert (f2 = f') as -> by congruence. clear EL'. rewrite (cut_len _ L _ D' D _ _ F' F (cuts_front _ _ _ _ _ _ HL)) in E. fold start in E.
  assert (E0: db_after_from cf (batches S) w = Some (outcomes cf (last_start start ops) (batches S), w1)).
  { unfold db_after in *. destruct (db_open cf f') as [[[[]|er|] w0]|]; try discriminate. destruct (after_both _ _ _ _ _ _ E) as (ra & rb & w2 & K1 & K2 & K3 & K4).
    assert (w2 = w) as -> by congruence. rewrite outcomes_app in K3.
    assert (R: rb = outcomes cf (last_start start ops) (batches S)).
    { assert (Q: skipn (length ops) (outcomes cf start ops ++ outcomes cf (last_start start ops) (batches S)) = skipn (length ops) (ra ++ rb)) by now rewrite K3.
      rewrite <- (outcomes_length cf ops start) in Q at 1. rewrite <- K4 in Q. rewrite !skipn_app, !skipn_all, !Nat.sub_diag in Q. cbn in Q. now symmetry. }
    now rewrite <- R. }
  assert (X: wq_series m = [] \/ wq_series m <> []) by (destruct (wq_series m); [now left|right; discriminate]).
  destruct X as [X|X].
  - exists (mkCut cf ops None). split; [left; split; [unfold S; rewrite X|]; reflexivity|]. rewrite (live_cut_app _ _ _ _ EL). cbn [live_cut cl_cf cl_ops cl_cut]. rewrite EA.
    assert (K: keeps dhandler (fun v => v = w) (process sv z bs ch rq) w).
    { eapply process_write_keeps; [exact Hc|]. rewrite X. now apply keeps_ret. }
    now rewrite (K n).
  - pose proof (write_series_keeps cf (last_start start ops) (wq_series m) X w w1 E0) as K.
    pose proof (process_write_keeps sv z bs ch rq m _ w Hc K n) as (l1 & x & l2 & rs1 & w' & n' & F1 & F2 & F3).
    exists (mkCut cf (ops ++ batches l1) (Some (batch_of x, n'))). split; [right; exists l1, x, l2, n'; split; [exact F1|reflexivity]|].
    rewrite (live_cut_app _ _ _ _ EL). cbn [live_cut cl_cf cl_ops cl_cut].
    assert (EB: db_after cf f' (ops ++ batches l1) = Some (rs ++ rs1, w')).
    { unfold db_after in *. destruct (db_open cf f') as [[[[]|er|] w0]|]; try discriminate. now rewrite (after_app _ _ _ _ _ _ EA), F2. }
    rewrite EB. now rewrite F3.
Qed.

(** ** such a process does what it may *)
Lemma parts_from_batches cf l : forall ops t h, length (parts_from cf t h (ops ++ batches l)) = length (parts_from cf t h ops).
Proof.
  induction ops as [|o ops IH]; intros t h.
  - cbn [app]. revert h. induction l as [|x l IHl]; intros h; [reflexivity|]. cbn [batches map batch_of parts_from]. change (map batch_of l) with (batches l). now rewrite IHl.
  - cbn [app parts_from]. destruct o; [apply IH|apply IH|]. cbn [List.length]. now rewrite IH.
Qed.
Lemma within_prefix y cf ops S : within y cf ops S -> exists l, ops ++ batches S = began y ++ batches l /\ cl_cf y = cf /\ (forall t, last_start t (cl_ops y) = last_start t (ops ++ batches S)) /\
  match cl_cut y with Some (op, _) => exists ls, writes ls op | None => True end.
Proof.
  intros [(-> & ->)|(l1 & x & l2 & n & -> & ->)]; unfold began; cbn [cl_cf cl_ops cl_cut].
  - exists []. split; [reflexivity|]. split; [reflexivity|]. split; [|exact I]. intros t. cbn [batches map]. now rewrite app_nil_r.
  - exists l2. split; [unfold batches; rewrite map_app; cbn [map]; now rewrite <- !app_assoc|]. split; [reflexivity|]. split; [|unfold batch_of, writes; eauto].
    intros t. now rewrite !ServerProofs.last_start_app, !last_start_batches.
Qed.
Lemma cuts_within clock y cf ops S M : within y cf ops S -> forall L tick n last,
  cuts_ok clock tick n last (L ++ mkCut cf (ops ++ batches S) None :: M) -> cuts_ok clock tick n last (L ++ y :: M).
Proof.
  intros W. destruct (within_prefix _ _ _ _ W) as (l & E1 & E2 & E3 & E4).
  induction L as [|x L IH]; intros tick n last H; cbn [app cuts_ok] in *; destruct H as (H1 & H2 & H3 & H4 & H5 & H6 & H7 & H8).
  - unfold began in H5, H7, H8. cbn [cl_cf cl_ops cl_cut] in *. rewrite E2. rewrite <- E3 in H8. rewrite E1 in H5, H7, H8. unfold parts in H8. rewrite parts_from_batches in H8.
    split; [exact H1|]. split; [exact H2|]. split; [exact H3|]. split; [exact H4|]. split; [exact (ops_ok_prefix _ _ _ _ H5)|]. split; [exact E4|]. split; [|exact H8].
    intros NE p Hp. apply (H7 NE). now apply stored_batches.
  - split; [exact H1|]. split; [exact H2|]. split; [exact H3|]. split; [exact H4|]. split; [exact H5|]. split; [exact H6|]. split; [|now apply IH].
    intros _. apply H7. destruct L; discriminate.
Qed.
Lemma written_within y cf ops S L M : within y cf ops S -> subseq (cut_written (L ++ y :: M)) (cut_written (L ++ mkCut cf (ops ++ batches S) None :: M)).
Proof.
  intros W. destruct (within_prefix _ _ _ _ W) as (l & E1 & _). unfold cut_written. rewrite !map_app, !concat_app. apply ss_app; [apply ss_refl|].
  cbn [map concat]. apply ss_app; [|apply ss_refl]. unfold began at 2. cbn [cl_ops cl_cut]. rewrite E1, ServerProofs.written_app.
  rewrite <- (app_nil_r (written (began y))) at 1. apply ss_app; [apply ss_refl|apply ss_any].
Qed.

Theorem after_request f L D cf ops sv z bs0 ch rq m n cf' ops' : env_ok f -> empty_dir f -> monotone (f_clock f) -> Forall2 done_by L D ->
  forall f0 w0 rs, live_cut L f = Some f0 -> db_after cf f0 ops = Some (rs, w0) ->
  let start := f_clock f (f_ticks f0 + length (cut_parts (f_clock f) (f_ticks f) 0 (combine L D)))%nat in
  let S := applied (current_window cf start ops) (wq_series m) in
  let all := L ++ [mkCut cf (ops ++ batches S) None; mkCut cf' ops' None] in
  cuts_ok (f_clock f) (f_ticks f) 0 (-1) all -> timely (cut_written all) -> carries sv z rq (CWrite m) ->
  let f' := stopped cf (snd (crash_at dhandler n (process sv z bs0 ch rq) w0)) in
  exists y D' w, within y cf ops S /\ Forall2 done_by (L ++ [y]) D' /\
    db_after cf' f' ops' = Some (outcomes cf' (f_clock f (f_ticks f' + length (cut_parts (f_clock f) (f_ticks f) 0 (combine (L ++ [y]) D')))%nat) ops', w) /\
    forall hs bs o q s e, let P := cut_parts (f_clock f) (f_ticks f) 0 (combine ((L ++ [y]) ++ [mkCut cf' ops' None]) (D' ++ [[]])) in
      hasher_ok hs -> bs_contract bs -> Forall lab_ok q -> s <= e -> apart_in hs (map snd P) ->
      exists r, drun (db_query hs bs o q s e) w = Some (Ok r, w) /\ answer_torn P q s e r.
Proof.
  intros He Hd Hm F f0 w0 rs EL EA start S all HL HT Hc f'.
  assert (EQ: all = (L ++ [mkCut cf (ops ++ batches S) None]) ++ [mkCut cf' ops' None]) by (unfold all; now rewrite <- app_assoc).
  assert (HL1: cuts_ok (f_clock f) (f_ticks f) 0 (-1) (L ++ [mkCut cf (ops ++ batches S) None])) by (rewrite EQ in HL; exact (cuts_front _ _ _ _ _ _ HL)).
  assert (HT1: timely (cut_written (L ++ [mkCut cf (ops ++ batches S) None]))).
  { rewrite EQ in HT. unfold cut_written in *. rewrite map_app, concat_app in HT. apply (timely_mid [] _ _ HT). }
  destruct (request_as_cut f L D cf ops sv z bs0 ch rq m n He Hd Hm F f0 w0 rs EL EA HL1 HT1 Hc) as (y & W & EY). fold start in W. fold S in W. fold f' in EY.
  assert (HL2: cuts_ok (f_clock f) (f_ticks f) 0 (-1) ((L ++ [y]) ++ [mkCut cf' ops' None])).
  { rewrite <- app_assoc. cbn [app]. exact (cuts_within _ _ _ _ _ _ W _ _ _ _ HL). }
  assert (HT2: timely (cut_written ((L ++ [y]) ++ [mkCut cf' ops' None]))).
  { rewrite <- app_assoc. cbn [app]. intros ls. eapply ss_increasing; [|exact (HT ls)]. apply sub_map, sub_filter, (written_within _ _ _ _ L [mkCut cf' ops' None] W). }
  destruct (cuts_refine f (L ++ [y]) cf' ops' He Hd Hm HL2 HT2) as (D' & f2 & w & F' & EL' & E & Q).
  assert (f2 = f') as -> by congruence. exists y, D', w. split; [exact W|]. split; [exact F'|]. split; [exact E|exact Q].
Qed.
