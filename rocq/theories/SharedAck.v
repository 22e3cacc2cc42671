(* What was acknowledged before a query is in its answer. *)
From Coq Require Import ZifyBool ZifyNat Permutation Sorted.
From Verif Require Import Rust StringProofs Prog Gorilla GorillaSpec Storage StorageSpec StorageProofs Labels IndexSpec Indexer
  LabelProofs IndexProofs Chunk ChunkSpec ChunkProofs ChunkFacts ConcSpec Conc Utils DirSpec DirProofs TiKvInit Db DbSpec MapProofs
  DbProofs DbHist DbFacts FaultsSpec FaultsProofs FaultsMain SwapSpec SwapProofs SwapConc SwapMain WritersSpec WritersProofs WritersConc WritersMain
  ReadsSpec ReadsMay ReadsCrash ReadsConc ReadsFacts SharedSpec SharedLog SharedConc SharedMay SharedMain SharedFacts.

(** ** a point accepted is stored *)
Lemma add_keeps st A ls p : set_ok ls -> Forall (fun e => set_ok (fst e) /\ (same_setb (fst e) ls = true -> ChunkSpec.keeps st (snd e) p = true)) A ->
  exists ls' pts, In (ls', pts) (add_point st A ls p) /\ same_set ls' ls /\ In p pts.
Proof.
  intros Hls H. induction H as [|[l q] A [Hl Hk] H IH]; cbn [add_point].
  - exists ls, [p]. split; [now left|]. split; [apply Permutation_refl|now left].
  - cbn [fst snd] in *. destruct (same_setb l ls) eqn:Q.
    + rewrite (Hk eq_refl). exists l, (q ++ [p]). split; [left; reflexivity|]. split; [|apply in_app_iff; right; now left].
      apply same_setb_spec in Q; [assumption|apply Hl|apply Hls].
    + destruct IH as (ls' & pts & H1 & H2). exists ls', pts. split; [now right|assumption].
Qed.
Lemma increasing_last st pts p : increasing (pts ++ [p]) -> ChunkSpec.keeps st pts p = true.
Proof.
  intros H. destruct st as [|i]; [reflexivity|]. cbn [ChunkSpec.keeps]. destruct pts as [|q pts]; [reflexivity|]. destruct (@exists_last _ (q :: pts) ltac:(discriminate)) as (l & x & E). rewrite E, last_last.
  rewrite E in H. rewrite <- app_assoc in H. cbn [app] in H. clear E. induction l as [|y l IH]; cbn [app] in H.
  - cbn [increasing] in H. destruct H as [H _]. inversion H; subst. lia.
  - cbn [increasing] in H. apply IH, H.
Qed.
Lemma content_ack ch h ls p : Forall ireq_ok (h ++ [(ls, p)]) -> timely (h ++ [(ls, p)]) -> in_windowb ch (tp_ts p) = true ->
  exists ls' pts, In (ls', pts) (content_of ch (h ++ [(ls, p)])) /\ same_set ls' ls /\ In p pts.
Proof.
  intros H T W. apply Forall_app in H as [H Hr]. inversion Hr as [|? ? [K1 K2] _]; subst. cbn [fst snd] in *. rewrite content_snoc. unfold ins. cbn [fst snd]. rewrite W.
  apply add_keeps; [exact K1|]. apply Forall_forall. intros [l q] Hin. cbn [fst snd]. pose proof (content_sound ch h H _ _ Hin) as [Hl _]. split; [exact Hl|].
  intros Q. apply increasing_last. apply same_setb_sym in Q; [|assumption|assumption].
  pose proof (content_sub ch h H _ _ Hin) as SB. specialize (T l). change (increasing (of_set l (h ++ [(ls, p)]))) in T. rewrite of_set_app in T.
  unfold of_set at 2 in T. cbn [filter fst] in T. rewrite Q in T. cbn [map snd] in T. eapply ss_increasing; [|exact T]. apply ss_app; [exact SB|apply ss_refl].
Qed.
Lemma parts_point cf ls p ops : forall t h, exists l0 a h', h ++ written ops = a ++ h' /\
  parts_from cf t h (ops ++ [OpPoint ls p]) = l0 ++ [(the_chunk cf (last_start t ops), content_of (the_chunk cf (last_start t ops)) (h' ++ [(ls, p)]))].
Proof.
  induction ops as [|[ls' p'|ls' pts|st'] ops IH]; intros t h; cbn [parts_from last_start app written].
  - exists [], [], h. rewrite app_nil_r. auto.
  - destruct (IH t (h ++ [(ls', p')])) as (l0 & a & h' & E1 & E2). exists l0, a, h'. rewrite <- app_assoc in E1. auto.
  - destruct (IH t (h ++ map (pair ls') pts)) as (l0 & a & h' & E1 & E2). exists l0, a, h'. rewrite <- app_assoc in E1. auto.
  - destruct (IH st' []) as (l0 & a & h' & E1 & E2). cbn [app] in E1. exists ((the_chunk cf t, content_of (the_chunk cf t) h) :: l0), (h ++ a), h'. rewrite E1, E2, <- app_assoc. auto.
Qed.
Lemma reported_at cf ls p x o2 r2 o1 : forall t r1, length r1 = length o1 -> reported cf t (o1 ++ OpPoint ls p :: o2) (r1 ++ x :: r2) ->
  x = outcome (the_chunk cf (last_start t (performed o1 r1))) (OpPoint ls p).
Proof.
  induction o1 as [|o o1 IH]; intros t [|r r1] L H; try discriminate; [apply H|]. cbn in L. injection L as L. cbn [app reported] in H. cbn [performed].
  destruct o as [l q|l pts|s]; [apply IH; [exact L|apply H]|apply IH; [exact L|apply H]|]. destruct r as [u|er|]; [|apply IH; [exact L|apply H]|contradiction]. cbn [last_start]. apply IH; [exact L|apply H].
Qed.
Lemma performed_pts ops : forall rs, length rs = length ops -> written (performed ops rs) = written ops.
Proof.
  induction ops as [|[ls p|ls pts|st] ops IH]; intros [|r rs] L; try discriminate; [reflexivity| | |]; cbn in L; injection L as L; cbn [performed written]; try now rewrite (IH _ L).
  destruct r; cbn [written]; now rewrite (IH _ L).
Qed.
(* o1, then the point accepted, then o2 *)
Lemma stored cf t0 ls p x o1 r1 o2 r2 : length r1 = length o1 -> Forall ireq_ok (written o1 ++ [(ls, p)]) -> timely (written o1 ++ [(ls, p)]) ->
  outcome (the_chunk cf (last_start t0 (performed o1 r1))) (OpPoint ls p) = Ok tt ->
  exists j c A ls' pts, nth_error (parts cf t0 (performed (o1 ++ OpPoint ls p :: o2) (r1 ++ x :: r2))) j = Some (c, A) /\ In (ls', pts) A /\ same_set ls' ls /\ In p pts /\
    in_window c (tp_ts p).
Proof.
  intros L HO HT OK. change (OpPoint ls p :: o2) with ([OpPoint ls p] ++ o2). change (x :: r2) with ([x] ++ r2). rewrite performed_app by exact L. rewrite performed_app by reflexivity.
  assert (performed [OpPoint ls p] [x] = [OpPoint ls p]) as -> by (destruct x; reflexivity). rewrite app_assoc.
  set (a := performed o1 r1) in *. destruct (parts_point cf ls p a t0 []) as (l0 & z & h & E1 & E2). cbn [app] in E1.
  assert (EW: written a = written o1) by (now apply performed_pts). rewrite EW in E1. cbn [outcome] in OK.
  destruct (in_windowb (the_chunk cf (last_start t0 a)) (tp_ts p)) eqn:W; [|discriminate].
  destruct (content_ack (the_chunk cf (last_start t0 a)) h ls p) as (ls' & pts & H1 & H2 & H3).
  - rewrite E1, <- app_assoc in HO. now apply Forall_app in HO.
  - rewrite E1, <- app_assoc in HT. apply (timely_mid z _ []). now rewrite app_nil_r.
  - exact W.
  - destruct (parts_below cf (a ++ [OpPoint ls p]) (performed o2 r2) t0 [] (length l0) (the_chunk cf (last_start t0 a)) (content_of (the_chunk cf (last_start t0 a)) (h ++ [(ls, p)]))) as (A & N & G).
    { rewrite E2. rewrite nth_error_app2, Nat.sub_diag by lia. reflexivity. }
    apply In_nth_error in H1 as (n & H1). destruct (G _ _ _ H1) as (pts' & N' & (more & ->)).
    exists (length l0), (the_chunk cf (last_start t0 a)), A, ls', (pts ++ more). split; [exact N|]. split; [eapply nth_error_In; exact N'|]. split; [exact H2|]. split; [apply in_app_iff; now left|].
    now apply in_window_spec.
Qed.

(** ** the answer *)
Lemma content_from ch h : forall ls pts, In (ls, pts) (content_of ch h) -> exists p, In (ls, p) h.
Proof.
  induction h as [|[l q] h IH] using rev_ind; intros ls pts Hin; [contradiction|]. rewrite content_snoc in Hin. unfold ins in Hin. cbn [fst snd] in Hin.
  assert (X: (exists pts', In (ls, pts') (content_of ch h)) \/ ls = l).
  { destruct (in_windowb ch (tp_ts q)); [|left; eauto]. apply In_add in Hin as [Hin|[(p0 & Hin & _)|[-> _]]]; eauto. }
  destruct X as [(pts' & X)| ->]; [destruct (IH _ _ X) as (p & Hp); exists p; apply in_app_iff; now left|exists q; apply in_app_iff; right; now left].
Qed.
Lemma log_written starts cs log r : log_of starts cs log -> In r (written (map e_op log)) -> In r (concat (map points_of cs)).
Proof.
  intros [L1 L2 L3] Hr.
  assert (X: exists e, In e log /\ In r (written [e_op e])).
  { clear - Hr. induction log as [|e log IH]; [contradiction|]. cbn [map] in Hr. change (e_op e :: map e_op log) with ([e_op e] ++ map e_op log) in Hr. rewrite written_cat in Hr.
    apply in_app_or in Hr as [Hr|Hr]; [exists e; split; [now left|exact Hr]|]. destruct (IH Hr) as (x & H1 & H2). exists x. split; [now right|exact H2]. }
  destruct X as (e & He & Hr'). pose proof (of_thread_in e log He) as Ho. apply (in_map fst) in Ho. cbn [fst] in Ho. rewrite Forall_forall in L3. pose proof (L3 e He) as Le. destruct (e_who e) as [|i].
  - destruct L1 as (er & rr & L1). apply rotations_swaps in L1 as (sx & L1). rewrite map_app in L1.
    assert (In (e_op e) (map OpSwap starts)) as X by (rewrite L1; apply in_app_iff; left; apply in_app_iff; now left). apply in_map_iff in X as (s & Es & _). rewrite <- Es in Hr'. contradiction.
  - destruct (nth_error cs i) as [c|] eqn:Ec; [|apply nth_error_None in Ec; lia]. destruct (L2 i c Ec) as (es & rs & HS). apply session_written in HS. rewrite map_app, written_cat in HS.
    apply in_concat. exists (points_of c). split; [apply in_map_iff; exists c; split; [reflexivity|eapply nth_error_In; exact Ec]|]. rewrite <- HS. apply in_app_iff. left.
    apply in_split in Ho as (a & b & ->). change (e_op e :: b) with ([e_op e] ++ b). rewrite !written_cat. apply in_app_iff. right. apply in_app_iff. now left.
Qed.
Lemma ss_filter_mono {T} (f : T -> bool) a b : subseq a b -> subseq (filter f a) (filter f b).
Proof. induction 1 as [|x a b H IH|x a b H IH]; cbn [filter]; [constructor| |]; destruct (f x); try exact IH; [now apply ss_skip|now apply ss_take]. Qed.
Lemma ss_map {T U} (f : T -> U) a b : subseq a b -> subseq (map f a) (map f b).
Proof. induction 1; cbn [map]; constructor; assumption. Qed.
Lemma timely_sub a b : subseq a b -> timely b -> timely a.
Proof. intros H T ls. eapply ss_increasing; [|exact (T ls)]. apply ss_map, ss_filter_mono, H. Qed.
Lemma written_sub a b : subseq a b -> subseq (written a) (written b).
Proof.
  induction 1 as [|x a b H IH|x a b H IH]; [constructor| |].
  - change (x :: b) with ([x] ++ b). rewrite written_cat. change (written a) with ([] ++ written a). apply ss_app; [apply ss_any|exact IH].
  - change (x :: b) with ([x] ++ b). change (x :: a) with ([x] ++ a). rewrite !written_cat. apply ss_app; [apply ss_refl|exact IH].
Qed.
Lemma session_at c es rs ls p m : session c es rs -> nth_error c m = Some (WPoint ls p) -> nth_error rs m = Some (Ok tt) -> In (OpPoint ls p, Ok tt) es.
Proof.
  intros H. revert m. induction H as [|l q r cs es rs H IH|l pts us cs es rs L H IH]; intros [|m] H1 H2; try discriminate; cbn [nth_error] in *.
  - injection H1 as -> ->. injection H2 as ->. now left.
  - right. eapply IH; eassumption.
  - apply in_app_iff. right. eapply IH; eassumption.
Qed.

(* the point is in one of the chunks *)
Definition kept_in (l : list part) (ls : list label) (p : tp) : Prop :=
  exists c A ls' pts, In (c, A) l /\ In (ls', pts) A /\ same_set ls' ls /\ In p pts /\ c_start c <= tp_ts p <= c_end c.
Local Notation vok cf := (WritersConc.vok (good cf) fok).
Theorem acknowledged_from cf (old : list part) t0 ops rs0 starts cs qs w00 w sched k a n1 n2 rs ls p :
  fstate cf w00 (old ++ [(the_chunk cf t0, [])]) t0 -> vok cf w00 -> Forall part_ok old -> ops_ok cf t0 ops -> db_after_from cf ops w00 = Some (rs0, w) -> work_ok cf t0 ops starts cs ->
  own_series ops cs ->
  let at_ n := fst (interleave dhandler (firstn n sched) (WritersSpec.threads cf starts cs qs) w) in let j := S (length cs + k) in
  nth_error qs k = Some [a] -> asks a -> ~ In j (firstn n1 sched) -> nth_error (at_ n2) j = Some (Ret (Answered rs)) ->
  kept_in old ls p \/ acknowledged ops rs0 cs (at_ n1) ls p -> k_labels a <> [] -> incl (k_labels a) ls -> only_set ops cs (k_labels a) ls ->
  (forall (c : part) x, In c old -> In x (snd c) -> wanted (k_labels a) (fst x) -> same_set (fst x) ls) -> k_from a <= tp_ts p <= k_to a ->
  exists r ps, rs = [Ok r] /\ In (sort_labels ls, ps) r /\ In p ps.
Proof.
  intros Hstart Hvok Hold Hops Hafter Hwork Hown at_ j Nk Ha Hj Nj Hack Hq Hincl Honly Honly' Hp.
  destruct (shared_work_from cf old t0 ops rs0 starts cs qs w00 w sched Hstart Hvok Hold Hops Hafter Hwork) as (E & LE & E2 & EX & Q).
  set (q := k_labels a) in *.
  assert (KOK: keys_distinct ls).
  { destruct Hack as [(c0 & A & ls' & pts & K1 & K2 & K3 & _)|[(m & M1 & _)|(i' & c' & ws & m & Nc & _ & M1 & _)]].
    - rewrite Forall_forall in Hold. pose proof (wf_sets _ (po_wf _ (Hold _ K1))) as W. rewrite Forall_forall in W. apply (keys_perm ls'); [exact K3|]. apply (W _ K2).
    - destruct Hops as (_ & _ & _ & _ & _ & Hw' & _). rewrite Forall_forall in Hw'. apply nth_error_In in M1. apply in_split in M1 as (o1 & o2 & ->). apply (Hw' (ls, p)).
      change (OpPoint ls p :: o2) with ([OpPoint ls p] ++ o2). rewrite !written_cat. apply in_app_iff. right. now left.
    - destruct Hwork as (_ & Hw' & _). rewrite Forall_forall in Hw'. pose proof (Hw' c' (nth_error_In _ _ Nc)) as F. rewrite Forall_forall in F. apply (F (ls, p)).
      apply in_concat. exists [(ls, p)]. split; [|now left]. apply in_map_iff. exists (WPoint ls p). split; [reflexivity|]. eapply nth_error_In; exact M1. }
  assert (L0: length rs0 = length ops) by exact (after_results _ _ _ _ _ Hafter).
  assert (FROM: forall n (c : part) x, In c (old ++ chunks_after cf t0 ops rs0 (logged (firstn n sched) E)) -> In x (snd c) -> wanted q (fst x) -> same_set (fst x) ls).
  { intros n c x Hc Hx Hw. apply in_app_or in Hc as [Hc|Hc]; [now apply (Honly' c)|]. unfold chunks_after in Hc. destruct (parts_seg _ _ _ _ _ Hc) as (u & seg & v & Es & Ec & _). cbn [app] in Es. rewrite Ec in Hx. destruct x as [l pts]. cbn [fst] in *.
    destruct (content_from _ _ _ _ Hx) as (p' & Hp'). apply (Honly (l, p')); [|exact Hw].
    assert (In (l, p') (written (ops ++ map e_op (logged (firstn n sched) E)))) as Hi.
    { rewrite <- (performed_pts _ (rs0 ++ map e_res (logged (firstn n sched) E))) by (rewrite !app_length, !map_length, L0; reflexivity). rewrite Es. apply in_app_iff. right. apply in_app_iff. now left. }
    rewrite written_cat in Hi. apply in_app_or in Hi as [Hi|Hi]; apply in_app_iff; [now left|right]. eapply log_written; [|exact Hi]. eapply explains_log. exact (EX n). }
  assert (KD: forall l0, set_ok l0 -> same_set l0 ls -> sort_labels l0 = sort_labels ls) by (intros l0 K1 K2; apply sort_perm_eq; [apply K1|exact K2]).
  assert (TM: forall n, timely (written (ops ++ map e_op (logged (firstn n sched) E)))) by (intros n; eapply own_timely_log; [exact Hown|exact Hwork|exact (EX n)]).
  destruct (Q k a n1 n2 rs Nk Ha Hj Nj) as (acked & pend & o & -> & D1 & D2 & G & Once & B0).
  { apply apart_free. intros mm m (c & x & Hc & Hx & W & ->) (c' & x' & Hc' & Hx' & W' & Em). symmetry in Em. pose proof (FROM n2 c x Hc Hx W) as S1. pose proof (FROM n2 c' x' Hc' Hx' W') as S2.
    assert (length (sort_labels (fst x')) = length (sort_labels (fst x))).
    { rewrite <- !(Permutation_length (sort_perm _)). rewrite (Permutation_length S1), (Permutation_length S2). reflexivity. }
    rewrite Em, app_length in H. destruct m; [reflexivity|cbn in H; lia]. }
  { left. apply TM. }
  assert (LFT: k_from a <= k_to a) by lia. destruct (outcome_calm _ _ _ _ _ _ LFT B0) as (r & -> & B). clear B0.
  set (before := logged (firstn n1 sched) E) in *. set (upto := logged (firstn n2 sched) E) in *.
  pose proof (EX n1) as EX1. fold before in EX1. pose proof (explains_log _ _ _ _ _ _ EX1) as LO.
  pose proof (log_ops_ok cf t0 ops starts cs before Hops Hwork LO) as Hob. destruct EX1 as ((v & Hv & _) & X2 & X3 & X4).
  destruct (state_of cf old w00 w t0 ops rs0 Hstart Hafter before v Hob Hv) as (hi & _ & Rp).
  (* the point is in a chunk *)
  assert (ST: exists j c A ls' pts, nth_error (old ++ chunks_after cf t0 ops rs0 acked) j = Some (c, A) /\ In (ls', pts) A /\ same_set ls' ls /\ In p pts /\ c_start c <= tp_ts p <= c_end c).
  { destruct Hack as [(c0 & A & ls' & pts & K1 & K2)|Hack].
    { apply In_nth_error in K1 as (n & K1). exists n, c0, A, ls', pts. split; [|exact K2]. assert (Ln: (n < length old)%nat) by (apply nth_error_Some; intros Z; refine (_ (eq_trans (eq_sym Z) K1)); discriminate). exact (eq_trans (nth_error_app1 _ _ Ln) K1). }
    assert (ST': exists j c A ls' pts, nth_error (chunks_after cf t0 ops rs0 acked) j = Some (c, A) /\ In (ls', pts) A /\ same_set ls' ls /\ In p pts /\ in_window c (tp_ts p)).
    2:{ destruct ST' as (n & c0 & A & ls' & pts & K1 & K2 & K3 & K4 & K5). exists (length old + n)%nat, c0, A, ls', pts. split; [|split; [exact K2|split; [exact K3|split; [exact K4|unfold in_window in K5; lia]]]].
        rewrite nth_error_app2 by lia. replace (length old + n - length old)%nat with n by lia. exact K1. }
    assert (SUBA: subseq acked before).
    { destruct pend as [pe|]; cbn [done_of] in D1; [|subst; apply ss_refl]. destruct D1 as (u & v' & -> & -> & _). apply ss_app; [apply ss_refl|apply ss_skip, ss_refl]. }
    assert (GOOD: forall o1 o2, ops ++ map e_op acked = o1 ++ OpPoint ls p :: o2 -> Forall ireq_ok (written o1 ++ [(ls, p)]) /\ timely (written o1 ++ [(ls, p)])).
    { intros o1 o2 Eo. assert (SB: subseq (written o1 ++ [(ls, p)]) (written (ops ++ map e_op before))).
      { change [(ls, p)] with (written [OpPoint ls p]). rewrite <- written_cat. apply written_sub. eapply ss_trans; [|apply ss_app; [apply ss_refl|apply ss_map; exact SUBA]]. rewrite Eo.
        change (OpPoint ls p :: o2) with ([OpPoint ls p] ++ o2). rewrite app_assoc. rewrite <- (app_nil_r (o1 ++ [OpPoint ls p])) at 1. apply ss_app; [apply ss_refl|apply ss_any]. }
      split; [|eapply timely_sub; [exact SB|apply TM]]. destruct Hob as (_ & _ & _ & _ & _ & Hw & _). rewrite Forall_forall in *. intros z Hz. apply Hw. eapply ss_in; [exact SB|exact Hz]. }
    assert (FIN: forall o1 r1 o2 r2 x, length r1 = length o1 -> ops ++ map e_op acked = o1 ++ OpPoint ls p :: o2 -> rs0 ++ map e_res acked = r1 ++ x :: r2 ->
      outcome (the_chunk cf (last_start t0 (performed o1 r1))) (OpPoint ls p) = Ok tt ->
      exists j c A ls' pts, nth_error (chunks_after cf t0 ops rs0 acked) j = Some (c, A) /\ In (ls', pts) A /\ same_set ls' ls /\ In p pts /\ in_window c (tp_ts p)).
    { intros o1 r1 o2 r2 x L1 Eo Er OK. unfold chunks_after. rewrite Eo, Er. destruct (GOOD o1 o2 Eo) as [G1 G2]. apply stored; assumption. }
    destruct Hack as [(m & M1 & M2)|(i & c & ws & m & Nc & Nt & M1 & M2)].
    - apply nth_error_split in M1 as (o1 & o2 & Eo & Lo). apply nth_error_split in M2 as (r1 & r2 & Er & Lr).
      apply (FIN o1 r1 (o2 ++ map e_op acked) (r2 ++ map e_res acked) (Ok tt)); [congruence|rewrite Eo, <- app_assoc; reflexivity|rewrite Er, <- app_assoc; reflexivity|].
      symmetry. apply (reported_at cf ls p (Ok tt) (o2 ++ map e_op before) (r2 ++ map e_res before)); [congruence|]. rewrite Eo, Er, <- !app_assoc in Rp. exact Rp.
    - destruct (X4 i c Nc) as (rest & rs1 & HS & HR). destruct (HR _ Nt) as [-> Ew]. injection Ew as <-. rewrite app_nil_r in HS.
      pose proof (session_at _ _ _ _ _ _ HS M1 M2) as Hin. unfold of_thread in Hin. apply in_map_iff in Hin as (e & Ee & Hin). injection Ee as Eop Ere. apply filter_In in Hin as [Hin Hw]. apply Nat.eqb_eq in Hw.
      assert (AT: forall u v', before = u ++ e :: v' -> outcome (the_chunk cf (last_start t0 (performed (ops ++ map e_op u) (rs0 ++ map e_res u)))) (OpPoint ls p) = Ok tt).
      { intros u v' Eb. symmetry. apply (reported_at cf ls p (Ok tt) (map e_op v') (map e_res v')); [rewrite !app_length, !map_length, L0; reflexivity|].
        rewrite Eb, !map_app in Rp. cbn [map] in Rp. rewrite Eop, Ere, !app_assoc in Rp. exact Rp. }
      assert (EE: forall u v', acked = u ++ e :: v' -> outcome (the_chunk cf (last_start t0 (performed (ops ++ map e_op u) (rs0 ++ map e_res u)))) (OpPoint ls p) = Ok tt ->
        exists j c A ls' pts, nth_error (chunks_after cf t0 ops rs0 acked) j = Some (c, A) /\ In (ls', pts) A /\ same_set ls' ls /\ In p pts /\ in_window c (tp_ts p)).
      { intros u v' Eu OK. apply (FIN (ops ++ map e_op u) (rs0 ++ map e_res u) (map e_op v') (map e_res v') (Ok tt)); [rewrite !app_length, !map_length, L0; reflexivity| | |exact OK].
        - rewrite Eu, map_app. cbn [map]. now rewrite Eop, app_assoc.
        - rewrite Eu, map_app. cbn [map]. now rewrite Ere, app_assoc. }
      destruct pend as [pe|]; cbn [done_of] in D1.
      2:{ subst acked. apply in_split in Hin as (u & v' & Eb). apply (EE u v' Eb). exact (AT u v' Eb). }
      destruct D1 as (u & v' & Eb & Ea & Hnz & _).
      assert (Npe: e <> pe).
      { intros ->. destruct (D2 pe eq_refl) as (pp & Np & Nf). apply Nf. rewrite Hw in Np. unfold at_ in Nt. assert (pp = Ret (Wrote ws)) as -> by congruence. eexists. reflexivity. }
      rewrite Eb in Hin. apply in_app_or in Hin as [Hin|[Hin|Hin]]; [|congruence|].
      + apply in_split in Hin as (u1 & u2 & ->). apply (EE u1 (u2 ++ v')); [rewrite Ea, <- app_assoc; reflexivity|]. apply (AT u1 (u2 ++ pe :: v')). rewrite Eb, <- app_assoc. reflexivity.
      + apply in_split in Hin as (v1 & v2 & ->). apply (EE (u ++ v1) v2); [rewrite Ea, <- app_assoc; reflexivity|].
        pose proof (AT (u ++ pe :: v1) v2 ltac:(rewrite Eb, <- app_assoc; reflexivity)) as OK.
        assert (NS: match e_op pe with OpSwap _ => False | _ => True end).
        { assert (Hpe: In pe before) by (rewrite Eb; apply in_app_iff; right; now left). pose proof (of_thread_in pe before Hpe) as Ho. rewrite Forall_forall in X2. pose proof (X2 pe Hpe) as Le.
          destruct (e_who pe) as [|i']; [congruence|]. destruct (nth_error cs i') as [c'|] eqn:Ec; [|apply nth_error_None in Ec; lia]. destruct (X4 i' c' Ec) as (rest & rs2 & HS2 & _). apply session_puts in HS2.
          rewrite Forall_forall in HS2. exact (HS2 _ (proj2 (in_app_iff _ _ _) (or_introl Ho))). }
        assert (EQ: last_start t0 (performed (ops ++ map e_op (u ++ pe :: v1)) (rs0 ++ map e_res (u ++ pe :: v1))) = last_start t0 (performed (ops ++ map e_op (u ++ v1)) (rs0 ++ map e_res (u ++ v1)))).
        { rewrite !map_app, !app_assoc. rewrite !(performed_app (ops ++ map e_op u)) by (rewrite !app_length, !map_length, L0; reflexivity). rewrite !ReopenProofs.last_start_app. cbn [map performed].
          destruct (e_op pe); [reflexivity|reflexivity|contradiction]. }
        now rewrite <- EQ. }
  destruct ST as (jj & c & A0 & ls0 & pts & N0 & I0 & S0 & P0 & W0).
  destruct (G _ _ _ N0) as (A1 & N1 & G1).
  pose proof (Once _ (nth_error_In _ _ N1)) as ND. cbn [snd] in ND.
  apply In_nth_error in I0 as (n & I0). destruct (G1 _ _ _ I0) as (pts1 & I1 & _).
  assert (W: forall (m : list label) l, In l q -> In l m -> wanted q m) by (intros m l H1 H2; exists l; split; [exact H1|now apply has_In]).
  assert (HL: exists l0, In l0 q). { clear - Hq. clearbody q. destruct q as [|x q']; [congruence|exists x; now left]. } destruct HL as (l0 & Hl0).
  assert (SET: forall i x, nth_error A1 i = Some x -> wanted q (fst x) -> i = n).
  { intros i x Hi Hw. apply (proj1 (NoDup_nth_error _) ND); [rewrite map_length; apply nth_error_Some; congruence|]. rewrite !nth_error_map, Hi, I1. cbn [option_map fst]. f_equal.
    assert (Sx: same_set (fst x) ls) by (apply (FROM n2 (c, A1) x); [eapply nth_error_In; exact N1|cbn [snd]; eapply nth_error_In; exact Hi|exact Hw]).
    apply Permutation_sym in S0. pose proof (Permutation_trans Sx S0) as S2. apply sort_perm_eq; [|exact S2].
    apply (keys_perm ls0); [apply Permutation_sym; exact S2|]. apply (keys_perm ls); [exact S0|exact KOK]. }
  destruct (between_complete _ _ q (k_from a) (k_to a) r jj c A0 A1 ls0 pts p G Once B N0 N1) as (ps & R1 & R2).
  - lia.
  - lia.
  - intros i x Hi Li Hw. pose proof (SET i x Hi Hw). subst i. assert (n < length A0)%nat by (apply nth_error_Some; congruence). lia.
  - intros x Hx Hm. apply matches_spec in Hm as [(l & Hl & Ho) Hm]. pose proof (W (fst x) l Hl (Hm l Hl Ho)) as Hw. apply In_nth_error in Hx as (i & Hi). destruct x as [lx px]. destruct (G1 _ _ _ Hi) as (px1 & Hi1 & _).
    assert (i = n) as -> by (eapply SET; [exact Hi1|exact Hw]). assert (px = pts) as -> by congruence. cbn [snd]. split; exists p; (split; [exact P0|lia]).
  - eapply nth_error_In. exact I0.
  - apply matches_spec. assert (IL: forall l, In l q -> In l ls0) by (intros l Hl; eapply Permutation_in; [apply Permutation_sym; exact S0|apply Hincl; exact Hl]).
    split; [|intros l Hl _; auto]. exists l0. split; [exact Hl0|]. apply occurs_spec. exists ls0, pts. split; [eapply nth_error_In; exact I0|auto].
  - exact P0.
  - exact Hp.
  - exists r, ps. split; [reflexivity|]. split; [|exact R2]. replace (sort_labels ls) with (sort_labels ls0); [exact R1|].
    apply sort_perm_eq; [|exact S0]. apply (keys_perm ls); [apply Permutation_sym; exact S0|exact KOK].
Qed.
Theorem acknowledged_found cf f ops rs0 starts cs qs w00 w sched k a n1 n2 rs ls p : let t0 := f_clock f (f_ticks f) in
  env_weak f -> empty_dir f -> db_open cf f = Some (Ok tt, w00) -> ops_ok cf t0 ops -> db_after_from cf ops w00 = Some (rs0, w) -> work_ok cf t0 ops starts cs ->
  own_series ops cs ->
  let at_ n := fst (interleave dhandler (firstn n sched) (WritersSpec.threads cf starts cs qs) w) in let j := S (length cs + k) in
  nth_error qs k = Some [a] -> asks a -> ~ In j (firstn n1 sched) -> nth_error (at_ n2) j = Some (Ret (Answered rs)) ->
  acknowledged ops rs0 cs (at_ n1) ls p -> k_labels a <> [] -> incl (k_labels a) ls -> only_set ops cs (k_labels a) ls -> k_from a <= tp_ts p <= k_to a ->
  exists r ps, rs = [Ok r] /\ In (sort_labels ls, ps) r /\ In p ps.
Proof.
  intros t0 He Hd Hopen Hops Hafter Hwork Hown at_ j Nk Ha Hj Nj Hack Hq Hincl Honly Hp. destruct (start_empty cf f ops w00 He Hd Hopen Hops) as [Hs Hv].
  apply (acknowledged_from cf [] t0 ops rs0 starts cs qs w00 w sched k a n1 n2 rs ls p Hs Hv (Forall_nil _) Hops Hafter Hwork Hown Nk Ha Hj Nj); try assumption; [right; exact Hack|].
  intros c x [].
Qed.
