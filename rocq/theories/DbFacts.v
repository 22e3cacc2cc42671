(* Proofs about histories of a database. *)
From Coq Require Import ZifyBool ZifyNat Permutation Sorted.
From Verif Require Import Rust StringProofs Prog Gorilla GorillaSpec Storage StorageSpec StorageProofs Labels IndexSpec Indexer
  LabelProofs IndexProofs Chunk ChunkSpec ChunkProofs ChunkFacts Conc Utils DirSpec DirProofs TiKvInit Db DbSpec MapProofs DbProofs DbHist RangeSpec RangeProofs.

Lemma refused_edge ch p : c_start ch <= c_end ch -> refused ch p = on_edge ch p.
Proof. intros H. unfold refused, on_edge, batch_passes, in_windowb. lia. Qed.

Lemma content_snoc ch h r : content_of ch (h ++ [r]) = ins ch (content_of ch h) r.
Proof. unfold content_of. now rewrite fold_left_app. Qed.

Lemma hist_from cf ops : 0 <= cf_size cf -> forall start h w l0,
  state cf w (l0 ++ [(the_chunk cf start, content_of (the_chunk cf start) h)]) -> starts_ok cf start ops ->
  Forall ireq_ok (written ops) -> Z.of_nat (length h + length (written ops)) < 2 ^ 64 - 1 ->
  exists w', db_after_from cf ops w = Some (outcomes cf start ops, w') /\ state cf w' (l0 ++ parts_from cf start h ops) /\
    f_ticks (d_fs w') = f_ticks (d_fs w) /\ same_env (d_fs w) (d_fs w').
Proof.
  intros Hsz. induction ops as [|o ops IH]; intros start h w l0 HS Ho Hw HL.
  - exists w. split; [reflexivity|]. split; [exact HS|]. split; [reflexivity|apply same_env_refl].
  - pose proof (content_length (the_chunk cf start) h) as CL.
    destruct o as [ls p|ls pts|start']; cbn [written starts_ok parts_from outcomes db_after_from dop_prog outcome] in *.
    + inversion Hw as [|? ? [H1 H2] Hw']; subst. cbn [fst snd length] in *.
      destruct (point_run cf w l0 _ _ ls p HS H1 H2 ltac:(lia)) as (w1 & E & S1 & _ & F1). rewrite E.
      rewrite <- content_snoc in S1. destruct (IH start (h ++ [(ls, p)]) w1 l0 S1 Ho Hw') as (w' & E' & S' & T' & N').
      { rewrite app_length. cbn [length]. unfold ireq in *. lia. }
      exists w'. rewrite E', <- F1. split; [reflexivity|]. split; [exact S'|]. split; assumption.
    + destruct pts as [|p0 pts0].
      { cbn [map app existsb] in *. assert (E: exists w1, drun (db_write_points ls []) w = Some (Ok tt, w1) /\
          state cf w1 (l0 ++ [(the_chunk cf start, content_of (the_chunk cf start) h)]) /\ d_fs w1 = d_fs w).
        { destruct HS as (l1 & c1 & A1 & h0 & d & Eq & D). pose proof D as [H1 H2 H3 H4 H5 H6 H7 H8 H9 H10 H11 H12].
          exists w. split; [|split; [exists l1, c1, A1, h0, d; auto|reflexivity]].
          unfold drun, db_write_points. rewrite (with_current_run _ w d); [|assumption|rewrite H1, H2; apply nth_last].
          rewrite run_qbind. cbn [write_all run]. clear - H4. destruct w; cbn in *. now subst. }
        destruct E as (w1 & -> & S1 & F1). rewrite app_nil_r, <- F1. destruct (IH start h w1 l0 S1 Ho Hw HL) as (w' & -> & S'). exists w'. auto. }
      remember (p0 :: pts0) as pts. apply Forall_app in Hw. destruct Hw as [Hb Hw']. rewrite app_length, map_length in HL.
      assert (H1: set_ok ls) by (subst pts; inversion Hb as [|? ? [K _] _]; exact K).
      assert (H2: Forall tp_ok pts) by (clear - Hb; induction pts; inversion Hb as [|? ? [_ K] K2]; subst; constructor; auto).
      destruct (batch_run cf w l0 _ _ ls pts HS H1 H2 ltac:(lia)) as (w1 & E & S1 & F1).
      assert (EX: existsb (refused (the_chunk cf start)) pts = existsb (on_edge (the_chunk cf start)) pts).
      { clear - Hsz. induction pts as [|p pts IH]; [reflexivity|]. cbn [existsb]. rewrite IH, refused_edge; [reflexivity|]. cbn. lia. }
      rewrite E, EX. unfold content_of in S1. rewrite <- fold_left_app in S1. destruct (IH start (h ++ map (pair ls) pts) w1 l0 S1 Ho Hw') as (w' & E' & S' & T' & N').
      { rewrite app_length, map_length. unfold ireq in *. lia. }
      exists w'. rewrite E', <- F1. split; [reflexivity|]. split; [exact S'|]. split; assumption.
    + destruct Ho as (H1 & H2 & H3).
      destruct (swap_run cf w l0 _ _ start' HS H1 Hsz H2) as (w1 & E & S1 & T1 & N1 & _). rewrite E.
      destruct (IH start' [] w1 (l0 ++ [(the_chunk cf start, content_of (the_chunk cf start) h)]) S1 H3 Hw) as (w' & E' & S' & T' & N').
      { cbn [length]. lia. }
      exists w'. rewrite E'. split; [reflexivity|]. rewrite <- app_assoc in S'. split; [exact S'|]. split; [congruence|]. eapply same_env_trans; eassumption.
Qed.

Theorem history cf f ops : env_ok f -> empty_dir f -> ops_ok cf (f_clock f (f_ticks f)) ops ->
  exists w, db_after cf f ops = Some (outcomes cf (f_clock f (f_ticks f)) ops, w) /\
    state cf w (parts cf (f_clock f (f_ticks f)) ops).
Proof.
  intros He Hd (Hb & H0 & Hsz & Hend & Hs & Hw & HL).
  destruct (open_run cf f He Hd Hb Hsz Hend) as (w0 & E & S0 & _).
  unfold db_after. rewrite E. destruct (hist_from cf ops Hsz (f_clock f (f_ticks f)) [] w0 []) as (w & E' & S' & _); try assumption. exists w. auto.
Qed.

Lemma after_app cf ops1 ops2 : forall w rs w', db_after_from cf ops1 w = Some (rs, w') ->
  db_after_from cf (ops1 ++ ops2) w =
  match db_after_from cf ops2 w' with Some (rs2, w'') => Some (rs ++ rs2, w'') | None => None end.
Proof.
  induction ops1 as [|o ops1 IH]; intros w rs w' H; cbn [app db_after_from] in *.
  - assert (rs = []) as -> by congruence. assert (w' = w) as -> by congruence. destruct (db_after_from cf ops2 w) as [[? ?]|]; reflexivity.
  - destruct (drun (dop_prog cf o) w) as [[r w1]|]; [|discriminate]. destruct (db_after_from cf ops1 w1) as [[rs1 w2]|] eqn:E; [|discriminate].
    assert (rs = r :: rs1) as -> by congruence. assert (w2 = w') as -> by congruence.
    rewrite (IH _ _ _ E). destruct (db_after_from cf ops2 w') as [[? ?]|]; reflexivity.
Qed.

(** ** subsequences *)
Inductive subseq {T} : list T -> list T -> Prop :=
| ss_nil : subseq [] []
| ss_skip x a b : subseq a b -> subseq a (x :: b)
| ss_take x a b : subseq a b -> subseq (x :: a) (x :: b).
Lemma ss_any {T} (b : list T) : subseq [] b.
Proof. induction b; [apply ss_nil|apply ss_skip; assumption]. Qed.
Lemma ss_refl {T} (b : list T) : subseq b b.
Proof. induction b; [apply ss_nil|apply ss_take; assumption]. Qed.
Lemma ss_app {T} (a b c d : list T) : subseq a b -> subseq c d -> subseq (a ++ c) (b ++ d).
Proof. intros H K. induction H as [|x a b H IH|x a b H IH]; cbn [app]; [assumption|apply ss_skip; assumption|apply ss_take; assumption]. Qed.
Lemma ss_trans {T} (a b c : list T) : subseq a b -> subseq b c -> subseq a c.
Proof.
  intros H1 H2. revert a H1. induction H2 as [|x b c H IH|x b c H IH]; intros a H1; [assumption|apply ss_skip; auto|].
  inversion H1; subst; [apply ss_skip; auto|apply ss_take; auto].
Qed.
Lemma ss_filter {T} (f : T -> bool) (b : list T) : subseq (filter f b) b.
Proof. induction b; cbn [filter]; [constructor|]. destruct (f a); [apply ss_take|apply ss_skip]; assumption. Qed.
Lemma ss_in {T} (a b : list T) x : subseq a b -> In x a -> In x b.
Proof. intros H. induction H as [|y a b H IH|y a b H IH]; intros Hx; [assumption|right; auto|]. destruct Hx as [->|Hx]; [now left|right; auto]. Qed.
Lemma ss_increasing a b : subseq a b -> increasing b -> increasing a.
Proof.
  induction 1 as [|x a b H IH|x a b H IH]; intros Hb; [assumption|apply IH, Hb|]. destruct Hb as [F Hb]. split; [|auto].
  rewrite Forall_forall in *. intros q Hq. apply F. eapply ss_in; eassumption.
Qed.

Definition of_set (ls : list label) (h : list ireq) : list tp := map snd (filter (fun r => same_setb (fst r) ls) h).
Lemma of_set_app ls a b : of_set ls (a ++ b) = of_set ls a ++ of_set ls b.
Proof. unfold of_set. now rewrite filter_app, map_app. Qed.

Lemma same_setb_sym a b : set_ok a -> set_ok b -> same_setb a b = true -> same_setb b a = true.
Proof. intros Ha Hb H. apply same_setb_spec; try apply Ha; try apply Hb. apply Permutation_sym. apply same_setb_spec; try apply Ha; try apply Hb. assumption. Qed.
Lemma same_setb_refl a : set_ok a -> same_setb a a = true.
Proof. intros Ha. apply same_setb_spec; try apply Ha. apply Permutation_refl. Qed.

Lemma content_sub ch h : Forall ireq_ok h -> forall ls pts, In (ls, pts) (content_of ch h) -> subseq pts (of_set ls h).
Proof.
  induction h as [|[l p] h IH] using rev_ind; intros H ls pts Hin; [contradiction|].
  apply Forall_app in H. destruct H as [H Hr]. inversion Hr as [|? ? [K1 K2] _]; subst. cbn [fst snd] in *.
  rewrite content_snoc in Hin. rewrite of_set_app. unfold ins in Hin. cbn [fst snd] in Hin.
  destruct (in_windowb ch (tp_ts p)).
  2: { rewrite <- (app_nil_r pts). apply ss_app; [auto|apply ss_any]. }
  apply In_add in Hin as [Hin|[(pts0 & Hin & Q & ->)|[-> ->]]].
  - rewrite <- (app_nil_r pts). apply ss_app; [auto|apply ss_any].
  - assert (Hls: set_ok ls) by (apply (content_sound ch h H) in Hin; apply Hin).
    apply same_setb_sym in Q; [|assumption|assumption]. unfold of_set at 2. cbn [filter fst]. rewrite Q. cbn [map snd].
    destruct (keeps _ pts0 p); [apply ss_app; [auto|apply ss_refl]|].
    rewrite <- (app_nil_r pts0). apply ss_app; [auto|apply ss_any].
  - unfold of_set at 2. cbn [filter fst]. rewrite same_setb_refl by assumption. cbn [map snd].
    change [p] with ([] ++ [p]) at 1. apply ss_app; [apply ss_any|apply ss_refl].
Qed.

Lemma content_increasing ch h : Forall ireq_ok h -> timely h -> all_increasing (content_of ch h).
Proof.
  intros H T. unfold all_increasing. rewrite Forall_forall. intros [ls pts] Hin. cbn [snd].
  eapply ss_increasing; [eapply content_sub; eassumption|]. apply T.
Qed.

Lemma timely_mid a b c : timely (a ++ b ++ c) -> timely b.
Proof.
  intros T ls. specialize (T ls). fold (of_set ls (a ++ b ++ c)) in T. fold (of_set ls b). rewrite !of_set_app in T.
  eapply ss_increasing; [|exact T]. change (of_set ls b) with ([] ++ of_set ls b) at 1. apply ss_app; [apply ss_any|].
  rewrite <- (app_nil_r (of_set ls b)) at 1. apply ss_app; [apply ss_refl|apply ss_any].
Qed.

(* every part is the content of some stretch of the history *)
Lemma parts_seg cf ops : forall start h c, In c (parts_from cf start h ops) ->
  exists a seg b, h ++ written ops = a ++ seg ++ b /\ snd c = content_of (fst c) seg /\ exists st, fst c = the_chunk cf st.
Proof.
  induction ops as [|o ops IH]; intros start h c Hc; cbn [parts_from written] in *.
  - destruct Hc as [<-|[]]. exists [], h, []. cbn [fst snd app]. eauto.
  - destruct o as [ls p|ls pts|start'].
    + destruct (IH _ _ _ Hc) as (a & seg & b & E & R). exists a, seg, b. rewrite <- E, <- app_assoc. auto.
    + destruct (IH _ _ _ Hc) as (a & seg & b & E & R). exists a, seg, b. rewrite <- E, <- app_assoc. auto.
    + destruct Hc as [<-|Hc].
      * exists [], h, (written ops). cbn [fst snd app]. eauto.
      * destruct (IH _ _ _ Hc) as (a & seg & b & E & R). cbn [app] in E. exists (h ++ a), seg, b. rewrite E, <- !app_assoc. auto.
Qed.

Lemma seg_ok (P : ireq -> Prop) a seg b h : h = a ++ seg ++ b -> Forall P h -> Forall P seg.
Proof. intros -> H. apply Forall_app in H as [_ H]. apply Forall_app in H as [H _]. exact H. Qed.

Theorem parts_ok cf start ops : ops_ok cf start ops -> timely (written ops) -> Forall part_ok (parts cf start ops).
Proof.
  intros (_ & _ & _ & _ & _ & Hw & HL) T. rewrite Forall_forall. intros c Hc.
  destruct (parts_seg cf ops start [] c Hc) as (a & seg & b & E & Ec & _). cbn [app] in E.
  assert (Hs: Forall ireq_ok seg) by (eapply seg_ok; eassumption).
  constructor; rewrite Ec.
  - now apply content_wf.
  - apply content_increasing; [assumption|]. rewrite E in T. now apply timely_mid in T.
  - pose proof (content_length (fst c) seg). rewrite E, !app_length in HL. lia.
Qed.
(* a store refusing late points keeps every series in order by itself *)
Theorem parts_ok_tikv cf start ops : ops_ok cf start ops -> cf_st cf = TiKvDry -> Forall part_ok (parts cf start ops).
Proof.
  intros (_ & _ & _ & _ & _ & Hw & HL) T. rewrite Forall_forall. intros c Hc.
  destruct (parts_seg cf ops start [] c Hc) as (a & seg & b & E & Ec & st & Est). cbn [app] in E.
  assert (Hs: Forall ireq_ok seg) by (eapply seg_ok; eassumption).
  constructor; rewrite Ec.
  - now apply content_wf.
  - apply (tikv_content_increasing _ []). rewrite Est. unfold the_chunk. now rewrite T.
  - pose proof (content_length (fst c) seg). rewrite E, !app_length in HL. lia.
Qed.

Theorem db_refines cf f hs bs o ops q s e : env_ok f -> empty_dir f ->
  let t0 := f_clock f (f_ticks f) in
  ops_ok cf t0 ops -> timely (written ops) -> hasher_ok hs -> bs_contract bs -> Forall lab_ok q -> s <= e ->
  unmixed hs (parts cf t0 ops) q s e ->
  exists w r, db_after cf f ops = Some (outcomes cf t0 ops, w) /\
    drun (db_query hs bs o q s e) w = Some (Ok r, w) /\ db_answer (parts cf t0 ops) q s e r.
Proof.
  intros He Hd t0 Ho T Hh Hb Hq Hse Hp. destruct (history cf f ops He Hd Ho) as (w & E & HS). fold t0 in E, HS.
  destruct (query_answer hs bs o q s e w _ (state_quiet _ _ _ HS) (parts_ok cf t0 ops Ho T) Hh Hb Hq Hse Hp) as (r & Er & Ha).
  exists w, r. auto.
Qed.

(** ** pieces *)
Lemma piece_in c q s e m p : In p (piece c q s e m) ->
  exists ls pts, In (ls, pts) (snd c) /\ sort_labels ls = m /\ matches (snd c) q ls = true /\ In p pts /\ s <= tp_ts p <= e /\
    answers c q s e = true.
Proof.
  unfold piece. destruct (answers c q s e) eqn:An; [|contradiction].
  destruct (find _ (snd c)) as [[ls pts]|] eqn:F; [|contradiction]. apply find_some in F as [F1 F2]. cbn [fst snd] in *.
  rewrite andb_true_iff in F2. destruct F2 as [F2 F3]. apply labs_eqb_spec in F2. unfold within. rewrite filter_In. intros [H1 H2].
  exists ls, pts. repeat split; try assumption; lia.
Qed.
Lemma piece_has c q s e ls pts p : wfc (snd c) -> answers c q s e = true -> In (ls, pts) (snd c) -> matches (snd c) q ls = true ->
  In p pts -> s <= tp_ts p <= e -> In p (piece c q s e (sort_labels ls)).
Proof.
  intros W An Hin M Hp Hr. unfold piece. rewrite An.
  destruct (find _ (snd c)) as [[ls' pts']|] eqn:F.
  - apply find_some in F as [F1 F2]. cbn [fst snd] in *. rewrite andb_true_iff in F2. destruct F2 as [F2 F3]. apply labs_eqb_spec in F2.
    apply sort_eq_perm in F2. apply In_nth_error in Hin as (i & Hi). apply In_nth_error in F1 as (j & Hj).
    pose proof (wf_distinct _ W j i _ _ Hj Hi F2). subst j. assert (pts' = pts) as -> by congruence.
    unfold within. apply filter_In. split; [assumption|lia].
  - exfalso. pose proof (find_none _ _ F _ Hin) as N. cbn [fst snd] in N. rewrite M, labs_eqb_refl in N. discriminate.
Qed.

Lemma keys_perm a b : Permutation a b -> keys_distinct a -> keys_distinct b.
Proof. intros P H. unfold keys_distinct in *. eapply Permutation_NoDup; [apply Permutation_map; exact P|assumption]. Qed.

Lemma of_set_sort ls h : set_ok ls -> Forall ireq_ok h -> of_set (sort_labels ls) h = of_set ls h.
Proof.
  intros Hls H. unfold of_set. f_equal. induction H as [|[l p] h [Hl _] H IH]; [reflexivity|]. cbn [filter fst].
  assert (E: same_setb l (sort_labels ls) = same_setb l ls).
  { cbn [fst] in Hl. assert (K: keys_distinct (sort_labels ls)) by (eapply keys_perm; [apply sort_perm|apply Hls]).
    pose proof (same_setb_spec l (sort_labels ls) ltac:(apply Hl) K) as S1. pose proof (same_setb_spec l ls ltac:(apply Hl) ltac:(apply Hls)) as S2.
    destruct (same_setb l ls).
    - apply S1. eapply perm_trans; [now apply S2|apply sort_perm].
    - destruct (same_setb l (sort_labels ls)); [|reflexivity]. symmetry. apply S2. eapply perm_trans; [now apply S1|apply Permutation_sym, sort_perm]. }
  rewrite E, IH. reflexivity.
Qed.

Lemma piece_sub ch h q s e m : Forall ireq_ok h -> subseq (piece (ch, content_of ch h) q s e m) (of_set m h).
Proof.
  intros H. unfold piece. destruct (answers _ q s e); [|apply ss_any]. cbn [fst snd].
  destruct (find _ (content_of ch h)) as [[ls pts]|] eqn:F; [|apply ss_any].
  apply find_some in F as [F1 F2]. cbn [fst snd] in *. rewrite andb_true_iff in F2. destruct F2 as [F2 F3]. apply labs_eqb_spec in F2. subst m.
  rewrite of_set_sort; [|apply (content_sound ch h H ls pts F1)|assumption].
  eapply ss_trans; [apply ss_filter|exact (content_sub ch h H _ _ F1)].
Qed.

Lemma concat_sub cf q s e m ops : forall start h, Forall ireq_ok (h ++ written ops) ->
  subseq (concat (map (fun c => piece c q s e m) (parts_from cf start h ops))) (of_set m (h ++ written ops)).
Proof.
  induction ops as [|o ops IH]; intros start h H; cbn [parts_from written] in *.
  - cbn [map concat]. rewrite !app_nil_r in *. now apply piece_sub.
  - destruct o as [ls p|ls pts|start'].
    + specialize (IH start (h ++ [(ls, p)])). rewrite <- app_assoc in IH. apply IH, H.
    + specialize (IH start (h ++ map (pair ls) pts)). rewrite <- app_assoc in IH. apply IH, H.
    + apply Forall_app in H. destruct H as [H1 H2]. cbn [map concat]. rewrite of_set_app. apply ss_app; [now apply piece_sub|].
      apply (IH start' []). exact H2.
Qed.

(** ** the answer of the database *)
Lemma answer_metas l q s e r m pts : db_answer l q s e r -> In (m, pts) r ->
  exists c ls pts0, In c l /\ In (ls, pts0) (snd c) /\ m = sort_labels ls.
Proof.
  intros [_ H] Hin. apply H in Hin as [N ->].
  assert (exists p, In p (concat (map (fun c => piece c q s e m) l))) as (p & Hp).
  { destruct (concat _) as [|p ?]; [congruence|]. exists p. now left. }
  apply in_concat in Hp as (x & Hx & Hp). apply in_map_iff in Hx as (c & <- & Hc).
  apply piece_in in Hp as (ls & pts & H1 & H2 & _). eauto 8.
Qed.

Theorem answer_once l q s e r : Forall part_ok l -> db_answer l q s e r ->
  forall i j a b, nth_error r i = Some a -> nth_error r j = Some b -> same_set (fst a) (fst b) -> i = j.
Proof.
  intros W Ha i j [m pts] [m' pts'] Hi Hj Hs. cbn [fst] in Hs.
  assert (m = m').
  { apply nth_error_In in Hi, Hj. destruct (answer_metas _ _ _ _ _ _ _ Ha Hi) as (c & ls & p0 & Hc & Hls & ->).
    destruct (answer_metas _ _ _ _ _ _ _ Ha Hj) as (c' & ls' & p0' & Hc' & Hls' & ->).
    apply sort_perm_eq.
    - rewrite Forall_forall in W. pose proof (wf_sets _ (po_wf _ (W c Hc))) as K. rewrite Forall_forall in K. apply (K _ Hls).
    - eapply perm_trans; [apply sort_perm|]. eapply perm_trans; [exact Hs|]. apply Permutation_sym, sort_perm. }
  subst m'. destruct Ha as [N _]. eapply (proj1 (NoDup_nth_error (map fst r)) N).
  - rewrite map_length. apply nth_error_Some. congruence.
  - rewrite !nth_error_map, Hi, Hj. reflexivity.
Qed.

Theorem db_ordered cf f hs bs o ops q s e : env_ok f -> empty_dir f ->
  let t0 := f_clock f (f_ticks f) in
  ops_ok cf t0 ops -> timely (written ops) -> hasher_ok hs -> bs_contract bs -> Forall lab_ok q -> s <= e ->
  unmixed hs (parts cf t0 ops) q s e ->
  exists rs w r, db_after cf f ops = Some (rs, w) /\ drun (db_query hs bs o q s e) w = Some (Ok r, w) /\
    (forall i j a b, nth_error r i = Some a -> nth_error r j = Some b -> same_set (fst a) (fst b) -> i = j) /\
    (forall m pts, In (m, pts) r -> increasing pts /\ pts <> []).
Proof.
  intros He Hd t0 Ho T Hh Hb Hq Hse Hp.
  destruct (db_refines cf f hs bs o ops q s e He Hd Ho T Hh Hb Hq Hse Hp) as (w & r & E1 & E2 & Ha). fold t0 in E1, Ha.
  eexists _, w, r. split; [exact E1|]. split; [exact E2|]. split; [apply (answer_once _ _ _ _ _ (parts_ok cf t0 ops Ho T) Ha)|].
  intros m pts Hin. apply Ha in Hin as [N ->]. split; [|assumption].
  eapply ss_increasing; [apply (concat_sub cf q s e m ops t0 []); apply Ho|]. apply T.
Qed.

Theorem db_sound cf f hs bs o ops q s e : env_ok f -> empty_dir f ->
  let t0 := f_clock f (f_ticks f) in
  ops_ok cf t0 ops -> timely (written ops) -> hasher_ok hs -> bs_contract bs -> Forall lab_ok q -> s <= e ->
  unmixed hs (parts cf t0 ops) q s e ->
  exists rs w r, db_after cf f ops = Some (rs, w) /\ drun (db_query hs bs o q s e) w = Some (Ok r, w) /\
    forall m pts p, In (m, pts) r -> In p pts ->
      s <= tp_ts p <= e /\ (exists ls, In (ls, p) (written ops) /\ same_set ls m) /\
      (exists c pts0, In c (parts cf t0 ops) /\ In p pts0 /\ (exists ls, In (ls, pts0) (snd c) /\ same_set ls m) /\
         in_window (fst c) (tp_ts p) /\
         forall lb, In lb q -> (exists ls' pts', In (ls', pts') (snd c) /\ In lb ls') -> In lb m).
Proof.
  intros He Hd t0 Ho T Hh Hb Hq Hse Hp.
  destruct (db_refines cf f hs bs o ops q s e He Hd Ho T Hh Hb Hq Hse Hp) as (w & r & E1 & E2 & Ha). fold t0 in E1, Ha.
  eexists _, w, r. split; [exact E1|]. split; [exact E2|]. intros m pts p Hin Hip.
  apply Ha in Hin as [_ ->]. apply in_concat in Hip as (x & Hx & Hip). apply in_map_iff in Hx as (c & <- & Hc).
  apply piece_in in Hip as (ls & pts & H1 & H2 & H3 & H4 & H5 & _).
  destruct (parts_seg cf ops t0 [] c Hc) as (a & seg & b & E & Ec & _). cbn [app] in E.
  assert (Hs: Forall ireq_ok seg) by (eapply seg_ok; [exact E|apply Ho]).
  pose proof H1 as H1'. rewrite Ec in H1'. destruct (content_sound _ _ Hs _ _ H1') as [Hls Hsound].
  destruct (Hsound p H4) as (ls' & K1 & K2 & K3).
  assert (SM: same_set ls m) by (subst m; apply sort_perm).
  split; [assumption|]. split.
  - exists ls'. split; [rewrite E; apply in_or_app; right; apply in_or_app; now left|]. eapply perm_trans; [exact K2|exact SM].
  - exists c, pts. split; [assumption|]. split; [assumption|]. split; [eauto|]. split; [assumption|].
    intros lb Hlb (ls2 & pts2 & Q1 & Q2). apply matches_spec in H3 as [_ H3].
    eapply Permutation_in; [exact SM|]. apply H3; [assumption|]. apply occurs_spec. eauto.
Qed.

Theorem db_complete cf f hs bs o ops q s e : env_ok f -> empty_dir f ->
  let t0 := f_clock f (f_ticks f) in
  ops_ok cf t0 ops -> timely (written ops) -> hasher_ok hs -> bs_contract bs -> Forall lab_ok q -> s <= e ->
  unmixed hs (parts cf t0 ops) q s e ->
  exists rs w r, db_after cf f ops = Some (rs, w) /\ drun (db_query hs bs o q s e) w = Some (Ok r, w) /\
    forall l1 c l2, parts cf t0 ops = l1 ++ c :: l2 ->
      let readable := (c_start (fst c) <= e /\ s <= c_end (fst c)) /\
        forall ls pts, In (ls, pts) (snd c) -> matches (snd c) q ls = true -> touches s e pts in
      (readable -> forall ls pts p, In (ls, pts) (snd c) -> matches (snd c) q ls = true -> In p pts -> s <= tp_ts p <= e ->
         exists pts', In (sort_labels ls, pts') r /\ In p pts') /\
      (~ readable -> db_answer (l1 ++ l2) q s e r).
Proof.
  intros He Hd t0 Ho T Hh Hb Hq Hse Hp.
  destruct (db_refines cf f hs bs o ops q s e He Hd Ho T Hh Hb Hq Hse Hp) as (w & r & E1 & E2 & Ha). fold t0 in E1, Ha.
  eexists _, w, r. split; [exact E1|]. split; [exact E2|]. intros l1 c l2 El readable. split.
  - intros R ls pts p H1 H2 H3 H4. apply answers_spec in R.
    assert (W: part_ok c).
    { pose proof (parts_ok cf t0 ops Ho T) as W. rewrite Forall_forall in W. apply W. rewrite El. apply in_or_app. right. now left. }
    pose proof (piece_has c q s e ls pts p (po_wf _ W) R H1 H2 H3 H4) as Hpc.
    assert (Hcc: In p (concat (map (fun c => piece c q s e (sort_labels ls)) (parts cf t0 ops)))).
    { apply in_concat. eexists. split; [|exact Hpc]. apply in_map_iff. exists c. split; [reflexivity|]. rewrite El. apply in_or_app. right. now left. }
    eexists. split; [|exact Hcc]. apply Ha. split; [|reflexivity]. intros Z. rewrite Z in Hcc. contradiction.
  - intros N. destruct (answers c q s e) eqn:An; [exfalso; apply N; now apply answers_spec|].
    assert (P: forall m, piece c q s e m = []) by (intros m; unfold piece; now rewrite An).
    destruct Ha as [N1 N2]. split; [assumption|]. intros m pts. rewrite N2, El, !map_app, !concat_app. cbn [map concat]. rewrite P. reflexivity.
Qed.

(** ** batches *)
Definition one_reader : rw := mkRw 1 false false.
Lemma state_cur cf w l0 c A : state cf w (l0 ++ [(c, A)]) ->
  exists d, nth_error (d_heap w) (d_cur w) = Some d /\ d_curl w = free_lock /\ like (dc_chunk d) c /\ 0 <= c_start (dc_chunk d) /\
    crep (dc_chunk d) (dc_world d) A.
Proof.
  intros (l1 & c1 & A1 & h0 & d & E & D). apply app_inj_tail in E. destruct E as [<- E].
  assert (c1 = c) as -> by congruence. assert (A1 = A) as -> by congruence. clear E.
  pose proof D as [H1 H2 H3 H4 H5 H6 H7 H8 H9 H10 H11 H12]. exists d. split; [rewrite H1, H2; apply nth_last|].
  split; [assumption|]. split; [assumption|]. split; [|assumption].
  apply Forall2_app_inv_r in H11. destruct H11 as (e1 & e2 & _ & F2 & _). inversion F2 as [|e ? ? ? F3 F4]; subst.
  destruct F3 as (_ & _ & U & _). unfold u64 in U. lia.
Qed.
Lemma state_cur_same cf w w' l0 c A d r (p : prog ccmd r) x : state cf w (l0 ++ [(c, A)]) ->
  nth_error (d_heap w) (d_cur w) = Some d ->
  run dhandler (lift (fun X c => @DC X (d_cur w) c) p) (set_curl w one_reader) = Some (x, w') ->
  d_cur w' = d_cur w /\ d_curl w' = one_reader /\ exists cw, nth_error (d_heap w') (d_cur w) = Some (mkDc (dc_chunk d) cw (dc_name d)).
Proof.
  intros _ N E. rewrite (run_DC _ _ _ d) in E by exact N. destruct (run (chandler (dc_chunk d)) p (dc_world d)) as [[y cw]|]; [|discriminate].
  assert (w' = set_heap (set_curl w one_reader) (upd (d_heap (set_curl w one_reader)) (d_cur w) (mkDc (dc_chunk d) cw (dc_name d)))) as -> by congruence.
  cbn [set_heap set_curl d_cur d_curl d_heap]. split; [reflexivity|]. split; [reflexivity|]. exists cw.
  rewrite nth_upd by (apply nth_error_Some; congruence). now rewrite Nat.eqb_refl.
Qed.

Lemma batch_states cf ls pts : set_ok ls -> Forall tp_ok pts -> forall w l0 c A d, state cf w (l0 ++ [(c, A)]) ->
  Z.of_nat (length A + length pts) < 2 ^ 64 -> nth_error (d_heap w) (d_cur w) = Some d ->
  exists w', run dhandler (write_all (d_cur w) (dc_chunk d) ls pts) (set_curl w one_reader) =
      Some (Ok (existsb (refused c) pts), set_curl w' one_reader) /\ d_curl w' = free_lock /\
    db_after_from cf (map (OpPoint ls) (filter (fun p => in_windowb c (tp_ts p)) pts)) w =
      Some (map (fun _ => Ok tt) (filter (fun p => in_windowb c (tp_ts p)) pts), w').
Proof.
  intros Hls Hp. induction Hp as [|p pts Hp _ IH]; intros w l0 c A d HS HL N.
  - exists w. cbn. split; [reflexivity|]. split; [|reflexivity]. destruct (state_cur _ _ _ _ _ HS) as (_ & _ & K & _). exact K.
  - cbn [length] in HL. destruct (state_cur _ _ _ _ _ HS) as (d0 & N0 & K1 & K2 & K3 & _). assert (d0 = d) as -> by congruence.
    destruct (point_run cf w l0 c A ls p HS Hls Hp ltac:(lia)) as (w1 & E & S1 & Hsame).
    unfold drun, db_write_point in E. rewrite (with_current_run _ w d) in E by assumption.
    destruct (run dhandler _ (set_curl w _)) as [[r w1']|] eqn:EL; [|discriminate]. change (mkRw 1 false false) with one_reader in EL.
    pose proof (state_cur_same _ _ _ _ _ _ _ _ _ _ HS N EL) as (C1 & C2 & cw & C3).
    assert (r = (if in_windowb c (tp_ts p) then Ok tt else Err (OutOfRangeErr (c_start c) (c_end c)))) as -> by congruence.
    assert (W1: w1' = set_curl w1 one_reader).
    { assert (w1 = set_curl w1' (rw_unread (d_curl w1'))) as -> by congruence. clear - C2. destruct w1'; cbn in *. now subst. }
    cbn [write_all filter map existsb db_after_from dop_prog]. unfold refused at 1.
    assert (BP: batch_passes (dc_chunk d) p = batch_passes c p) by (destruct K2 as (_ & Q1 & Q2); unfold batch_passes; now rewrite Q1, Q2).
    rewrite BP. destruct (in_windowb c (tp_ts p)) eqn:W.
    + assert (B: batch_passes c p = true) by (unfold batch_passes; destruct K2 as (_ & Q1 & _); unfold in_windowb in W; lia). rewrite B. cbn [andb negb orb].
      rewrite run_bind, EL. cbn [map db_after_from dop_prog].
      unfold drun at 1, db_write_point at 1. rewrite (with_current_run _ w d) by assumption. change (mkRw 1 false false) with one_reader. rewrite EL.
      assert (w1 = set_curl w1' (rw_unread (d_curl w1'))) as Ew1 by congruence. rewrite <- Ew1.
      unfold ins in S1. cbn [fst snd] in S1. rewrite W in S1.
      assert (Cur: d_cur w1 = d_cur w) by (rewrite Ew1; exact C1).
      destruct (IH w1 l0 c _ (mkDc (dc_chunk d) cw (dc_name d)) S1) as (w' & E1 & E2 & E3).
      { pose proof (add_length (c_storage c) A ls p). lia. }
      { rewrite Cur, Ew1. exact C3. }
      cbn [dc_chunk] in E1. rewrite Cur, <- W1 in E1. exists w'. rewrite E1. split; [reflexivity|]. split; [assumption|]. now rewrite E3.
    + pose proof (proj1 Hsame eq_refl) as Ew. clear Hsame. subst w1. destruct (IH w l0 c A d HS ltac:(lia) N) as (w' & E1 & E2 & E3). exists w'.
      destruct (batch_passes c p).
      * cbn [andb negb orb]. rewrite run_bind, EL, run_qbind, W1, E1. cbn [run]. auto.
      * cbn [andb orb]. auto.
Qed.

Theorem batch_exact cf f ops ls pts : env_ok f -> empty_dir f ->
  let t0 := f_clock f (f_ticks f) in
  ops_ok cf t0 (ops ++ [OpBatch ls pts]) -> set_ok ls ->
  let ch := current_window cf t0 ops in
  let inside := filter (fun p => in_windowb ch (tp_ts p)) pts in
  exists rs w r w', db_after cf f ops = Some (rs, w) /\ drun (db_write_points ls pts) w = Some (r, w') /\
    (r = Err InternalErr <-> exists p, In p pts /\ tp_ts p <> 0 /\ (tp_ts p = c_start ch \/ tp_ts p = c_end ch)) /\
    (r = Err InternalErr \/ r = Ok tt) /\
    db_after_from cf (map (OpPoint ls) inside) w = Some (map (fun _ => Ok tt) inside, w').
Proof.
  intros He Hd t0 Ho Hls ch inside. destruct Ho as (Hb & H0 & Hsz & Hend & Hs & Hw & HL).
  assert (WA: written (ops ++ [OpBatch ls pts]) = written ops ++ map (pair ls) pts).
  { clear. induction ops as [|[? ?|? ?|?] ops IH]; cbn [app written]; rewrite ?IH, ?app_nil_r, <- ?app_assoc; reflexivity. }
  assert (SA: starts_ok cf t0 ops).
  { clear - Hs. revert Hs. generalize t0. induction ops as [|[? ?|? ?|?] ops IH]; intros t; cbn [app starts_ok]; [tauto|auto|auto|]. intros (A & B & C). auto. }
  rewrite WA in Hw, HL. apply Forall_app in Hw. destruct Hw as [Hw Hbt]. rewrite app_length, map_length in HL.
  assert (Ht: Forall tp_ok pts) by (clear - Hbt; induction pts; inversion Hbt as [|? ? [_ K] K2]; subst; constructor; auto).
  assert (Ho': ops_ok cf t0 ops).
  { repeat split; try assumption. unfold ireq in *. lia. }
  destruct (history cf f ops He Hd Ho') as (w & E & HS). fold t0 in E, HS.
  assert (LP: forall st h, exists l0 h', parts_from cf st h ops = l0 ++ [(the_chunk cf (last_start st ops), content_of (the_chunk cf (last_start st ops)) h')] /\
     (length h' <= length h + length (written ops))%nat).
  { clear. induction ops as [|[ls p|ls pts|st'] ops IH]; intros st h; cbn [parts_from last_start written].
    - exists [], h. split; [reflexivity|]. lia.
    - destruct (IH st (h ++ [(ls, p)])) as (l0 & h' & A & B). exists l0, h'. split; [exact A|]. rewrite app_length in B. cbn [length] in *. unfold ireq in *. lia.
    - destruct (IH st (h ++ map (pair ls) pts)) as (l0 & h' & A & B). exists l0, h'. split; [exact A|]. rewrite app_length in *. unfold ireq in *. lia.
    - destruct (IH st' []) as (l0 & h' & A & B). eexists (_ :: l0), h'. rewrite A. split; [reflexivity|]. cbn [length] in *. unfold ireq in *. lia. }
  destruct (LP t0 []) as (l0 & h' & EP & HL'). unfold parts in HS. rewrite EP in HS. fold (current_window cf t0 ops) in HS. fold ch in HS.
  destruct (state_cur _ _ _ _ _ HS) as (d & N & K1 & K2 & K3 & _).
  pose proof (content_length ch h') as CL. cbn [length] in HL'.
  destruct (batch_states cf ls pts Hls Ht w l0 ch _ d HS) as (w' & B1 & B2 & B3); [|exact N|].
  { unfold ireq in *. lia. }
  eexists _, w, _, w'. split; [exact E|]. split.
  { unfold drun, db_write_points. rewrite (with_current_run _ w d) by assumption. rewrite run_qbind. fold one_reader. rewrite B1. cbn [run].
    assert (X: set_curl (set_curl w' one_reader) (rw_unread (d_curl (set_curl w' one_reader))) = w').
    { clear - B2. destruct w'; cbn in *. now subst. }
    rewrite X. reflexivity. }
  assert (RE: existsb (refused ch) pts = true <-> exists p, In p pts /\ tp_ts p <> 0 /\ (tp_ts p = c_start ch \/ tp_ts p = c_end ch)).
  { assert (SE: c_start ch <= c_end ch) by (unfold ch, current_window, the_chunk; cbn [c_start c_end]; lia).
    rewrite existsb_exists. split; intros (p & P1 & P2); exists p; (split; [assumption|]); rewrite refused_edge in * by exact SE; unfold on_edge in *; lia. }
  split; [|split; [destruct (existsb (refused ch) pts); auto|exact B3]].
  rewrite <- RE. destruct (existsb (refused ch) pts); split; congruence.
Qed.

(** ** a swap does not change answers *)
Lemma parts_swap cf st ops : forall t h, parts_from cf t h (ops ++ [OpSwap st]) = parts_from cf t h ops ++ [(the_chunk cf st, [])].
Proof. induction ops as [|[? ?|? ?|?] ops IH]; intros t h; cbn [app parts_from]; rewrite ?IH; reflexivity. Qed.
Lemma written_swap st ops : written (ops ++ [OpSwap st]) = written ops.
Proof. induction ops as [|[? ?|? ?|?] ops IH]; cbn [app written]; rewrite ?IH; reflexivity. Qed.

Lemma piece_empty ch q s e m : piece (ch, []) q s e m = [].
Proof. unfold piece. destruct (answers _ q s e); reflexivity. Qed.
Lemma answer_empty l ch q s e r : db_answer (l ++ [(ch, [])]) q s e r <-> db_answer l q s e r.
Proof.
  unfold db_answer. assert (E: forall m, concat (map (fun c => piece c q s e m) (l ++ [(ch, [])])) = concat (map (fun c => piece c q s e m) l)).
  { intros m. rewrite map_app, concat_app. cbn [map concat]. rewrite piece_empty. now rewrite !app_nil_r. }
  split; intros [H1 H2]; (split; [assumption|]); intros m pts; rewrite H2, E; reflexivity.
Qed.
Lemma free_empty hs l ch q s e : unmixed hs l q s e -> unmixed hs (l ++ [(ch, [])]) q s e.
Proof. apply unmixed_less. intros c m Hc P. apply in_app_or in Hc as [Hc|[<-|[]]]; [eauto|rewrite piece_empty in P; congruence]. Qed.
Theorem swap_keeps_answers cf f hs bs o ops st q s e : env_ok f -> empty_dir f ->
  let t0 := f_clock f (f_ticks f) in
  ops_ok cf t0 (ops ++ [OpSwap st]) -> timely (written ops) -> hasher_ok hs -> bs_contract bs -> Forall lab_ok q ->
  unmixed hs (parts cf t0 ops) q s e ->
  exists rs w r w' r', db_after cf f ops = Some (rs, w) /\ drun (db_query hs bs o q s e) w = Some (r, w) /\
    drun (db_swap cf st) w = Some (Ok tt, w') /\ drun (db_query hs bs o q s e) w' = Some (r', w') /\ alike r r'.
Proof.
  intros He Hd t0 Ho T Hh Hb Hq Hp. pose proof Ho as (K1 & K2 & K3 & K4 & K5 & K6 & K7). rewrite written_swap in *.
  assert (K8: starts_ok cf t0 ops /\ last_start t0 ops < st /\ st + cf_size cf < 2 ^ 64).
  { clear - K5. revert K5. generalize t0. induction ops as [|[? ?|? ?|?] ops IH]; intros t; cbn [app starts_ok last_start]; [tauto|auto|auto|].
    intros (A & B & C). destruct (IH _ C) as (D & E & F). auto. }
  destruct K8 as (K8 & K9 & K10).
  assert (Ho': ops_ok cf t0 ops) by (repeat split; assumption).
  destruct (history cf f ops He Hd Ho') as (w & E1 & HS). fold t0 in E1, HS.
  destruct (query_any hs bs o q s e w _ (state_quiet _ _ _ HS) (parts_ok cf t0 ops Ho' T) Hh Hb Hq Hp) as (r & E2 & Ha).
  assert (LP: forall t h, exists l0 A, parts_from cf t h ops = l0 ++ [(the_chunk cf (last_start t ops), A)]).
  { clear. induction ops as [|[ls p|ls pts|st'] ops IH]; intros t h; cbn [parts_from last_start].
    - exists []. eexists. reflexivity.
    - apply IH.
    - apply IH.
    - destruct (IH st' []) as (l0 & A & ->). exists ((the_chunk cf t, content_of (the_chunk cf t) h) :: l0). eexists. reflexivity. }
  destruct (LP t0 []) as (l0 & A & EP). unfold parts in HS. rewrite EP in HS.
  destruct (swap_run cf w l0 _ A st HS K9 K3 K10) as (w' & E3 & S' & _). rewrite <- EP in S'. fold (parts cf t0 ops) in S'.
  destruct (query_any hs bs o q s e w' _ (state_quiet _ _ _ S')) as (r' & E4 & Ha'); try assumption.
  { apply Forall_app. split; [now apply parts_ok|]. constructor; [|constructor]. constructor; cbn [snd].
    - constructor; [constructor|constructor|]. intros [|i] j a b E; discriminate.
    - constructor.
    - cbn. lia. }
  { now apply free_empty. }
  exists (outcomes cf t0 ops), w, r, w', r'. repeat (split; [assumption|]). eapply comes_alike; [exact Ha|]. exact (proj1 (comes_empty _ _ _ _ _ _) Ha').
Qed.

(** ** checking a history *)
Fixpoint timelyb (h : list ireq) : bool :=
  match h with
  | [] => true
  | a :: h' => forallb (fun b => negb (same_setb (fst a) (fst b)) || (tp_ts (snd a) <? tp_ts (snd b))) h' && timelyb h'
  end.
Lemma same_setb_perm a ls : set_ok a -> same_setb a ls = true -> Permutation a ls.
Proof.
  intros Ha H. unfold same_setb in H. apply andb_prop in H as [H1 H2]. rewrite forallb_forall in H2.
  apply NoDup_Permutation_bis; [apply distinct_NoDup, Ha|apply Nat.eqb_eq in H1; lia|]. intros x Hx. apply has_In. auto.
Qed.
Lemma timely_check h : Forall ireq_ok h -> timelyb h = true -> timely h.
Proof.
  intros H T ls. fold (of_set ls h). unfold of_set. induction H as [|[a p] h [Ha _] H IH]; [exact I|]. cbn [timelyb fst snd] in T.
  apply andb_prop in T as [T1 T2]. specialize (IH T2). cbn [filter fst]. destruct (same_setb a ls) eqn:Q; [|exact IH]. cbn [map snd increasing]. split; [|exact IH].
  rewrite Forall_forall. intros x Hx. apply in_map_iff in Hx as ([b p'] & <- & Hb). apply filter_In in Hb as [Hb Qb]. cbn [fst snd] in *.
  rewrite forallb_forall in T1. specialize (T1 _ Hb). cbn [fst snd] in T1. rewrite Forall_forall in H. destruct (H _ Hb) as [Hok _]. cbn [fst] in Hok.
  assert (same_setb a b = true) as E.
  { apply same_setb_spec; [apply Ha|apply Hok|]. eapply perm_trans; [apply (same_setb_perm a ls Ha Q)|]. apply Permutation_sym. now apply same_setb_perm. }
  rewrite E in T1. cbn in T1. lia.
Qed.

(* no label set of the contents is a proper prefix of another: prefix-free for every query *)
Fixpoint is_prefix (a b : list label) : bool :=
  match a, b with
  | [], _ => true
  | x :: a', y :: b' => label_eqb x y && is_prefix a' b'
  | _, [] => false
  end.
Definition freeb (l : list part) : bool :=
  let ms := map (fun x => sort_labels (fst x)) (concat (map snd l)) in
  forallb (fun m => forallb (fun m' => negb (is_prefix m m') || labs_eqb m m') ms) ms.
Lemma is_prefix_app m x : is_prefix m (m ++ x) = true.
Proof. induction m as [|a m IH]; [reflexivity|]. cbn [app is_prefix]. rewrite IH. destruct (label_eqb a a) eqn:E; [reflexivity|]. pose proof (proj2 (label_eqb_eq a a) eq_refl). congruence. Qed.
Lemma free_check l q s e : freeb l = true -> prefix_free l q s e.
Proof.
  intros H c c' m x Hc Hc' P P'. unfold freeb in H.
  assert (G: forall c m, In c l -> piece c q s e m <> [] -> In m (map (fun x => sort_labels (fst x)) (concat (map snd l)))).
  { clear. intros c m Hc P. destruct (piece c q s e m) as [|p l0] eqn:E; [congruence|].
    assert (Hp: In p (piece c q s e m)) by (rewrite E; now left). apply piece_in in Hp as (ls & pts & H1 & H2 & _).
    apply in_map_iff. exists (ls, pts). split; [exact H2|]. apply in_concat. exists (snd c). split; [|assumption]. now apply in_map. }
  rewrite forallb_forall in H. specialize (H _ (G _ _ Hc P)). rewrite forallb_forall in H. specialize (H _ (G _ _ Hc' P')).
  rewrite is_prefix_app in H. cbn [negb orb] in H. apply labs_eqb_spec in H.
  rewrite <- (app_nil_r m) in H at 1. apply app_inv_head in H. now subst.
Qed.
Lemma unmixed_check hs l q s e : freeb l = true -> unmixed hs l q s e.
Proof. intros H. apply free_unmixed. now apply free_check. Qed.
