(* A directory on which processes work one after the other, any of which may end in the middle of a
   write: as DbHist.v, DbFacts.v and ReopenProofs.v, with old chunks of which the stores may have been
   left halfway. *)
From Coq Require Import ZifyBool ZifyNat Permutation Sorted.
From Verif Require Import Rust StringProofs Prog Gorilla GorillaSpec Storage StorageSpec StorageProofs Labels IndexSpec Indexer
  LabelProofs IntersectProofs IndexProofs IndexHist Chunk ChunkSpec ChunkProofs ChunkFacts ConcSpec Conc CrashProofs ReadsSpec ReadsMay ReadsCrash
  ReadsConc Flush LossSpec FlushProofs LossProofs StopSpec CrashQuery
  Utils DirSpec DirProofs TiKvInit Db DbSpec MapProofs DbProofs DbHist RangeSpec RangeProofs DbFacts
  ReopenSpec ReopenProofs OpenProofs CrashOpen CrashKeep SearchSpec TornSpec TornProofs TornKnown TornAll TornManySpec.
Ltac Zify.zify_post_hook ::= Z.div_mod_to_equations.

Definition tpart : Type := (option (list label -> Prop) * part)%type.
Definition weak (Q : list label -> Prop) (d : dchunk) (B : content) : Prop :=
  hiding (dc_chunk d) B (w_st (dc_world d)) (w_ix (dc_world d)) /\ answering Q (dc_chunk d) B (w_st (dc_world d)) (w_ix (dc_world d)) /\ w_faults (dc_world d) = [] /\ w_locked (dc_world d) = false /\ w_poisoned (dc_world d) = false.
Definition kept_as (d : dchunk) (x : tpart) : Prop :=
  like (dc_chunk d) (fst (snd x)) /\ match fst x with Some Q => weak Q d (snd (snd x)) | None => crd (dc_chunk d) (dc_world d) (snd (snd x)) end.
Definition grel (h : list dchunk) (l : list tpart) : Prop := Forall2 kept_as h l.
Record gdrep (cf : config) (w : dworld) (l0 : list tpart) (c : chunk) (A : content) (h0 : list dchunk) (d : dchunk) : Prop := mkGdrep {
  gr_heap : d_heap w = h0 ++ [d];
  gr_cur : d_cur w = length h0;
  gr_sec : d_sec w = seq 0 (length h0);
  gr_curl : d_curl w = free_lock;
  gr_secl : d_secl w = free_lock;
  gr_old : grel h0 l0;
  gr_like : like (dc_chunk d) c;
  gr_crep : crep (dc_chunk d) (dc_world d) A;
  gr_env : env_ok (d_fs w);
  gr_meta : f_meta (d_fs w) = Some (Written (own_meta cf));
  gr_dirs : Forall2 (dir_ok cf) (f_dirs (d_fs w)) (h0 ++ [d]);
  gr_sorted : StronglySorted Z.lt (map (fun x => c_start (dc_chunk x)) (h0 ++ [d])) }.
Definition gstate (cf : config) (w : dworld) (l : list tpart) : Prop :=
  exists l0 c A h0 d, l = l0 ++ [(None, (c, A))] /\ gdrep cf w l0 c A h0 d.

Lemma gdrep_write cf w l0 c A h0 d cw A' : gdrep cf w l0 c A h0 d -> crep (dc_chunk d) cw A' ->
  gdrep cf (set_heap w (h0 ++ [mkDc (dc_chunk d) cw (dc_name d)])) l0 c A' h0 (mkDc (dc_chunk d) cw (dc_name d)).
Proof.
  intros [H1 H2 H3 H4 H5 H6 H7 H8 H9 H10 H11 H12] R. constructor; cbn [set_heap d_heap d_cur d_sec d_curl d_secl d_fs dc_chunk dc_world]; try assumption.
  - reflexivity.
  - apply Forall2_app_inv_r in H11. destruct H11 as (e1 & e2 & F1 & F2 & ->). apply Forall2_app; [assumption|].
    inversion F2 as [|e ? e2' ? F3 F4]; subst. inversion F4; subst. constructor; [|constructor]. exact F3.
  - rewrite map_app in *. exact H12.
Qed.
Lemma gpoint_run cf w l0 c A ls p : gstate cf w (l0 ++ [(None, (c, A))]) -> set_ok ls -> tp_ok p -> Z.of_nat (length A) + 1 < 2 ^ 64 ->
  exists w', drun (db_write_point ls p) w =
      Some (if in_windowb c (tp_ts p) then Ok tt else Err (OutOfRangeErr (c_start c) (c_end c)), w') /\
    gstate cf w' (l0 ++ [(None, (c, ins c A (ls, p)))]) /\ (in_windowb c (tp_ts p) = false -> w' = w) /\ d_fs w' = d_fs w.
Proof.
  intros (l1 & c1 & A1 & h0 & d & E & D) Hls Hp HL. apply app_inj_tail in E. destruct E as [<- E].
  assert (c1 = c) as -> by congruence. assert (A1 = A) as -> by congruence. clear E.
  pose proof D as [H1 H2 H3 H4 H5 H6 H7 H8 H9 H10 H11 H12].
  assert (N: nth_error (d_heap w) (d_cur w) = Some d) by (rewrite H1, H2; apply nth_last).
  unfold drun, db_write_point. rewrite (with_current_run _ w d) by assumption.
  rewrite (run_DC _ _ _ d) by exact N. cbn [set_curl d_heap].
  pose proof (insert_run (dc_chunk d) (dc_world d) A ls p H8 Hls Hp HL) as I. unfold crun in I. unfold ins. cbn [fst snd].
  rewrite <- (like_window _ _ H7). destruct H7 as (E1 & E2 & E3). rewrite <- E1, <- E2, <- E3.
  destruct (in_windowb (dc_chunk d) (tp_ts p)).
  - destruct I as (cw & -> & R & C). cbn [set_heap d_curl set_curl rw_unread rw_readers rw_writer rw_poisoned pred].
    eexists. split; [reflexivity|]. split; [|split; [discriminate|reflexivity]]. eexists l0, c, _, h0, (mkDc (dc_chunk d) cw (dc_name d)). split; [reflexivity|].
    pose proof (gdrep_write _ _ _ _ _ _ _ _ _ D R) as D'.
    replace (set_curl _ _) with (set_heap w (h0 ++ [mkDc (dc_chunk d) cw (dc_name d)])); [exact D'|].
    cbn [d_heap set_curl]. rewrite H1, H2, upd_last. clear - H4. destruct w; cbn in *. subst. reflexivity.
  - rewrite I. assert (mkDc (dc_chunk d) (dc_world d) (dc_name d) = d) as -> by now destruct d. rewrite upd_self by assumption.
    assert (X: set_curl (set_heap (set_curl w (mkRw 1 false false)) (d_heap w)) (rw_unread (d_curl (set_heap (set_curl w (mkRw 1 false false)) (d_heap w)))) = w).
    { destruct w; cbn in *. subst. reflexivity. }
    eexists. split; [reflexivity|]. rewrite X. split; [|split; reflexivity]. exists l0, c, A, h0, d. auto.
Qed.
Lemma gbatch_run cf w l0 c A ls pts : gstate cf w (l0 ++ [(None, (c, A))]) -> set_ok ls -> Forall tp_ok pts ->
  Z.of_nat (length A + length pts) < 2 ^ 64 ->
  exists w', drun (db_write_points ls pts) w =
      Some (if existsb (refused c) pts then Err InternalErr else Ok tt, w') /\
    gstate cf w' (l0 ++ [(None, (c, fold_left (ins c) (map (pair ls) pts) A))]) /\ d_fs w' = d_fs w.
Proof.
  intros (l1 & c1 & A1 & h0 & d & E & D) Hls Hp HL. apply app_inj_tail in E. destruct E as [<- E].
  assert (c1 = c) as -> by congruence. assert (A1 = A) as -> by congruence. clear E.
  pose proof D as [H1 H2 H3 H4 H5 H6 H7 H8 H9 H10 H11 H12].
  assert (N: nth_error (d_heap w) (d_cur w) = Some d) by (rewrite H1, H2; apply nth_last).
  assert (P: 0 <= c_start (dc_chunk d)).
  { apply Forall2_app_inv_r in H11. destruct H11 as (e1 & e2 & _ & F2 & _). inversion F2 as [|e ? ? ? F3 F4]; subst.
    destruct F3 as (_ & _ & U & _). unfold u64 in U. lia. }
  unfold drun, db_write_points. rewrite (with_current_run _ w d) by assumption. rewrite run_qbind.
  destruct (write_all_run (d_cur w) ls pts Hls Hp (set_curl w (mkRw 1 false false)) d A N H8 P HL) as (cw & -> & R & C).
  rewrite (fold_ins_ext _ _ H7) in R.
  assert (EX: existsb (refused (dc_chunk d)) pts = existsb (refused c) pts).
  { clear - H7. induction pts as [|p pts IH]; [reflexivity|]. cbn [existsb]. now rewrite IH, (like_refused _ _ H7). }
  rewrite EX. cbn [run].
  eexists. split; [reflexivity|]. split; [|reflexivity]. eexists l0, c, _, h0, (mkDc (dc_chunk d) cw (dc_name d)). split; [reflexivity|].
  pose proof (gdrep_write _ _ _ _ _ _ _ _ _ D R) as D'.
  replace (set_curl _ _) with (set_heap w (h0 ++ [mkDc (dc_chunk d) cw (dc_name d)])); [exact D'|].
  cbn [d_heap set_curl]. rewrite H1, H2, upd_last. clear - H4. destruct w; cbn in *. subst. reflexivity.
Qed.
Lemma gswap_at cf w l0 c A start : gstate cf w (l0 ++ [(None, (c, A))]) -> c_start c < start -> start < 2 ^ 64 -> 0 <= start + cf_size cf < 2 ^ 64 ->
  exists w', drun (db_swap cf start) w = Some (Ok tt, w') /\ gstate cf w' ((l0 ++ [(None, (c, A))]) ++ [(None, (the_chunk cf start, []))]) /\
    f_ticks (d_fs w') = f_ticks (d_fs w) /\ same_env (d_fs w) (d_fs w') /\ swapped cf w w'.
Proof.
  intros (l1 & c1 & A1 & h0 & d & E & D) Hst Hsz Hend. apply app_inj_tail in E. destruct E as [<- E].
  assert (c1 = c) as -> by congruence. assert (A1 = A) as -> by congruence. clear E.
  pose proof D as [H1 H2 H3 H4 H5 H6 H7 H8 H9 H10 H11 H12].
  assert (U: forall x, In x (h0 ++ [d]) -> 0 <= c_start (dc_chunk x) /\ c_start (dc_chunk x) < start).
  { intros x Hx. destruct H7 as (_ & E2 & _). split.
    - clear - H11 Hx. revert Hx. induction H11 as [|e y ds hs K1 K2 IH]; [contradiction|]. intros [<-|Hx]; [|now apply IH].
      destruct K1 as (_ & _ & U & _). unfold u64 in U. lia.
    - rewrite map_app in H12. cbn [map] in H12. apply in_app_or in Hx as [Hx|[<-|[]]]; [|lia].
      pose proof (sorted_last _ _ H12 (c_start (dc_chunk x))) as L. rewrite in_map_iff in L. specialize (L ltac:(eauto)). lia. }
  assert (S0: 0 <= start) by (pose proof (U d ltac:(apply in_or_app; right; now left)); lia).
  assert (FR: ~ In (encode_chunk_dir start (start + cf_size cf)) (map fst (f_dirs (d_fs w)))).
  { apply (fresh_name cf _ (h0 ++ [d])); [assumption|unfold u64; lia|unfold u64; lia|]. intros x Hx. pose proof (U x Hx). lia. }
  destruct (create_at cf start (d_fs w) H9 Hend FR) as (nd & f' & o & R & N1 & N2 & N3 & N4 & N5 & N6 & N7 & N8 & N9 & N10).
  destruct w as [heap cur sec curl secl fs]. cbn [d_heap d_cur d_sec d_curl d_secl d_fs] in *. subst heap cur sec curl secl.
  unfold drun, db_swap. rewrite run_qbind, run_DF. cbn [d_fs]. rewrite R. rewrite run_bind, run_call. dnorm. rewrite run_qbind.
  set (heap := (h0 ++ [d]) ++ [nd]).
  assert (NT: nth_error heap (length h0) = Some d).
  { unfold heap. rewrite nth_error_app1 by (rewrite app_length; cbn; lia). apply nth_last. }
  rewrite (with_current_run _ _ d) by (try exact NT; reflexivity). dnorm.
  do 3 (rewrite run_bind, run_call; dnorm). cbn [run]. dnorm.
  rewrite run_bind, run_call. dnorm. rewrite NT.
  rewrite run_bind. rewrite (run_DC _ _ _ d) by exact NT.
  unfold chunk_close. pose proof (crep_crd _ _ _ H8) as CR. rewrite with_lock_run by apply CR.
  rewrite run_bind, run_call. cbn [chandler run is_panic w_poisoned set_closed set_lock]. cbn [orb].
  do 2 (rewrite run_bind, run_call; dnorm). cbn [run].
  eexists. split; [reflexivity|].
  set (d' := mkDc (dc_chunk d) _ (dc_name d)).
  assert (HU: upd heap (length h0) d' = (h0 ++ [d']) ++ [nd]).
  { unfold heap. rewrite <- !app_assoc. cbn [app]. clear. induction h0 as [|x h0 IH]; [reflexivity|]. cbn [app length]. rewrite upd_cons. now rewrite IH. }
  split; [|split; [exact N9|split; [exact N10|]]]; [|exists h0, d, d', nd; cbn [d_heap]; split; [reflexivity|split; [exact HU|split; [reflexivity|split; [reflexivity|apply N4]]]]].
  exists (l0 ++ [(None, (c, A))]), (the_chunk cf start), [], (h0 ++ [d']), nd. split; [reflexivity|].
  constructor; cbn [d_heap d_cur d_sec d_curl d_secl d_fs].
  - exact HU.
  - rewrite !app_length. reflexivity.
  - rewrite app_length. cbn [length]. rewrite seq_app. reflexivity.
  - reflexivity.
  - reflexivity.
  - apply Forall2_app; [assumption|]. constructor; [|constructor]. split; [exact H7|]. apply crd_close. exact CR.
  - exact N2.
  - exact N3.
  - eapply same_env_ok; [exact N10|assumption].
  - now rewrite N8.
  - rewrite N5. apply Forall2_app.
    + apply Forall2_app_inv_r in H11. destruct H11 as (e1 & e2 & F1 & F2 & ->). apply Forall2_app; [assumption|].
      inversion F2 as [|e ? e2' ? F3 F4]; subst. inversion F4; subst. constructor; [|constructor]. exact F3.
    + constructor; [|constructor]. destruct N2 as (_ & Es & Ee). cbn [the_chunk c_start c_end] in Es, Ee. unfold dir_ok. cbn [fst snd]. rewrite Es, Ee.
      split; [reflexivity|]. split; [eauto|]. split; [unfold u64; lia|]. split; [|split; [exact N6|exact N7]]. exists (start + cf_size cf). split; [unfold u64; lia|]. split; [exact N1|lia].
  - assert (ES: c_start (dc_chunk nd) = start) by (destruct N2 as (_ & Es & _); exact Es).
    rewrite map_app. cbn [map]. rewrite ES. apply sorted_snoc.
    + rewrite map_app in *. exact H12.
    + intros y Hy. apply in_map_iff in Hy as (x & <- & Hx). apply in_app_or in Hx as [Hx|[<-|[]]].
      * apply U. apply in_or_app. now left.
      * cbn [dc_chunk d']. apply (U d). apply in_or_app. right. now left.
Qed.
Lemma gswap_run cf w l0 c A start : gstate cf w (l0 ++ [(None, (c, A))]) -> c_start c < start -> 0 <= cf_size cf -> start + cf_size cf < 2 ^ 64 ->
  exists w', drun (db_swap cf start) w = Some (Ok tt, w') /\ gstate cf w' ((l0 ++ [(None, (c, A))]) ++ [(None, (the_chunk cf start, []))]) /\
    f_ticks (d_fs w') = f_ticks (d_fs w) /\ same_env (d_fs w) (d_fs w') /\ swapped cf w w'.
Proof.
  intros HS Hst Hsz Hend. apply gswap_at; [assumption|assumption|lia|]. split; [|assumption].
  destruct HS as (l1 & c1 & A1 & h0 & d & E & D). apply app_inj_tail in E. destruct E as [_ E]. assert (c = c1) as -> by congruence.
  destruct (gr_like _ _ _ _ _ _ _ D) as (_ & L & _). pose proof (gr_dirs _ _ _ _ _ _ _ D) as F.
  apply Forall2_app_inv_r in F. destruct F as (e1 & e2 & _ & F2 & _). inversion F2 as [|e ? ? ? F3 F4]; subst.
  destruct F3 as (_ & _ & U & _). unfold u64 in U. lia.
Qed.
Lemma ghist_from cf ops : 0 <= cf_size cf -> forall start h w l0,
  gstate cf w (l0 ++ [(None, (the_chunk cf start, content_of (the_chunk cf start) h))]) -> starts_ok cf start ops ->
  Forall ireq_ok (written ops) -> Z.of_nat (length h + length (written ops)) < 2 ^ 64 - 1 ->
  exists w', db_after_from cf ops w = Some (outcomes cf start ops, w') /\ gstate cf w' (l0 ++ map (pair None) (parts_from cf start h ops)) /\
    f_ticks (d_fs w') = f_ticks (d_fs w) /\ same_env (d_fs w) (d_fs w').
Proof.
  intros Hsz. induction ops as [|o ops IH]; intros start h w l0 HS Ho Hw HL.
  - exists w. split; [reflexivity|]. split; [exact HS|]. split; [reflexivity|apply same_env_refl].
  - pose proof (content_length (the_chunk cf start) h) as CL.
    destruct o as [ls p|ls pts|start']; cbn [written starts_ok parts_from outcomes db_after_from dop_prog outcome] in *.
    + inversion Hw as [|? ? [H1 H2] Hw']; subst. cbn [fst snd length] in *.
      destruct (gpoint_run cf w l0 _ _ ls p HS H1 H2 ltac:(lia)) as (w1 & E & S1 & _ & F1). rewrite E.
      rewrite <- content_snoc in S1. destruct (IH start (h ++ [(ls, p)]) w1 l0 S1 Ho Hw') as (w' & E' & S' & T' & N').
      { rewrite app_length. cbn [length]. unfold ireq in *. lia. }
      exists w'. rewrite E', <- F1. split; [reflexivity|]. split; [exact S'|]. split; assumption.
    + destruct pts as [|p0 pts0].
      { cbn [map app existsb] in *. assert (E: exists w1, drun (db_write_points ls []) w = Some (Ok tt, w1) /\
          gstate cf w1 (l0 ++ [(None, (the_chunk cf start, content_of (the_chunk cf start) h))]) /\ d_fs w1 = d_fs w).
        { destruct HS as (l1 & c1 & A1 & h0 & d & Eq & D). pose proof D as [H1 H2 H3 H4 H5 H6 H7 H8 H9 H10 H11 H12].
          exists w. split; [|split; [exists l1, c1, A1, h0, d; auto|reflexivity]].
          unfold drun, db_write_points. rewrite (with_current_run _ w d); [|assumption|rewrite H1, H2; apply nth_last].
          rewrite run_qbind. cbn [write_all run]. clear - H4. destruct w; cbn in *. now subst. }
        destruct E as (w1 & -> & S1 & F1). rewrite app_nil_r, <- F1. destruct (IH start h w1 l0 S1 Ho Hw HL) as (w' & -> & S'). exists w'. auto. }
      remember (p0 :: pts0) as pts. apply Forall_app in Hw. destruct Hw as [Hb Hw']. rewrite app_length, map_length in HL.
      assert (H1: set_ok ls) by (subst pts; inversion Hb as [|? ? [K _] _]; exact K).
      assert (H2: Forall tp_ok pts) by (clear - Hb; induction pts; inversion Hb as [|? ? [_ K] K2]; subst; constructor; auto).
      destruct (gbatch_run cf w l0 _ _ ls pts HS H1 H2 ltac:(lia)) as (w1 & E & S1 & F1).
      assert (EX: existsb (refused (the_chunk cf start)) pts = existsb (on_edge (the_chunk cf start)) pts).
      { clear - Hsz. induction pts as [|p pts IH]; [reflexivity|]. cbn [existsb]. rewrite IH, refused_edge; [reflexivity|]. cbn. lia. }
      rewrite E, EX. unfold content_of in S1. rewrite <- fold_left_app in S1. destruct (IH start (h ++ map (pair ls) pts) w1 l0 S1 Ho Hw') as (w' & E' & S' & T' & N').
      { rewrite app_length, map_length. unfold ireq in *. lia. }
      exists w'. rewrite E', <- F1. split; [reflexivity|]. split; [exact S'|]. split; assumption.
    + destruct Ho as (H1 & H2 & H3).
      destruct (gswap_run cf w l0 _ _ start' HS H1 Hsz H2) as (w1 & E & S1 & T1 & N1 & _). rewrite E.
      destruct (IH start' [] w1 (l0 ++ [(None, (the_chunk cf start, content_of (the_chunk cf start) h))]) S1 H3 Hw) as (w' & E' & S' & T' & N').
      { cbn [length]. lia. }
      exists w'. rewrite E'. split; [reflexivity|]. cbn [map]. rewrite <- app_assoc in S'. split; [exact S'|]. split; [congruence|]. eapply same_env_trans; eassumption.
Qed.
Lemma gop_halfway cf w l0 c A h0 d op ls : gdrep cf w l0 c A h0 d -> Forall ireq_ok (written [op]) -> writes ls op ->
  Z.of_nat (length A + length (written [op])) < 2 ^ 64 ->
  keeps dhandler (halfway (d_fs w) h0 d A (written [op])) (dop_prog cf op) w.
Proof.
  intros [H1 H2 H3 H4 H5 H6 H7 H8 H9 H10 H11 H12] Hr Hop HL.
  assert (N: nth_error (d_heap w) (d_cur w) = Some d) by (rewrite H1, H2; apply nth_last).
  assert (T: halfway (d_fs w) h0 d A (written [op]) w) by (apply halfway_none; try assumption; [reflexivity|lia]).
  assert (P: 0 <= c_start (dc_chunk d)).
  { apply Forall2_app_inv_r in H11. destruct H11 as (e1 & e2 & _ & F2 & _). inversion F2 as [|e ? ? ? F3 F4]; subst.
    destruct F3 as (_ & _ & U & _). unfold u64 in U. lia. }
  destruct Hop as [(p & ->)|(pts & ->)]; cbn [dop_prog written] in *.
  - cbn [app length] in *. inversion Hr as [|? ? [K1 K2] _]; subst. cbn [fst snd] in K1, K2.
    unfold db_write_point. apply (current_keeps _ _ w d); try assumption; [intros ? ? X; exact X|].
    apply (keeps_DC _ _ _ _ d); [exact N|]. intros n. split; [reflexivity|]. cbn [set_curl set_heap d_heap].
    destruct (hiding_crash (dc_chunk d) (dc_world d) A ls p n H8 K1 K2 ltac:(lia)) as [K|K].
    + exists 0%nat. eexists. split; [now rewrite H1, H2, upd_last|]. exact K.
    + exists 1%nat. eexists. split; [now rewrite H1, H2, upd_last|]. exact K.
  - rewrite app_nil_r in *. rewrite map_length in HL.
    unfold db_write_points. apply (current_keeps _ _ w d); try assumption; [intros ? ? X; exact X|]. rewrite H2.
    assert (K: keeps dhandler (halfway (d_fs w) h0 d A (map (pair ls) pts)) (write_all (length h0) (dc_chunk d) ls pts) (set_curl w (mkRw 1 false false))).
    { apply write_all_halfway; try assumption; try reflexivity.
      rewrite Forall_forall in *. intros x Hx. apply (Hr (ls, x)). now apply in_map. }
    unfold qbind. apply keeps_bind; [exact K|]. intros a w' E. pose proof (keeps_end _ _ _ _ _ _ K E). destruct a; now apply keeps_ret.
Qed.

Lemma gop_partly cf w l0 c A h0 d op ls : gdrep cf w l0 c A h0 d -> Forall ireq_ok (written [op]) -> writes ls op -> known A ls ->
  Z.of_nat (length A + length (written [op])) < 2 ^ 64 ->
  keeps dhandler (partly (d_fs w) h0 d A (written [op])) (dop_prog cf op) w.
Proof.
  intros [H1 H2 H3 H4 H5 H6 H7 H8 H9 H10 H11 H12] Hr Hop Kn HL.
  assert (N: nth_error (d_heap w) (d_cur w) = Some d) by (rewrite H1, H2; apply nth_last).
  assert (T: partly (d_fs w) h0 d A (written [op]) w).
  { split; [reflexivity|]. exists 0%nat, (dc_world d). split; [rewrite H1; now destruct d|]. change (answering (fun _ => True) (dc_chunk d) A (w_st (dc_world d)) (w_ix (dc_world d))). apply answering_crep; [exact H8|lia]. }
  assert (P: 0 <= c_start (dc_chunk d)).
  { apply Forall2_app_inv_r in H11. destruct H11 as (e1 & e2 & _ & F2 & _). inversion F2 as [|e ? ? ? F3 F4]; subst.
    destruct F3 as (_ & _ & U & _). unfold u64 in U. lia. }
  destruct Hop as [(p & ->)|(pts & ->)]; cbn [dop_prog written] in *.
  - cbn [app length] in *. inversion Hr as [|? ? [K1 K2] _]; subst. cbn [fst snd] in K1, K2.
    unfold db_write_point. apply (current_keeps _ _ w d); try assumption; [intros ? ? X; exact X|].
    apply (keeps_DC _ _ _ _ d); [exact N|]. intros n. split; [reflexivity|]. cbn [set_curl set_heap d_heap].
    destruct (known_crash (fun _ => True) (dc_chunk d) (dc_world d) A ls p n H8 K1 K2 ltac:(lia) Kn) as [K|K].
    + exists 0%nat. eexists. split; [now rewrite H1, H2, upd_last|]. exact K.
    + exists 1%nat. eexists. split; [now rewrite H1, H2, upd_last|]. exact K.
  - rewrite app_nil_r in *. rewrite map_length in HL.
    unfold db_write_points. apply (current_keeps _ _ w d); try assumption; [intros ? ? X; exact X|]. rewrite H2.
    assert (K: keeps dhandler (partly (d_fs w) h0 d A (map (pair ls) pts)) (write_all (length h0) (dc_chunk d) ls pts) (set_curl w (mkRw 1 false false))).
    { apply write_all_partly; try assumption; try reflexivity.
      rewrite Forall_forall in *. intros x Hx. apply (Hr (ls, x)). now apply in_map. }
    unfold qbind. apply keeps_bind; [exact K|]. intros a w' E. pose proof (keeps_end _ _ _ _ _ _ K E). destruct a; now apply keeps_ret.
Qed.
Lemma gop_keeps cf w l0 c A h0 d op ls : gdrep cf w l0 c A h0 d -> Forall ireq_ok (written [op]) -> (forall r, In r (written [op]) -> fst r = ls) ->
  (forall st, op <> OpSwap st) -> Z.of_nat (length A + length (written [op])) < 2 ^ 64 ->
  keeps dhandler (torn (d_fs w) h0 d A ls) (dop_prog cf op) w.
Proof.
  intros [H1 H2 H3 H4 H5 H6 H7 H8 H9 H10 H11 H12] Hr Hl Hsw HL.
  assert (N: nth_error (d_heap w) (d_cur w) = Some d) by (rewrite H1, H2; apply nth_last).
  assert (T: torn (d_fs w) h0 d A ls w).
  { split; [reflexivity|]. exists (dc_world d). split; [rewrite H1; now destruct d|]. eapply others_crep; [exact H8|lia|reflexivity]. }
  destruct op as [l p|l pts|st]; [| |now destruct (Hsw st)]; cbn [dop_prog written] in *.
  - cbn [app length] in *. specialize (Hl (l, p) ltac:(now left)). cbn [fst] in Hl. subst l. inversion Hr as [|? ? [K1 K2] _]; subst. cbn [fst snd] in K1, K2.
    unfold db_write_point. apply (current_keeps _ _ w d); try assumption; [intros ? ? X; exact X|].
    apply (keeps_DC _ _ _ _ d); [exact N|]. intros n. split; [reflexivity|]. cbn [set_curl set_heap d_heap]. eexists. split; [now rewrite H1, H2, upd_last|].
    eapply others_crash; [exact H8|assumption|assumption|lia|reflexivity].
  - rewrite app_nil_r in *. rewrite map_length in HL.
    unfold db_write_points. apply (current_keeps _ _ w d); try assumption; [intros ? ? X; exact X|]. rewrite H2.
    assert (K: keeps dhandler (torn (d_fs w) h0 d A ls) (write_all (length h0) (dc_chunk d) l pts) (set_curl w (mkRw 1 false false))).
    { destruct pts as [|p pts]; [apply keeps_ret; exact T|]. pose proof (Hl (l, p) ltac:(now left)) as E. cbn [fst] in E. subst l.
      apply (write_all_keeps ls (p :: pts) _ h0 A) with (B := A); try assumption; try reflexivity.
      rewrite Forall_forall in *. intros x Hx. apply (Hr (ls, x)). now apply in_map. }
    unfold qbind. apply keeps_bind; [exact K|]. intros a w' E. pose proof (keeps_end _ _ _ _ _ _ K E). destruct a; now apply keeps_ret.
Qed.

(** ** opening what a process has left *)
Definition left_as (d : dchunk) (x : tpart) : Prop :=
  like (dc_chunk d) (fst (snd x)) /\
  match fst x with
  | Some Q => hiding (dc_chunk d) (snd (snd x)) (w_st (dc_world d)) (w_ix (dc_world d)) /\ answering Q (dc_chunk d) (snd (snd x)) (w_st (dc_world d)) (w_ix (dc_world d))
  | None => crd (dc_chunk d) (dc_world d) (snd (snd x))
  end.
Definition rest (cf : config) (w : dworld) (l : list tpart) : Prop :=
  exists hs, d_heap w = hs /\ Forall2 left_as hs l /\ env_ok (d_fs w) /\ f_meta (d_fs w) = Some (Written (own_meta cf)) /\
    Forall2 (dir_ok cf) (f_dirs (d_fs w)) hs /\ StronglySorted Z.lt (map dstart hs).
Definition tclip (clock : nat -> Z) (lo hi : nat) (x x' : tpart) : Prop := fst x' = fst x /\ clip clock lo hi (snd x) (snd x').
Lemma greopen cf cf' w l : rest cf w l -> cf_st cf = Sled -> cf_ix cf = Sled -> cf_st cf' = Sled -> cf_ix cf' = Sled ->
  cf_base cf' <> [] -> ascii (cf_base cf') -> 0 <= cf_size cf' ->
  let f := stopped cf w in
  let start := f_clock f (f_ticks f + length l) in
  (forall x, In x l -> c_start (fst (snd x)) < start) -> start + cf_size cf' < 2 ^ 64 ->
  exists w' l', db_open cf' f = Some (Ok tt, w') /\ gstate cf' w' (l' ++ [(None, (the_chunk cf' start, []))]) /\
    f_ticks (d_fs w') = S (f_ticks f + length l) /\ same_env f (d_fs w') /\
    Forall2 (tclip (f_clock f) (f_ticks f) (f_ticks f + length l)) l l'.
Proof.
  intros (hs & H1 & HR & H9 & H10 & H11 & H12) Hst Hix Hst' Hix' Hb Ha Hsz f start Hlast Hend.
  assert (He: env_ok f) by exact H9. pose proof He as (Hord & Huid & Hclk & Hflt).
  assert (LN: length hs = length l) by (clear - HR; induction HR; cbn [length]; congruence).
  pose proof (stopped_dirs cf w hs H1 H11 H12) as SD. fold f in SD. rewrite Hst, Hix in SD. cbn [on_stop] in SD.
  assert (NM: map fst (f_dirs f) = map dc_name hs) by (eapply F2_fst; [|exact SD]; intros ? ? [K _]; exact K).
  pose proof (names_distinct cf _ _ H11 H12) as ND.
  assert (OD: Forall (on_disk (f_dirs f)) hs).
  { rewrite Forall_forall. intros x Hx.
    assert (X: exists e e', In e (f_dirs f) /\ dir_ok cf e' x /\ fst e = dc_name x /\ exists o, snd e = mkCdir (Some (Written o)) (Some (w_st (dc_world x))) (Some (w_ix (dc_world x)))).
    { assert (Y: exists e', dir_ok cf e' x).
      { clear - H11 Hx. induction H11 as [|e y ds hs K1 K2 IH]; [contradiction|]. destruct Hx as [->|Hx]; eauto. }
      destruct Y as (e' & Y). clear - SD Hx Y. induction SD as [|e y ds hs (K1 & o & a & b & K2) K3 IH]; [contradiction|].
      destruct Hx as [->|Hx]; [|destruct (IH Hx) as (e0 & e1 & Q & R); exists e0, e1; split; [now right|exact R]].
      exists e, e'. split; [now left|]. split; [assumption|]. split; [assumption|]. eauto. }
    destruct X as ([n dd] & e' & X1 & (_ & _ & U & (en & Ue & Nn & B) & _) & X2 & o & X3). cbn [fst snd] in *. subst n dd.
    exists o, en. split; [apply find_dir_in; [now rewrite NM|assumption]|]. auto. }
  destruct (read_existing_sled cf' f hs Hb Ha Hst' Hix' Hflt Hord) as (h' & E & FR); try assumption.
  { unfold f, stopped, left_behind. cbn [set_dirs f_meta]. rewrite H10. discriminate. }
  unfold db_open, db_new. rewrite run_qbind.
  assert (EM: f_meta f = Some (Written (own_meta cf))) by exact H10.
  rewrite (meta_run cf' _ f Hflt EM). rewrite (proj2 (own_meta_inj cf cf')) by (split; congruence).
  rewrite run_qbind, E. rewrite LN in *.
  rewrite run_bind, run_call. cbn [fhandler].
  assert (ES: f_clock (ticked (length l) f) (f_ticks (ticked (length l) f)) = start).
  { unfold start. cbn [ticked f_clock f_ticks]. f_equal. lia. }
  rewrite ES. assert (Us: u64 start) by apply Hclk.
  assert (LT: forall x, In x hs -> dstart x < start).
  { intros x Hx. assert (X: exists p, In p l /\ like (dc_chunk x) (fst (snd p))).
    { clear - HR Hx. induction HR as [|a b h l [K _] F IH]; [contradiction|]. destruct Hx as [<-|Hx]; [exists b; split; [now left|exact K]|].
      destruct (IH Hx) as (p & I1 & I2). exists p. split; [now right|exact I2]. }
    destruct X as (p & X1 & (_ & X2 & _)). unfold dstart. rewrite X2. now apply Hlast. }
  set (f1 := tick (ticked (length l) f)).
  assert (FRS: ~ In (encode_chunk_dir start (start + cf_size cf')) (map fst (f_dirs f1))).
  { change (f_dirs f1) with (f_dirs f). rewrite NM. intros K. apply in_map_iff in K as (x & K & Hx).
    rewrite Forall_forall in OD. destruct (OD x Hx) as (o & en & _ & U1 & U2 & N & _). rewrite N in K.
    apply encode_inj in K as [K _]; try assumption; [|unfold u64 in *; lia]. specialize (LT x Hx). lia. }
  destruct (create_run cf' start f1 He) as (nd & f2 & o & R & N1 & N2 & N3 & N4 & N5 & N6 & N7 & N8 & N9 & N10); try assumption; try (unfold u64 in Us; lia).
  rewrite run_qbind, R. cbn [run].
  set (l' := map (fun x : dchunk * tpart => (fst (snd x), (dc_chunk (fst x), snd (snd (snd x))))) (combine h' l)).
  assert (L': length h' = length l) by (rewrite <- LN; clear - FR; induction FR; cbn; congruence).
  eexists _, l'. split; [reflexivity|]. split.
  - exists l', (the_chunk cf' start), [], h', nd. split; [reflexivity|]. unfold opened. cbn [fst snd].
    constructor; cbn [d_heap d_cur d_sec d_curl d_secl d_fs]; try reflexivity.
    + (* contents *)
      unfold l'. clear - FR HR H11 Hst Hix. remember (f_ticks f + length l)%nat as hi eqn:Qh. clear Qh. revert l HR. generalize dependent (f_dirs (d_fs w)).
      induction FR as [|x x' hs h' (en & i & _ & _ & _ & _ & ->) FR IH]; intros ds HD l HR; inversion HR as [|? p ? l1 [K1 K2] K3]; subst; [constructor|].
      inversion HD as [|e ? ds' ? D1 D2]; subst. cbn [combine map fst snd]. constructor; [|now apply (IH ds')].
      cbn [fst snd]. split; [repeat split|]. cbn [fst snd].
      destruct D1 as (_ & _ & _ & _ & Ds & Di). destruct (fst p).
      * destruct K2 as (Kh & Ka). split; [|split; [|repeat split]].
        -- intros ch0 v0 bs0 o0 q0 s0 e0 E1 E2 E3 E4. apply Kh; try assumption; [rewrite (Ds Hst); exact E1|rewrite (Di Hix); exact E2].
        -- intros ch0 v0 bs0 o0 q0 s0 e0 E1 E2 E3 E4. apply Ka; try assumption; [rewrite (Ds Hst); exact E1|rewrite (Di Hix); exact E2].
      * destruct K2 as [R1 R2 R3 R4 R5 R6].
        constructor; cbn [reopened_chunk dc_chunk dc_world c_indexer c_storage w_ix w_st set_closed new_world w_locked w_poisoned w_faults]; try reflexivity; try assumption.
        -- rewrite <- (Di Hix). exact R1.
        -- rewrite <- (Ds Hst). exact R2.
    + exact N2.
    + exact N3.
    + eapply same_env_ok; [exact N10|exact He].
    + rewrite N8. change (f_meta f1) with (f_meta f). rewrite EM. unfold own_meta. now rewrite Hst, Hix, Hst', Hix'.
    + rewrite N5. change (f_dirs f1) with (f_dirs f). apply Forall2_app.
      * assert (G: forall ds ds0 h h', Forall2 (dir_ok cf) ds0 h ->
          Forall2 (fun e d => fst e = dc_name d /\ exists o (a b : option kv), snd e = mkCdir (Some (Written o)) (Some (w_st (dc_world d))) (Some (w_ix (dc_world d)))) ds h ->
          Forall2 (reop (f_clock f) (f_ticks f) (f_ticks f + length l)) h h' -> Forall2 (dir_ok cf') ds h').
        { clear. intros ds ds0 h h' F1 F2 F3. revert ds ds0 F1 F2. induction F3 as [|x x' h h' (en & i & U & N & B & _ & ->) F3 IH]; intros ds ds0 F1 F2;
            inversion F1 as [|e1 ? ? ? P1 P2]; subst; inversion F2 as [|e2 ? ? ? (Q1 & o & _ & _ & Q2) Q3]; subst; constructor; [|eapply IH; eassumption].
          destruct P1 as (_ & _ & Us & _). unfold dir_ok, reopened_chunk. cbn [dc_name dc_chunk c_start c_end c_storage c_indexer].
          split; [exact Q1|]. split; [eauto|]. split; [exact Us|]. split; [|split; reflexivity].
          exists en. split; [assumption|]. split; [assumption|]. destruct (_ <? _) eqn:Q; lia. }
        exact (G _ _ _ _ H11 SD FR).
      * constructor; [|constructor]. destruct N2 as (_ & Es & Ee). cbn [the_chunk c_start c_end] in Es, Ee. unfold dir_ok. cbn [fst snd]. rewrite Es, Ee.
        split; [reflexivity|]. split; [eauto|]. split; [exact Us|]. split; [|split; [exact N6|exact N7]]. exists (start + cf_size cf').
        split; [unfold u64 in *; lia|]. split; [exact N1|lia].
    + change (StronglySorted Z.lt (map dstart (h' ++ [nd]))). rewrite map_app, (reop_start _ _ _ _ _ FR). cbn [map].
      assert (dstart nd = start) as -> by (destruct N2 as (_ & Es & _); exact Es).
      apply sorted_snoc; [exact H12|]. intros y Hy. apply in_map_iff in Hy as (x & <- & Hx). now apply LT.
  - cbn [opened d_fs]. split; [rewrite N9; cbn [f1 tick ticked f_ticks]; lia|]. split; [exact N10|].
    unfold l'. clear - FR HR. remember (f_ticks f + length l)%nat as hi eqn:Qh. clear Qh. revert l HR.
    induction FR as [|x x' hs h' (en & i & _ & _ & B & Hi & ->) FR IH]; intros l HR; inversion HR as [|? p ? l1 [(K0 & K1 & K2) _] K3]; subst; [constructor|].
    cbn [combine map fst snd]. constructor; [|now apply IH]. split; [reflexivity|]. unfold clip. cbn [fst snd reopened_chunk dc_chunk c_start c_end].
    split; [reflexivity|]. split; [unfold dstart; congruence|]. exists en, i. split; [lia|]. split; [exact Hi|reflexivity].
Qed.
Lemma kept_left h l : grel h l -> Forall2 left_as h l.
Proof.
  induction 1 as [|d x h l [K1 K2] _ IH]; constructor; [|exact IH]. split; [exact K1|]. destruct (fst x); [destruct K2 as (Ka & Kb & _); auto|exact K2].
Qed.
Lemma state_rest cf w l : gstate cf w l -> rest cf w l.
Proof.
  intros (l0 & c & A & h0 & d & -> & [H1 H2 H3 H4 H5 H6 H7 H8 H9 H10 H11 H12]). exists (h0 ++ [d]). split; [exact H1|]. split.
  { apply Forall2_app; [now apply kept_left|]. constructor; [|constructor]. split; [exact H7|]. cbn [fst snd]. now apply crep_crd. }
  split; [exact H9|]. split; [exact H10|]. split; [exact H11|]. exact H12.
Qed.
Lemma state_gstate cf w l : state cf w l -> gstate cf w (map (pair None) l).
Proof.
  intros (l0 & c & A & h0 & d & -> & [H1 H2 H3 H4 H5 H6 H7 H8 H9 H10 H11 H12]). exists (map (pair None) l0), c, A, h0, d. split; [now rewrite map_app|].
  constructor; try assumption. clear - H6. induction H6; cbn [map]; constructor; assumption.
Qed.

(** ** a query over the chunks *)
Definition rank (bs : bsearch) (o : timing) (q : list label) (s e : Z) (P : list part) (x : tpart) (d : dchunk) (a : res (list series)) : Prop :=
  gives bs o q s e d a /\ wfa (set_of P) (okl a) /\
  gives_piece x q s e (fun m => pf m (okl a)).
Lemma rank_any bs o q s e P x d : kept_as d x -> part_ok (snd x) -> In (snd x) P -> bs_contract bs -> Forall lab_ok q -> s <= e ->
  exists a, rank bs o q s e P x d a.
Proof.
  destruct x as [b [c B]]. intros [K1 K2] [Wb Ib Lb] Hin Hbs Hq Hse. cbn [fst snd] in *. destruct b as [Q|].
  - destruct K2 as (Kh & Ka & F1 & F2 & F3). destruct (Kh (dc_chunk d) (dc_world d) bs o q s e) as (keep & t & Ht & Ex); try reflexivity; try assumption.
    set (a := answer_from (dc_chunk d) (reader bs s e) (filter keep (matching B q) ++ t) s e) in *.
    destruct (hiding_okl bs (dc_chunk d) c B q s e keep t Hbs Wb Ib Hse Ht) as (A1 & A2 & A3 & A4 & A5). fold a in A1, A2, A3, A4, A5.
    exists a. split; [|split].
    + split; [exact Ex|]. split; [exact A1|]. intros O. unfold a, answer_from. now rewrite O.
    + constructor; [exact A2| |exact A3]. rewrite Forall_forall in *. intros y Hy. destruct (A4 y Hy) as ([ls pts] & Z1 & Z2). exists (c, B), ls, pts. auto.
    + intros m. cbn [fst snd]. split; [apply A5|]. intros HQ.
      assert (EA: a = ans bs q s e (c, B)).
      { pose proof (Ka (dc_chunk d) (dc_world d) bs o q s e eq_refl eq_refl eq_refl eq_refl F1 F2 F3 Hq HQ) as Ex'. rewrite Ex in Ex'. injection Ex' as Ex'. rewrite Ex'.
        unfold answer_from, ans. cbn [fst snd]. destruct K1 as (_ & L2 & L3). cbn [fst] in L2, L3. rewrite L2, L3. reflexivity. }
      rewrite EA. apply (part_wfa bs q s e (c, B) P); try assumption; [constructor; assumption|]. intros m' Hx. eapply piece_set; eassumption.
  - exists (ans bs q s e (c, B)). assert (OK: part_ok (c, B)) by (constructor; assumption). split; [|split].
    + now apply part_gives.
    + apply part_wfa; try assumption. intros m Hx. eapply piece_set; eassumption.
    + intros m'. cbn [fst snd]. revert m'. apply (part_wfa bs q s e (c, B) P); try assumption. intros m Hx. eapply piece_set; eassumption.
Qed.
Lemma ranks bs o q s e P h l : grel h l -> Forall part_ok (map snd l) -> (forall x, In x l -> In (snd x) P) -> bs_contract bs -> Forall lab_ok q -> s <= e ->
  exists As, Forall2 (gives bs o q s e) h As /\ Forall (fun a => wfa (set_of P) (okl a)) As /\
    Forall2 (fun x y => gives_piece x q s e y) l (map (fun a m => pf m (okl a)) As).
Proof.
  intros H. induction H as [|d x h l K _ IH]; intros OK Hin Hbs Hq Hse; [exists []; repeat constructor|]. inversion OK as [|? ? O1 O2]; subst.
  destruct (rank_any bs o q s e P x d K O1 (Hin x (or_introl eq_refl)) Hbs Hq Hse) as (a & R1 & R2 & R3).
  destruct IH as (As & I1 & I2 & I3); try assumption; [intros y Hy; apply Hin; now right|]. exists (a :: As). cbn [map]. repeat (constructor; try assumption).
Qed.
Lemma gquery cf w l hs bs o q s e : gstate cf w l -> Forall part_ok (map snd l) ->
  hasher_ok hs -> bs_contract bs -> Forall lab_ok q -> s <= e -> apart_in hs (map snd l) ->
  exists r, drun (db_query hs bs o q s e) w = Some (Ok r, w) /\ answer_torn l q s e r.
Proof.
  intros (l0 & c & A & h0 & d & El & [H1 H2 H3 H4 H5 H6 H7 H8 H9 H10 H11 H12]) OK Hh Hbs Hq Hse Hp.
  assert (G: grel (h0 ++ [d]) l).
  { rewrite El. apply Forall2_app; [exact H6|]. constructor; [|constructor]. split; [exact H7|]. cbn [fst snd]. now apply crep_crd. }
  destruct (ranks bs o q s e (map snd l) _ _ G OK) as (As & R1 & R2 & R3); try assumption; [intros x Hx; now apply in_map|].
  apply Forall2_app_inv_l in R1. destruct R1 as (A0 & A1 & F1 & F2 & ->). inversion F2 as [|? a ? ? F3 F4]; subst A1. inversion F4; subst. clear F2 F4.
  pose proof (query_gives hs bs o q s e w A0 a) as E. rewrite <- (F2_size _ _ _ F1) in E. rewrite H1 in E.
  specialize (E ltac:(apply Forall2_app; [assumption|now constructor]) H2 H3 H4 H5).
  apply Forall_app in R2 as [W0 W1]. inversion W1 as [|? ? W _]; subst.
  destruct (assembled_spec (set_of (map snd (l0 ++ [(None, (c, A))]))) hs Hp Hh (okl a) (map okl (rev A0))) as (r & Er & N & _ & M).
  { exact W. }
  { rewrite Forall_forall in *. intros y Hy. apply in_map_iff in Hy as (z & <- & Hz). apply in_rev in Hz. now apply W0. }
  exists r. split; [now rewrite E, Er|]. eexists. split; [exact R3|]. split; [exact N|]. intros m pts. rewrite M.
  cbn [rev]. rewrite <- map_rev, rev_involutive. rewrite !map_app, !map_map. reflexivity.
Qed.
