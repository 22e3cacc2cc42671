(* What a database answers after the process was killed in the middle of a write and the directory was opened again. *)
From Coq Require Import ZifyBool ZifyNat Permutation Sorted.
From Verif Require Import Rust StringProofs Prog Gorilla GorillaSpec Storage StorageSpec StorageProofs Labels IndexSpec Indexer
  LabelProofs IntersectProofs IndexProofs IndexHist Chunk ChunkSpec ChunkProofs ChunkFacts ConcSpec Conc CrashProofs ReadsSpec ReadsMay ReadsCrash
  ReadsFacts ReadsConc Flush LossSpec FlushProofs LossProofs StopSpec CrashQuery
  Utils DirSpec DirProofs TiKvInit Db DbSpec MapProofs DbProofs DbHist RangeSpec RangeProofs DbFacts
  ReopenSpec ReopenProofs OpenProofs CrashOpen CrashKeep.
Ltac Zify.zify_post_hook ::= Z.div_mod_to_equations.

(** ** one chunk *)
Lemma loss_seen_at ch bs o C A n w q s e : grown C A -> wfc A -> Z.of_nat (length A) < 2 ^ 64 -> (n <= length A)%nat ->
  w_faults w = [] -> w_locked w = false -> w_poisoned w = false ->
  holds_series (c_storage ch) (w_st w) (pts_of C) -> between (c_indexer ch) (w_ix w) (regs A) n -> Forall lab_ok q ->
  exists M, seen (cut C (firstn n A)) (cut C A) q M /\
    crun ch (chunk_query ch bs o q s e) w = Some (answer_from ch (reader bs s e) M s e, w).
Proof.
  intros G W HL Hn Hf Hlk Hpo Hst Hix Hq.
  assert (G1: grown (cut C (firstn n A)) (cut C A)) by (rewrite cut_firstn; apply grown_firstn).
  destruct (run_may ch (GC ch (cut C (firstn n A)) (cut C A)) w (chunk_query ch bs o q s e) Hf Hlk) as (a & Ea & Ma); [|apply query_reads|].
  - intros X c x Hc. revert x. destruct Hc as [k|k|]; intros x E; cbn [chandler kv_fault_handler] in E; rewrite ?Hf in E; cbn [hd] in E; cbn [GC GS GI].
    + exists (w_st w). split; [|injection E as E _; exact (eq_sym E)]. exists (pts_of (cut C A)). split.
      * eapply holds_ext; [|exact Hst]. intros id. symmetry. now apply cut_pts.
      * intros id. split; [now apply grown_pts|apply prefix_refl].
    + destruct (Hix k) as (s' & m & Lm & Hr & Ek). exists s', m. split.
      * split; [rewrite cut_length, firstn_length; lia|]. rewrite cut_regs. exact Hr.
      * injection E as E _. rewrite <- E. now rewrite Ek.
    + rewrite Hlk in E. injection E as E. congruence.
  - destruct (query_may ch bs (cut C (firstn n A)) (cut C A) G1) with (o := o) (q := q) (s := s) (e := e) (r := a) as (M & Se & Er); try assumption.
    + rewrite cut_length. exact HL.
    + pose proof (wf_sets _ W) as F. rewrite Forall_forall in *. intros x Hx. unfold cut in Hx. apply in_map_iff in Hx as (y & <- & Hy). cbn [fst]. auto.
    + exists M. split; [assumption|]. unfold crun. rewrite Ea, Er. reflexivity.
Qed.

(* stores that answer the queries in Q as if they held A *)
Definition answering (Q : list label -> Prop) (ch : chunk) (A : content) (st ix : kv) : Prop :=
  forall ch' v bs o q s e, c_storage ch' = c_storage ch -> c_indexer ch' = c_indexer ch -> w_st v = st -> w_ix v = ix ->
    w_faults v = [] -> w_locked v = false -> w_poisoned v = false -> Forall lab_ok q -> Q q ->
    crun ch' (chunk_query ch' bs o q s e) v = Some (answer_from ch' (reader bs s e) (matching A q) s e, v).
(* the queries that search no label of ls *)
Notation others ch A ls st ix := (answering (fun q => ~ shares q ls) ch A st ix).
Lemma answering_crep Q ch w A : crep ch w A -> Z.of_nat (length A) < 2 ^ 64 -> answering Q ch A (w_st w) (w_ix w).
Proof.
  intros R HL ch' v bs o q s e E1 E2 E3 E4 F1 F2 F3 Hq Hn. unfold answer_from.
  apply query_crd; [|assumption|assumption]. destruct R. constructor; try assumption; [rewrite E2, E4|rewrite E1, E3]; assumption.
Qed.
Lemma others_crep ch w A B ls : crep ch w B -> Z.of_nat (length B) < 2 ^ 64 -> (forall q, ~ shares q ls -> matching B q = matching A q) ->
  others ch A ls (w_st w) (w_ix w).
Proof.
  intros R HL Em ch' v bs o q s e E1 E2 E3 E4 F1 F2 F3 Hq Hn. unfold answer_from. rewrite <- (Em q Hn).
  apply query_crd; [|assumption|assumption]. destruct R. constructor; try assumption; [rewrite E2, E4|rewrite E1, E3]; assumption.
Qed.
Lemma others_crash ch w A B ls p n : crep ch w B -> set_ok ls -> tp_ok p -> Z.of_nat (length B) + 1 < 2 ^ 64 ->
  (forall q, ~ shares q ls -> matching B q = matching A q) ->
  let w' := snd (crash_at (chandler ch) n (chunk_insert ch ls p) w) in others ch A ls (w_st w') (w_ix w').
Proof.
  intros R Hls Hp HL Em. cbv zeta. set (r := (ls, p) : ireq). assert (Hr: ireq_ok r) by (split; assumption).
  pose proof (insert_run ch w B ls p R Hls Hp ltac:(lia)) as I.
  assert (X: exists z w1, crun ch (chunk_insert ch ls p) w = Some (z, w1) /\ crep ch w1 (ins ch B r)).
  { unfold ins. cbn [r fst snd]. destruct (in_windowb ch (tp_ts p)).
    - destruct I as (w2 & I1 & I2 & _). eauto.
    - eauto. }
  destruct X as (z & w1 & Ex & R1).
  pose proof (insert_crash ch ls p w n z w1 Ex) as C. cbv zeta in C.
  pose proof (ordered_crash ch _ (insert_ordered ch ls p) n w z w1 Ex) as O.
  destruct (crash_log ch _ n w z w1 Ex (cr_faults _ _ _ R)) as (L1 & L2 & F1 & F2).
  set (w' := snd (crash_at (chandler ch) n (chunk_insert ch ls p) w)) in *. clearbody w'.
  pose proof (cr_wf _ _ _ R) as W.
  assert (D: w_st w' = w_st w \/ w_st w' = w_st w1 /\ w_ix w' = w_ix w1) by (clear -C O; destruct C, O; auto). clear C O.
  pose proof (grown_ins ch B r) as G. pose proof (add_length (c_storage ch) B ls p) as AL.
  assert (LB: Z.of_nat (length (ins ch B r)) < 2 ^ 64) by (unfold ins; cbn [r fst snd]; destruct (in_windowb _ _); lia).
  intros ch' v bs o q s e E1 E2 E3 E4 V1 V2 V3 Hq Hn. rewrite <- (Em q Hn). destruct D as [D|[D1 D2]].
  - assert (Bt: between (c_indexer ch) (w_ix w') (regs (ins ch B r)) (length B)).
    { rewrite F1. eapply (insert_between ch w _ r z w1 L2 L1); try eassumption; [|reflexivity]. now rewrite F2, F1. }
    destruct (loss_seen_at ch' bs o B (ins ch B r) (length B) v q s e G (cr_wf _ _ _ R1) LB (grown_length _ _ G) V1 V2 V3) as (M & Se & Q);
      [rewrite E1, E3, D; apply R|rewrite E2, E4; exact Bt|assumption|].
    rewrite cut_before, cut_self in Se by assumption. rewrite Q. do 3 f_equal.
    destruct (starts_cases ch B r W Hr) as [E|(_ & Nw & E)].
    + rewrite (cut_labels B _ B E), cut_self in Se by assumption. exact (seen_same _ _ _ Se).
    + rewrite E, cut_new in Se by assumption. destruct (seen_new _ _ _ _ Se) as (keep & b & EM & Sh & Kp).
      destruct b; [exfalso; apply Hn, Sh; reflexivity|]. rewrite EM, app_nil_r. apply filter_all. intros y Hy. apply Kp; [assumption|].
      rewrite matches_apart by assumption. apply filter_In in Hy. apply Hy.
  - assert (Ei: matching (ins ch B r) q = matching B q).
    { unfold ins. cbn [r fst snd]. destruct (in_windowb _ _); [now apply add_point_other|reflexivity]. }
    rewrite <- Ei. unfold answer_from. apply query_crd; [|assumption|assumption].
    destruct R1. constructor; try assumption; [rewrite E2, E4, D2|rewrite E1, E3, D1]; assumption.
Qed.

(* a point of a series that is there already is stored or not *)
Lemma known_crash Q ch w B ls p n : crep ch w B -> set_ok ls -> tp_ok p -> Z.of_nat (length B) + 1 < 2 ^ 64 ->
  (exists x, In x B /\ same_setb (fst x) ls = true) ->
  let w' := snd (crash_at (chandler ch) n (chunk_insert ch ls p) w) in
  answering Q ch B (w_st w') (w_ix w') \/ answering Q ch (ins ch B (ls, p)) (w_st w') (w_ix w').
Proof.
  intros R Hls Hp HL (x & Hx & Qx). cbv zeta. set (r := (ls, p) : ireq). assert (Hr: ireq_ok r) by (split; assumption).
  pose proof (insert_run ch w B ls p R Hls Hp ltac:(lia)) as I.
  assert (X: exists z w1, crun ch (chunk_insert ch ls p) w = Some (z, w1) /\ crep ch w1 (ins ch B r)).
  { unfold ins. cbn [r fst snd]. destruct (in_windowb ch (tp_ts p)).
    - destruct I as (w2 & I1 & I2 & _). eauto.
    - eauto. }
  destruct X as (z & w1 & Ex & R1).
  pose proof (insert_crash ch ls p w n z w1 Ex) as C. cbv zeta in C.
  pose proof (ordered_crash ch _ (insert_ordered ch ls p) n w z w1 Ex) as O.
  destruct (crash_log ch _ n w z w1 Ex (cr_faults _ _ _ R)) as (L1 & L2 & F1 & F2).
  set (w' := snd (crash_at (chandler ch) n (chunk_insert ch ls p) w)) in *. clearbody w'.
  pose proof (cr_wf _ _ _ R) as W.
  assert (D: w_st w' = w_st w \/ w_st w' = w_st w1 /\ w_ix w' = w_ix w1) by (clear -C O; destruct C, O; auto). clear C O.
  pose proof (grown_ins ch B r) as G. pose proof (add_length (c_storage ch) B ls p) as AL.
  assert (LB: Z.of_nat (length (ins ch B r)) < 2 ^ 64) by (unfold ins; cbn [r fst snd]; destruct (in_windowb _ _); lia).
  destruct D as [D|[D1 D2]]; [left|right; rewrite D1, D2; now apply answering_crep].
  intros ch' v bs o q s e E1 E2 E3 E4 V1 V2 V3 Hq _.
  assert (Bt: between (c_indexer ch) (w_ix w') (regs (ins ch B r)) (length B)).
  { rewrite F1. eapply (insert_between ch w _ r z w1 L2 L1); try eassumption; [|reflexivity]. now rewrite F2, F1. }
  destruct (loss_seen_at ch' bs o B (ins ch B r) (length B) v q s e G (cr_wf _ _ _ R1) LB (grown_length _ _ G) V1 V2 V3) as (M & Se & Eq);
    [rewrite E1, E3, D; apply R|rewrite E2, E4; exact Bt|assumption|].
  rewrite cut_before, cut_self in Se by assumption. rewrite Eq. do 3 f_equal.
  destruct (starts_cases ch B r W Hr) as [E|(_ & Nw & _)]; [|specialize (Nw x Hx); cbn [r fst] in Nw; congruence].
  rewrite (cut_labels B _ B E), cut_self in Se by assumption. exact (seen_same _ _ _ Se).
Qed.

(** ** stopping programs *)
Definition keeps {C W A} (h : handler C W) (P : W -> Prop) (p : prog C A) (w : W) : Prop := forall n, P (snd (crash_at h n p w)).
Lemma keeps_bind {C W A B} (h : handler C W) (P : W -> Prop) (p : prog C A) (f : A -> prog C B) : forall w,
  keeps h P p w -> (forall a w', run h p w = Some (a, w') -> keeps h P (f a) w') -> keeps h P (bind p f) w.
Proof.
  induction p as [a|X c k IH]; intros w K F; [apply F; reflexivity|]. intros [|n]; [exact (K O)|]. cbn [bind crash_at].
  destruct (h X c w) as [[x w']|] eqn:E; [|exact (K O)]. apply IH.
  - intros m. specialize (K (S m)). cbn [crash_at] in K. now rewrite E in K.
  - intros a w2 R. apply F. cbn [run]. now rewrite E.
Qed.
Lemma keeps_ret {C W A} (h : handler C W) (P : W -> Prop) (a : A) w : P w -> keeps h P (@Ret C A a) w.
Proof. intros H [|n]; exact H. Qed.
Lemma keeps_do {C W A X} (h : handler C W) (P : W -> Prop) (c : C X) (k : X -> prog C A) w : P w ->
  (forall x w', h X c w = Some (x, w') -> keeps h P (k x) w') -> keeps h P (Do c k) w.
Proof. intros H F [|n]; [exact H|]. cbn [crash_at]. destruct (h X c w) as [[x w']|] eqn:E; [now apply F|exact H]. Qed.
Lemma keeps_end {C W A} (h : handler C W) (P : W -> Prop) (p : prog C A) w a w' : keeps h P p w -> run h p w = Some (a, w') -> P w'.
Proof. intros K E. rewrite <- (crash_end h p w a w' E (cost h p w)) by lia. apply K. Qed.
Lemma keeps_DC {A} i (p : prog ccmd A) (P : dworld -> Prop) : forall w d, nth_error (d_heap w) i = Some d ->
  (forall n, P (set_heap w (upd (d_heap w) i (mkDc (dc_chunk d) (snd (crash_at (chandler (dc_chunk d)) n p (dc_world d))) (dc_name d))))) ->
  keeps dhandler P (lift (fun X c => @DC X i c) p) w.
Proof.
  assert (SS: forall w d, nth_error (d_heap w) i = Some d -> set_heap w (upd (d_heap w) i (mkDc (dc_chunk d) (dc_world d) (dc_name d))) = w).
  { intros w d H. assert (mkDc (dc_chunk d) (dc_world d) (dc_name d) = d) as -> by now destruct d. rewrite upd_self by assumption. now destruct w. }
  induction p as [a|X c k IH]; intros w d H F.
  - cbn [lift]. apply keeps_ret. specialize (F O). cbn [crash_at snd] in F. now rewrite SS in F.
  - cbn [lift]. apply keeps_do.
    + specialize (F O). cbn [crash_at snd] in F. now rewrite SS in F.
    + intros x w' E. unfold dhandler in E. rewrite H in E. destruct (chandler (dc_chunk d) X c (dc_world d)) as [[y v]|] eqn:Ec; [|discriminate].
      injection E as -> <-. assert (Hi: (i < length (d_heap w))%nat) by (apply nth_error_Some; congruence).
      eapply (IH x _ (mkDc (dc_chunk d) v (dc_name d))).
      * cbn [set_heap d_heap]. rewrite nth_upd by assumption. now rewrite Nat.eqb_refl.
      * intros n. specialize (F (S n)). cbn [crash_at] in F. rewrite Ec in F. cbn [set_heap d_heap dc_chunk dc_world dc_name] in *.
        rewrite upd_upd by assumption. exact F.
Qed.

(** ** writing *)
(* the files as they were, the last chunk answering other queries as if it held A *)
Definition torn (f : fworld) (h0 : list dchunk) (d : dchunk) (A : content) (ls : list label) (w : dworld) : Prop :=
  d_fs w = f /\ exists cw, d_heap w = h0 ++ [mkDc (dc_chunk d) cw (dc_name d)] /\ others (dc_chunk d) A ls (w_st cw) (w_ix cw).
Lemma torn_curl f h0 d A ls w l : torn f h0 d A ls w -> torn f h0 d A ls (set_curl w l).
Proof. intros H. exact H. Qed.
Lemma write_all_keeps ls pts f h0 A : Forall (fun p => set_ok ls /\ tp_ok p) pts -> forall w d B, d_fs w = f -> d_heap w = h0 ++ [d] ->
  crep (dc_chunk d) (dc_world d) B -> Z.of_nat (length B + length pts) < 2 ^ 64 -> (forall q, ~ shares q ls -> matching B q = matching A q) ->
  keeps dhandler (torn f h0 d A ls) (write_all (length h0) (dc_chunk d) ls pts) w.
Proof.
  intros Hp. induction Hp as [|p pts [Hls Hp] Hps IH]; intros w d B Ef Eh R HL Em.
  - cbn [write_all]. apply keeps_ret. split; [assumption|]. exists (dc_world d). split; [now destruct d|]. cbn [length] in HL.
    eapply others_crep; [exact R|lia|assumption].
  - cbn [length] in HL. cbn [write_all]. destruct (batch_passes (dc_chunk d) p) eqn:Bp.
    2:{ apply (IH w d B); try assumption. lia. }
    assert (N: nth_error (d_heap w) (length h0) = Some d) by (rewrite Eh; apply nth_last).
    apply keeps_bind.
    + apply (keeps_DC _ _ _ w d N). intros n. split; [assumption|]. cbn [set_heap d_heap]. eexists. split; [now rewrite Eh, upd_last|].
      eapply others_crash; try eassumption. lia.
    + intros a w' E. rewrite (run_DC _ _ _ d) in E by assumption.
      pose proof (insert_run (dc_chunk d) (dc_world d) B ls p R Hls Hp ltac:(lia)) as I. unfold crun in I.
      assert (T: forall cw B', w' = set_heap w (h0 ++ [mkDc (dc_chunk d) cw (dc_name d)]) -> crep (dc_chunk d) cw B' -> (length B' <= S (length B))%nat ->
        (forall q, ~ shares q ls -> matching B' q = matching A q) -> keeps dhandler (torn f h0 d A ls) (write_all (length h0) (dc_chunk d) ls pts) w').
      { intros cw B' -> R' L' Em'. apply (IH _ (mkDc (dc_chunk d) cw (dc_name d)) B'); try assumption; [reflexivity|]. lia. }
      destruct (in_windowb (dc_chunk d) (tp_ts p)).
      * destruct I as (cw & I1 & I2 & _). rewrite I1 in E. injection E as <- <-. pose proof (add_length (c_storage (dc_chunk d)) B ls p).
        eapply T; [now rewrite Eh, upd_last|exact I2|lia|]. intros q Hq. rewrite <- Em by assumption. apply add_point_other; try assumption. apply R.
      * rewrite I in E. injection E as <- <-. unfold qbind. apply keeps_bind.
        -- eapply T; [now rewrite Eh, upd_last|exact R|lia|assumption].
        -- intros b w2 E2. assert (Tn: torn f h0 d A ls w2) by (eapply keeps_end; [|exact E2]; eapply T; [now rewrite Eh, upd_last|exact R|lia|assumption]).
           destruct b; now apply keeps_ret.
Qed.
Lemma current_keeps {T} (P : dworld -> Prop) (body : nat -> chunk -> prog dcmd (res T)) w d : (forall v l, P v -> P (set_curl v l)) ->
  d_curl w = free_lock -> nth_error (d_heap w) (d_cur w) = Some d -> P w ->
  keeps dhandler P (body (d_cur w) (dc_chunk d)) (set_curl w (mkRw 1 false false)) -> keeps dhandler P (with_current body) w.
Proof.
  intros HP H1 H2 Hw K. unfold with_current, call. cbn [bind]. apply keeps_do; [assumption|]. intros x w' E. cbn [dhandler] in E. rewrite H1, H2 in E.
  cbn [rw_read free_lock rw_writer rw_readers rw_poisoned] in E. injection E as <- <-. apply keeps_bind; [exact K|]. intros a w2 E.
  pose proof (keeps_end _ _ _ _ _ _ K E) as P2. apply keeps_do; [assumption|]. intros y w3 E3. cbn [dhandler] in E3. injection E3 as <- <-.
  apply keeps_ret. now apply HP.
Qed.
Lemma op_keeps cf w l0 c A h0 d op ls : drep cf w l0 c A h0 d -> Forall ireq_ok (written [op]) -> (forall r, In r (written [op]) -> fst r = ls) ->
  (forall st, op <> OpSwap st) -> Z.of_nat (length A + length (written [op])) < 2 ^ 64 ->
  keeps dhandler (torn (d_fs w) h0 d A ls) (dop_prog cf op) w.
Proof.
  intros [H1 H2 H3 H4 H5 H6 H7 H8 H9 H10 H11 H12] Hr Hl Hsw HL.
  assert (N: nth_error (d_heap w) (d_cur w) = Some d) by (rewrite H1, H2; apply nth_last).
  assert (T: torn (d_fs w) h0 d A ls w).
  { split; [reflexivity|]. exists (dc_world d). split; [rewrite H1; now destruct d|]. eapply others_crep; [exact H8|lia|reflexivity]. }
  destruct op as [l p|l pts|st]; [| |now destruct (Hsw st)]; cbn [dop_prog written] in *.
  - cbn [app length] in *. specialize (Hl (l, p) ltac:(now left)). cbn [fst] in Hl. subst l. inversion Hr as [|? ? [K1 K2] _]; subst. cbn [fst snd] in K1, K2.
    unfold db_write_point. apply (current_keeps _ _ w d); try assumption; [intros ? ? X; exact X|].
    apply (keeps_DC _ _ _ _ d); [exact N|]. intros n. split; [reflexivity|]. cbn [set_curl set_heap d_heap]. eexists. split; [now rewrite H1, H2, upd_last|].
    eapply others_crash; [exact H8|assumption|assumption|lia|reflexivity].
  - rewrite app_nil_r in *. rewrite map_length in HL.
    unfold db_write_points. apply (current_keeps _ _ w d); try assumption; [intros ? ? X; exact X|]. rewrite H2.
    assert (K: keeps dhandler (torn (d_fs w) h0 d A ls) (write_all (length h0) (dc_chunk d) l pts) (set_curl w (mkRw 1 false false))).
    { destruct pts as [|p pts]; [apply keeps_ret; exact T|]. pose proof (Hl (l, p) ltac:(now left)) as E. cbn [fst] in E. subst l.
      apply (write_all_keeps ls (p :: pts) _ h0 A) with (B := A); try assumption; try reflexivity.
      rewrite Forall_forall in *. intros x Hx. apply (Hr (ls, x)). now apply in_map. }
    unfold qbind. apply keeps_bind; [exact K|]. intros a w' E. pose proof (keeps_end _ _ _ _ _ _ K E). destruct a; now apply keeps_ret.
Qed.

(** ** opening whatever the stores hold *)
Lemma reopen_raw cf w hs : d_heap w = hs -> env_ok (d_fs w) -> f_meta (d_fs w) = Some (Written (own_meta cf)) ->
  Forall2 (dir_ok cf) (f_dirs (d_fs w)) hs -> StronglySorted Z.lt (map dstart hs) ->
  cf_st cf = Sled -> cf_ix cf = Sled -> cf_base cf <> [] -> ascii (cf_base cf) -> 0 <= cf_size cf ->
  let f := stopped cf w in
  let start := f_clock f (f_ticks f + length hs) in
  (forall x, In x hs -> dstart x < start) -> start + cf_size cf < 2 ^ 64 ->
  exists w' h' nd, db_open cf f = Some (Ok tt, w') /\ d_heap w' = h' ++ [nd] /\ d_cur w' = length h' /\ d_sec w' = seq 0 (length h') /\
    d_curl w' = free_lock /\ d_secl w' = free_lock /\ Forall2 (reop (f_clock f) (f_ticks f) (f_ticks f + length hs)) hs h' /\
    like (dc_chunk nd) (the_chunk cf start) /\ crep (dc_chunk nd) (dc_world nd) [].
Proof.
  intros H1 H9 H10 H11 H12 Hst Hix Hb Ha Hsz f start LT Hend.
  assert (He: env_ok f) by exact H9. pose proof He as (Hord & Huid & Hclk & Hflt).
  pose proof (stopped_dirs cf w hs H1 H11 H12) as SD. fold f in SD. rewrite Hst, Hix in SD. cbn [on_stop] in SD.
  assert (NM: map fst (f_dirs f) = map dc_name hs) by (eapply F2_fst; [|exact SD]; intros ? ? [K _]; exact K).
  pose proof (names_distinct cf _ _ H11 H12) as ND.
  assert (OD: Forall (on_disk (f_dirs f)) hs).
  { rewrite Forall_forall. intros x Hx.
    assert (X: exists e e', In e (f_dirs f) /\ dir_ok cf e' x /\ fst e = dc_name x /\ exists o, snd e = mkCdir (Some (Written o)) (Some (w_st (dc_world x))) (Some (w_ix (dc_world x)))).
    { assert (Y: exists e', dir_ok cf e' x).
      { clear - H11 Hx. induction H11 as [|e y ds hs K1 K2 IH]; [contradiction|]. destruct Hx as [->|Hx]; eauto. }
      destruct Y as (e' & Y). clear - SD Hx Y. induction SD as [|e y ds hs (K1 & o & a & b & K2) K3 IH]; [contradiction|].
      destruct Hx as [->|Hx]; [|destruct (IH Hx) as (e0 & e1 & Q & R); exists e0, e1; split; [now right|exact R]].
      exists e, e'. split; [now left|]. split; [assumption|]. split; [assumption|]. eauto. }
    destruct X as ([n dd] & e' & X1 & (_ & _ & U & (en & Ue & Nn & B) & _) & X2 & o & X3). cbn [fst snd] in *. subst n dd.
    exists o, en. split; [apply find_dir_in; [now rewrite NM|assumption]|]. auto. }
  destruct (read_existing_sled cf f hs Hb Ha Hst Hix Hflt Hord) as (h' & E & FR); try assumption.
  { unfold f, stopped, left_behind. cbn [set_dirs f_meta]. rewrite H10. discriminate. }
  unfold db_open, db_new. rewrite run_qbind.
  assert (EM: f_meta f = Some (Written (own_meta cf))) by exact H10.
  rewrite (meta_run cf _ f Hflt EM). rewrite (proj2 (own_meta_inj cf cf)) by (split; congruence).
  rewrite run_qbind, E. rewrite run_bind, run_call. cbn [fhandler].
  assert (ES: f_clock (ticked (length hs) f) (f_ticks (ticked (length hs) f)) = start).
  { unfold start. cbn [ticked f_clock f_ticks]. f_equal. lia. }
  rewrite ES. assert (Us: u64 start) by apply Hclk.
  set (f1 := tick (ticked (length hs) f)).
  assert (FRS: ~ In (encode_chunk_dir start (start + cf_size cf)) (map fst (f_dirs f1))).
  { change (f_dirs f1) with (f_dirs f). rewrite NM. intros K. apply in_map_iff in K as (x & K & Hx).
    rewrite Forall_forall in OD. destruct (OD x Hx) as (o & en & _ & U1 & U2 & N & _). rewrite N in K.
    apply encode_inj in K as [K _]; try assumption; [|unfold u64 in *; lia]. specialize (LT x Hx). lia. }
  destruct (create_run cf start f1 He) as (nd & f2 & o & R & N1 & N2 & N3 & N4 & N5 & N6 & N7 & N8 & N9 & N10); try assumption; try (unfold u64 in Us; lia).
  rewrite run_qbind, R. cbn [run]. eexists _, h', nd. split; [reflexivity|]. unfold opened. cbn [fst snd d_heap d_cur d_sec d_curl d_secl].
  do 5 (split; [reflexivity|]). split; [exact FR|]. split; assumption.
Qed.

(** ** queries that cannot tell two sets of stores apart *)
Definition alike_in (p : chunk -> prog ccmd (res (list series))) (a b : dchunk) : Prop :=
  dc_chunk a = dc_chunk b /\ exists r, crun (dc_chunk a) (p (dc_chunk a)) (dc_world a) = Some (r, dc_world a) /\
    crun (dc_chunk b) (p (dc_chunk b)) (dc_world b) = Some (r, dc_world b).
Section SAME.
Variables h1 h2 : list dchunk.
Definition moves {A} (p : prog dcmd A) : Prop := forall w a w', d_heap w = h1 -> run dhandler p w = Some (a, w') ->
  d_heap w' = h1 /\ run dhandler p (set_heap w h2) = Some (a, set_heap w' h2).
Lemma moves_ret {A} (a : A) : moves (Ret a).
Proof. intros w b w' H E. cbn [run] in *. assert (b = a) as -> by congruence. assert (w' = w) as -> by congruence. auto. Qed.
Lemma moves_bind {A B} (p : prog dcmd A) (f : A -> prog dcmd B) : moves p ->
  (forall a, (exists w w', d_heap w = h1 /\ run dhandler p w = Some (a, w')) -> moves (f a)) -> moves (bind p f).
Proof.
  intros Hp Hf w a w' H E. rewrite run_bind in *. destruct (run dhandler p w) as [[b v]|] eqn:Eb; [|discriminate].
  destruct (Hp _ _ _ H Eb) as [Hv ->]. apply Hf; [eauto|assumption|assumption].
Qed.
Hypothesis Hc : map dc_chunk h1 = map dc_chunk h2.
Lemma chunk_nth i : option_map dc_chunk (nth_error h1 i) = option_map dc_chunk (nth_error h2 i).
Proof. rewrite <- !nth_error_map. now rewrite Hc. Qed.
Lemma lookups_same l : lookups h1 l = lookups h2 l.
Proof.
  induction l as [|i l IH]; [reflexivity|]. cbn [lookups]. rewrite IH. pose proof (chunk_nth i) as E.
  destruct (nth_error h1 i), (nth_error h2 i); try discriminate; [|reflexivity]. cbn in E. injection E as ->. reflexivity.
Qed.
Lemma moves_curread : moves (call DCurRead).
Proof.
  intros w a w' H E. rewrite run_call in *. cbn [dhandler set_heap d_heap d_curl d_cur] in *. rewrite H in E. pose proof (chunk_nth (d_cur w)) as Q.
  destruct (rw_read (d_curl w)) as [l|]; [|discriminate]. destruct (nth_error h1 (d_cur w)), (nth_error h2 (d_cur w)); try discriminate.
  cbn in Q. injection E as <- <-. split; [exact H|]. injection Q as ->. reflexivity.
Qed.
Lemma moves_curunread : moves (call DCurUnread).
Proof. intros w a w' H E. rewrite run_call in *. cbn [dhandler] in *. injection E as <- <-. split; [exact H|reflexivity]. Qed.
Lemma moves_secread : moves (call DSecRead).
Proof.
  intros w a w' H E. rewrite run_call in *. cbn [dhandler set_heap d_heap d_secl d_sec] in *. rewrite H in E. rewrite <- lookups_same.
  destruct (rw_read (d_secl w)) as [l|]; [|discriminate]. destruct (lookups h1 (d_sec w)); [|discriminate].
  injection E as <- <-. split; [exact H|reflexivity].
Qed.
Lemma moves_secunread : moves (call DSecUnread).
Proof. intros w a w' H E. rewrite run_call in *. cbn [dhandler] in *. injection E as <- <-. split; [exact H|reflexivity]. Qed.
Lemma moves_with {A} (body : nat -> chunk -> prog dcmd (res A)) :
  (forall i ch, (exists d, nth_error h1 i = Some d /\ dc_chunk d = ch) -> moves (body i ch)) -> moves (with_current body).
Proof.
  intros Hb. unfold with_current. apply moves_bind; [apply moves_curread|]. intros [po [i ch]] (w & w' & Hw & E).
  destruct po; [apply moves_bind; [apply moves_curunread|]; intros; apply moves_ret|].
  apply moves_bind; [|intros; apply moves_bind; [apply moves_curunread|]; intros; apply moves_ret].
  apply Hb. rewrite run_call in E. cbn [dhandler] in E. rewrite Hw in E. destruct (rw_read (d_curl w)); [|discriminate].
  destruct (nth_error h1 (d_cur w)) as [d|] eqn:Q; [|discriminate]. injection E as _ <- <- _. eauto.
Qed.
Variables (bs : bsearch) (o : timing) (q : list label) (s e : Z).
Hypothesis Ha : Forall2 (alike_in (fun ch => chunk_query ch bs o q s e)) h1 h2.
Lemma moves_query i ch : (exists d, nth_error h1 i = Some d /\ dc_chunk d = ch) -> moves (lift (fun X c => @DC X i c) (chunk_query ch bs o q s e)).
Proof.
  intros (d & Hd & <-) w a w' H E.
  assert (X: exists d2, nth_error h2 i = Some d2 /\ alike_in (fun ch => chunk_query ch bs o q s e) d d2).
  { clear - Ha Hd. revert i Hd. induction Ha as [|a b h1 h2 H F IH]; intros [|i] Hd; cbn [nth_error] in *; try discriminate; [|now apply IH].
    injection Hd as ->. eauto. }
  destruct X as (d2 & Hd2 & (Ec & r & E1 & E2)). unfold crun in E1, E2.
  rewrite <- H in Hd. rewrite (run_DC _ _ _ d Hd) in E. rewrite E1 in E.
  assert (Sm: forall v d, nth_error (d_heap v) i = Some d -> set_heap v (upd (d_heap v) i (mkDc (dc_chunk d) (dc_world d) (dc_name d))) = v).
  { intros v x Hx. assert (mkDc (dc_chunk x) (dc_world x) (dc_name x) = x) as -> by now destruct x. rewrite upd_self by assumption. now destruct v. }
  rewrite (Sm _ _ Hd) in E. injection E as <- <-. split; [assumption|].
  rewrite Ec, (run_DC _ _ (set_heap w h2) d2 Hd2). rewrite E2. now rewrite (Sm (set_heap w h2) d2 Hd2).
Qed.
Lemma moves_secondaries hs cs : Forall (fun x => exists d, nth_error h1 (fst x) = Some d /\ dc_chunk d = snd x) cs ->
  forall m, moves (query_secondaries hs bs o q s e cs m).
Proof.
  induction 1 as [|[i ch] cs H F IH]; intros m; cbn [query_secondaries]; [apply moves_ret|].
  destruct (is_with_range ch s e); [|apply IH]. apply moves_bind; [now apply moves_query|]. intros [l|er|] _; [|apply IH|apply moves_ret].
  destruct (merge _ m l); [apply IH|apply moves_ret|apply moves_ret].
Qed.
Lemma query_moves hs : moves (db_query hs bs o q s e).
Proof.
  unfold db_query, qbind. apply moves_bind.
  - apply moves_with. intros i ch Hi. apply moves_bind; [now apply moves_query|]. intros; apply moves_ret.
  - intros [m|er|] _; [|apply moves_ret|apply moves_ret]. apply moves_bind; [apply moves_secread|]. intros [po cs] (w & w' & Hw & E).
    apply moves_bind; [|intros; apply moves_bind; [apply moves_secunread|]; intros; apply moves_ret].
    destruct po; [apply moves_ret|]. apply moves_secondaries. apply Forall_rev. rewrite run_call in E. cbn [dhandler] in E. rewrite Hw in E.
    destruct (rw_read (d_secl w)); [|discriminate]. destruct (lookups h1 (d_sec w)) as [x|] eqn:L; [|discriminate]. injection E as _ <- _.
    clear - L. revert x L. induction (d_sec w) as [|i l IH]; intros x L; cbn [lookups] in L; [injection L as <-; constructor|].
    destruct (nth_error h1 i) as [d|] eqn:Q; [|discriminate]. destruct (lookups h1 l) as [y|]; [|discriminate]. injection L as <-.
    constructor; [cbn [fst snd]; eauto|now apply IH].
Qed.
End SAME.

(** ** killing the process in the middle of a write *)
Lemma reop_parts cf clock lo hi hs h' : cf_st cf = Sled -> cf_ix cf = Sled -> Forall2 (reop clock lo hi) hs h' ->
  forall ds l, Forall2 (dir_ok cf) ds hs -> hrel hs l -> exists l', hrel h' l' /\ Forall2 (clip clock lo hi) l l'.
Proof.
  intros Hst Hix. induction 1 as [|x x' hs h' (en & i & _ & _ & B & Hi & ->) FR IH]; intros ds l HD HR; inversion HR as [|? p ? l1 [(K0 & K1 & K2) K] K3]; subst.
  - exists []. split; constructor.
  - inversion HD as [|e0 ? ds' ? D1 D2]; subst. destruct (IH ds' l1 D2 K3) as (l' & G1 & G2).
    eexists ((mkChunk SledStorage SledIndexer (dstart x) (if clock i <? en then clock i else en), snd p) :: l'). split.
    + constructor; [|exact G1]. cbn [fst snd]. split; [repeat split|]. destruct D1 as (_ & _ & _ & _ & Ds & Di). destruct K as [R1 R2 R3 R4 R5 R6].
      constructor; cbn [reopened_chunk dc_chunk dc_world c_indexer c_storage w_ix w_st set_closed new_world w_locked w_poisoned w_faults]; try reflexivity; try assumption.
      * rewrite <- (Di Hix). exact R1.
      * rewrite <- (Ds Hst). exact R2.
    + constructor; [|exact G2]. unfold clip. cbn [fst snd c_start c_end]. split; [reflexivity|]. split; [unfold dstart; congruence|].
      exists en, i. split; [lia|]. split; [exact Hi|reflexivity].
Qed.
Lemma parts_length cf ops : forall t h c, In c (parts_from cf t h ops) -> (length (snd c) <= length h + length (written ops))%nat.
Proof.
  induction ops as [|op ops IH]; intros t h c H; cbn [parts_from written] in *.
  - destruct H as [<-|[]]. cbn [snd]. pose proof (content_length (the_chunk cf t) h). lia.
  - destruct op as [ls p|ls pts|st].
    + apply IH in H. rewrite app_length in H. cbn [length] in *. lia.
    + apply IH in H. rewrite app_length, map_length in H. rewrite app_length, map_length. unfold ireq in *. lia.
    + destruct H as [<-|H]; [cbn [snd]; pose proof (content_length (the_chunk cf t) h); lia|]. apply IH in H. cbn [length] in H. lia.
Qed.
Lemma written_snoc ops op : written (ops ++ [op]) = written ops ++ written [op].
Proof.
  induction ops as [|x ops IH]; [reflexivity|]. cbn [app written]. destruct x as [ls p|ls pts|st]; cbn [written]; rewrite IH; [reflexivity|apply app_assoc|reflexivity].
Qed.
Lemma starts_snoc cf ops op : forall t, starts_ok cf t (ops ++ [op]) -> starts_ok cf t ops.
Proof. induction ops as [|x ops IH]; intros t H; [exact I|]. cbn [app starts_ok] in *. destruct x; [now apply IH..|]. destruct H as (H1 & H2 & H3). auto. Qed.
Lemma alike_refl bs o q s e h l : hrel h l -> Forall part_ok l -> Forall lab_ok q -> Forall2 (alike_in (fun ch => chunk_query ch bs o q s e)) h h.
Proof.
  intros H F Hq. revert F. induction H as [|d c h l [_ R] H IH]; intros F; inversion F as [|? ? [_ _ L] F2]; subst; constructor; [|now apply IH].
  split; [reflexivity|]. pose proof (query_crd _ bs o _ _ q s e R L Hq) as E. eauto.
Qed.
Lemma torn_reopen Q cf w l0 c B h0 d wc cw hs bs o q s e : drep cf w l0 c B h0 d ->
  d_fs wc = d_fs w -> d_heap wc = h0 ++ [mkDc (dc_chunk d) cw (dc_name d)] -> answering Q (dc_chunk d) B (w_st cw) (w_ix cw) -> Q q ->
  cf_st cf = Sled -> cf_ix cf = Sled -> cf_base cf <> [] -> ascii (cf_base cf) -> 0 <= cf_size cf ->
  let f := d_fs w in let P := l0 ++ [(c, B)] in
  monotone (f_clock f) -> (forall i, f_clock f i + cf_size cf < 2 ^ 64) ->
  (forall c i, In c P -> (f_ticks f <= i)%nat -> c_start (fst c) < f_clock f i) ->
  Forall2 fits P P -> (forall p, stored P p -> tp_ts p <= f_clock f (f_ticks f)) -> Forall part_ok P ->
  hasher_ok hs -> bs_contract bs -> Forall lab_ok q -> unmixed hs P q s e ->
  exists w2 r', db_open cf (stopped cf wc) = Some (Ok tt, w2) /\ drun (db_query hs bs o q s e) w2 = Some (r', w2) /\ comes_to P q s e r'.
Proof.
  intros D Kf Kh Ko HQ S1 S2 Hb Ha Hsz f P Hm Hcl SB PF Hpts OK Hh Hbs Hq Hp.
  pose proof D as [H1 H2 H3 H4 H5 H6 H7 H8 H9 H10 H11 H12].
  set (dx := mkDc (dc_chunk d) cw (dc_name d)) in *.
  assert (Dx: Forall2 (dir_ok cf) (f_dirs (d_fs wc)) (h0 ++ [dx])).
  { rewrite Kf. apply Forall2_app_inv_r in H11. destruct H11 as (e1 & e2 & F1 & F2 & ->). apply Forall2_app; [assumption|].
    inversion F2 as [|e3 ? e2' ? F3 F4]; subst. inversion F4; subst. constructor; [|constructor]. exact F3. }
  assert (HR: hrel (h0 ++ [d]) P).
  { apply Forall2_app; [assumption|]. constructor; [|constructor]. split; [exact H7|]. now apply crep_crd. }
  pose proof (hrel_length _ _ HR) as LN.
  destruct (reopen_raw cf wc (h0 ++ [dx]) Kh) as (w2 & h' & nd & E2 & R1 & R2 & R3 & R4 & R5 & FR & Ln & Cn); try assumption.
  { now rewrite Kf. } { now rewrite Kf. } { rewrite map_app in *. exact H12. }
  { intros x Hx. change (f_clock (stopped cf wc)) with (f_clock (d_fs wc)). change (f_ticks (stopped cf wc)) with (f_ticks (d_fs wc)). rewrite Kf. fold f.
    assert (X: exists p, In p P /\ dstart x = c_start (fst p)).
    { apply in_app_or in Hx as [Hx|[<-|[]]].
      - clear - H6 Hx. induction H6 as [|a b h l [(_ & L & _) _] F IH]; [contradiction|]. destruct Hx as [<-|Hx].
        + exists b. split; [now left|exact L].
        + destruct (IH Hx) as (p & I1 & I2). exists p. split; [now right|exact I2].
      - exists (c, B). split; [apply in_or_app; right; now left|]. destruct H7 as (_ & L & _). exact L. }
    destruct X as (p & X1 & X2). rewrite X2. apply SB; [assumption|lia]. }
  { change (f_clock (stopped cf wc)) with (f_clock (d_fs wc)). rewrite Kf. apply Hcl. }
  change (f_clock (stopped cf wc)) with (f_clock (d_fs wc)) in *. change (f_ticks (stopped cf wc)) with (f_ticks (d_fs wc)) in *. rewrite Kf in FR, Ln. fold f in FR, Ln.
  set (hi := (f_ticks f + length (h0 ++ [dx]))%nat) in *. set (start := f_clock f hi) in *.
  apply Forall2_app_inv_l in FR. destruct FR as (h0' & h1' & F1 & F2 & ->).
  inversion F2 as [|? x' ? ? F3 F4]; subst. inversion F4; subst. clear F2 F4.
  set (xg := mkDc (dc_chunk x') (set_closed (new_world (w_st (dc_world d)) (w_ix (dc_world d))) true) (dc_name x')).
  assert (Fg: reop (f_clock f) (f_ticks f) hi d xg).
  { destruct F3 as (en & i & G1 & G2 & G3 & G4 & G5). exists en, i. do 4 (split; [assumption|]). unfold xg. rewrite G5. reflexivity. }
  assert (FRg: Forall2 (reop (f_clock f) (f_ticks f) hi) (h0 ++ [d]) (h0' ++ [xg])) by (apply Forall2_app; [assumption|constructor; [assumption|constructor]]).
  destruct (reop_parts cf _ _ _ _ _ S1 S2 FRg _ _ H11 HR) as (l' & HR' & CL).
  assert (FT: Forall2 fits P l').
  { eapply clip_fits; [exact Hm| |exact CL]. intros c' ls' pts' p' I1 I2 I3. split; [apply Hpts; red; eauto 8|].
    destruct (F2_in_l _ _ _ _ PF I1) as (c2 & _ & (_ & _ & K)). apply (K ls' pts' p' I2 I3). }
  set (hg := (h0' ++ [xg]) ++ [nd]).
  assert (HRg: hrel hg (l' ++ [(the_chunk cf start, [])])).
  { apply Forall2_app; [assumption|]. constructor; [|constructor]. split; [exact Ln|]. now apply crep_crd. }
  assert (OKl: Forall part_ok (l' ++ [(the_chunk cf start, [])])).
  { apply Forall_app. split; [exact (fits_ok _ _ FT OK)|]. constructor; [apply empty_part_ok|constructor]. }
  assert (Qg: quiet (set_heap w2 hg) (l' ++ [(the_chunk cf start, [])])).
  { pose proof (hrel_length _ _ HR') as LL. constructor; cbn [set_heap d_heap d_cur d_sec d_curl d_secl]; try assumption.
    - rewrite R2, !app_length in *. cbn [length] in *. lia.
    - now rewrite R3, R2. }
  destruct (query_any hs bs o q s e _ _ Qg OKl Hh Hbs Hq) as (r' & Er' & Ar').
  { apply free_empty. exact (fits_free _ _ _ _ _ _ FT Hp). }
  apply (proj1 (comes_empty _ _ _ _ _ _)) in Ar'. apply (proj1 (fits_comes _ _ _ _ _ _ FT)) in Ar'.
  assert (Al: Forall2 (alike_in (fun ch => chunk_query ch bs o q s e)) hg (d_heap w2)).
  { pose proof (alike_refl bs o q s e _ _ HRg OKl Hq) as AR. rewrite R1. unfold hg in *.
    apply Forall2_app_inv_l in AR. destruct AR as (a1 & a2 & A1 & A2 & EA). 
    assert (a1 = h0' ++ [xg] /\ a2 = [nd]) as [-> ->].
    { inversion A2 as [|? y ? ? _ A3]; subst. inversion A3; subst. apply app_inj_tail in EA. destruct EA as [<- <-]. auto. }
    apply Forall2_app; [|assumption]. apply Forall2_app_inv_l in A1. destruct A1 as (b1 & b2 & B1 & B2 & EB).
    assert (b1 = h0') as ->.
    { inversion B2 as [|? y ? ? _ B3]; subst. inversion B3; subst. apply app_inj_tail in EB. now destruct EB. }
    apply Forall2_app; [assumption|]. constructor; [|constructor]. split; [reflexivity|].
    assert (Od: answering Q (dc_chunk d) B (w_st (dc_world d)) (w_ix (dc_world d))).
    { apply answering_crep; [exact H8|]. apply Forall_app in OK as [_ OK1]. inversion OK1 as [|? ? [_ _ L] _]; subst. exact L. }
    assert (Sd: c_storage (dc_chunk d) = SledStorage /\ c_indexer (dc_chunk d) = SledIndexer).
    { apply Forall2_app_inv_r in Dx. destruct Dx as (e1 & e2 & _ & D2 & _). inversion D2 as [|? ? ? ? (_ & _ & _ & _ & Ds & Di) _]; subst. auto. }
    destruct F3 as (en & i & _ & _ & _ & _ & G). exists (answer_from (dc_chunk x') (reader bs s e) (matching B q) s e). split.
    - unfold xg at 1 2. cbn [dc_chunk dc_world]. apply Od; try reflexivity; try assumption; rewrite G; destruct Sd as [Sa Sb]; [rewrite Sa|rewrite Sb]; reflexivity.
    - apply Ko; try assumption; rewrite G; try reflexivity; destruct Sd as [Sa Sb]; [rewrite Sa|rewrite Sb]; reflexivity. }
  assert (Hc: map dc_chunk hg = map dc_chunk (d_heap w2)).
  { rewrite R1. unfold hg. rewrite !map_app. reflexivity. }
  destruct (query_moves hg (d_heap w2) Hc bs o q s e Al hs (set_heap w2 hg) r' (set_heap w2 hg) eq_refl Er') as (_ & Em).
  assert (Ew: set_heap (set_heap w2 hg) (d_heap w2) = w2) by (destruct w2; reflexivity). rewrite Ew in Em.
  exists w2, r'. auto.
Qed.
Theorem write_crash_keeps_comes cf f ops op ls n hs bs o q s e : open_env cf f -> empty_dir f -> monotone (f_clock f) ->
  cf_st cf = Sled -> cf_ix cf = Sled ->
  let t0 := f_clock f (f_ticks f) in
  ops_ok cf t0 (ops ++ [op]) -> timely (written ops) ->
  ((exists p, op = OpPoint ls p) \/ (exists pts, op = OpBatch ls pts)) ->
  (forall i, (f_ticks f < i)%nat -> last_start t0 ops < f_clock f i) ->
  (forall p, stored (parts cf t0 ops) p -> tp_ts p <= f_clock f (S (f_ticks f))) ->
  hasher_ok hs -> bs_contract bs -> Forall lab_ok q -> unmixed hs (parts cf t0 ops) q s e -> ~ shares q ls ->
  exists rs w r w' r', db_after cf f ops = Some (rs, w) /\ drun (db_query hs bs o q s e) w = Some (r, w) /\
    db_open cf (stopped cf (snd (crash_at dhandler n (dop_prog cf op) w))) = Some (Ok tt, w') /\
    drun (db_query hs bs o q s e) w' = Some (r', w') /\ alike r r' /\ comes_to (parts cf t0 ops) q s e r'.
Proof.
  intros He Hd Hm S1 S2 t0 Ho T Hop Hclk Hpts Hh Hbs Hq Hp Hns. pose proof He as (Henv & Hb & Ha & Hsz & Hcl).
  destruct Ho as (O1 & O2 & O3 & O4 & O5 & O6 & O7). apply starts_snoc in O5. rewrite written_snoc in O6, O7. apply Forall_app in O6 as [Hw Hw1]. rewrite app_length in O7.
  assert (Ho: ops_ok cf t0 ops) by (repeat split; try assumption; lia).
  destruct (open_run cf f Henv Hd Hb Hsz O4) as (w0 & E0 & S0 & T0 & N0 & _). fold t0 in S0.
  destruct (hist_from cf ops Hsz t0 [] w0 [] S0 O5 Hw) as (w & E & St & Tk & N); [cbn [length]; lia|]. cbn [app] in St.
  change (parts_from cf t0 [] ops) with (parts cf t0 ops) in St. set (P := parts cf t0 ops) in *.
  assert (OK: Forall part_ok P) by (now apply parts_ok).
  destruct (query_any hs bs o q s e w P (state_quiet _ _ _ St) OK Hh Hbs Hq Hp) as (r & Er & Ar).
  assert (DA: db_after cf f ops = Some (outcomes cf t0 ops, w)) by (unfold db_after; rewrite E0; exact E).
  assert (Ec: f_clock (d_fs w) = f_clock f) by (destruct N as (_ & -> & _), N0 as (_ & -> & _); reflexivity).
  assert (Et: f_ticks (d_fs w) = S (f_ticks f)) by congruence.
  assert (PF: Forall2 fits P P) by (now apply parts_fit).
  assert (SB: forall c, In c P -> c_start (fst c) <= last_start t0 ops) by (intros c Hc; exact (starts_bound cf ops t0 [] c O5 Hc)).
  pose proof St as (l0 & c & A & h0 & d & El & D).
  assert (LA: (length A <= length (written ops))%nat).
  { apply (parts_length cf ops t0 [] (c, A)). change (In (c, A) P). rewrite El. apply in_or_app. right. now left. }
  assert (K: keeps dhandler (torn (d_fs w) h0 d A ls) (dop_prog cf op) w).
  { eapply op_keeps; try eassumption; [|intros st ->; destruct Hop as [(? & ?)|(? & ?)]; discriminate|lia].
    intros x Hx. destruct Hop as [(p & ->)|(pts & ->)]; cbn [written app] in Hx.
    - destruct Hx as [<-|[]]. reflexivity.
    - rewrite app_nil_r in Hx. apply in_map_iff in Hx as (? & <- & _). reflexivity. }
  enough (X: forall wc, torn (d_fs w) h0 d A ls wc -> exists w2 r', db_open cf (stopped cf wc) = Some (Ok tt, w2) /\
    drun (db_query hs bs o q s e) w2 = Some (r', w2) /\ alike r r' /\ comes_to P q s e r').
  { destruct (X _ (K n)) as (w2 & r' & X1 & X2 & X3). exists (outcomes cf t0 ops), w, r, w2, r'. auto. }
  clear K. intros wc (Kf & cw & Kh & Ko).
  assert (SB': forall x, In x (l0 ++ [(c, A)]) -> c_start (fst x) <= last_start t0 ops) by (rewrite <- El; exact SB).
  assert (PF': Forall2 fits (l0 ++ [(c, A)]) (l0 ++ [(c, A)])) by (rewrite <- El; exact PF).
  assert (Hpts': forall p, stored (l0 ++ [(c, A)]) p -> tp_ts p <= f_clock f (S (f_ticks f))) by (rewrite <- El; exact Hpts).
  assert (OK': Forall part_ok (l0 ++ [(c, A)])) by (rewrite <- El; exact OK).
  assert (Hp': unmixed hs (l0 ++ [(c, A)]) q s e) by (rewrite <- El; exact Hp).
  destruct (torn_reopen _ cf w l0 c A h0 d wc cw hs bs o q s e D Kf Kh Ko Hns) as (w2 & r' & X1 & X2 & X3); try assumption.
  { now rewrite Ec. } { now rewrite Ec. }
  { rewrite Ec, Et. intros c' i Hc Hi. specialize (SB' c' Hc). specialize (Hclk i ltac:(lia)). lia. }
  { rewrite Ec, Et. exact Hpts'. }
  assert (X4: comes_to P q s e r') by (rewrite El; exact X3).
  exists w2, r'. split; [assumption|]. split; [assumption|]. split; [exact (comes_alike _ _ _ _ _ _ Ar X4)|exact X4].
Qed.
Theorem write_crash_keeps cf f ops op ls n hs bs o q s e : open_env cf f -> empty_dir f -> monotone (f_clock f) ->
  cf_st cf = Sled -> cf_ix cf = Sled ->
  let t0 := f_clock f (f_ticks f) in
  ops_ok cf t0 (ops ++ [op]) -> timely (written ops) ->
  ((exists p, op = OpPoint ls p) \/ (exists pts, op = OpBatch ls pts)) ->
  (forall i, (f_ticks f < i)%nat -> last_start t0 ops < f_clock f i) ->
  (forall p, stored (parts cf t0 ops) p -> tp_ts p <= f_clock f (S (f_ticks f))) ->
  hasher_ok hs -> bs_contract bs -> Forall lab_ok q -> unmixed hs (parts cf t0 ops) q s e -> ~ shares q ls ->
  exists rs w r w' r', db_after cf f ops = Some (rs, w) /\ drun (db_query hs bs o q s e) w = Some (r, w) /\
    db_open cf (stopped cf (snd (crash_at dhandler n (dop_prog cf op) w))) = Some (Ok tt, w') /\
    drun (db_query hs bs o q s e) w' = Some (r', w') /\ alike r r'.
Proof.
  intros He Hd Hm S1 S2 t0 Ho T Hop Hclk Hpts Hh Hbs Hq Hp Hns.
  destruct (write_crash_keeps_comes cf f ops op ls n hs bs o q s e He Hd Hm S1 S2 Ho T Hop Hclk Hpts Hh Hbs Hq Hp Hns) as (rs & w & r & w' & r' & H1 & H2 & H3 & H4 & H5 & _).
  exists rs, w, r, w', r'. auto.
Qed.
