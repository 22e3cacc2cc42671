(* A write to a series that is already there, cut short: the database then answers as if the first points of it had been written. *)
From Coq Require Import ZifyBool ZifyNat Permutation Sorted.
From Verif Require Import Rust StringProofs Prog Gorilla GorillaSpec Storage StorageSpec StorageProofs Labels IndexSpec Indexer
  LabelProofs IntersectProofs IndexProofs IndexHist Chunk ChunkSpec ChunkProofs ChunkFacts ConcSpec Conc CrashProofs ReadsSpec ReadsMay ReadsCrash
  ReadsFacts ReadsConc Flush LossSpec FlushProofs LossProofs StopSpec CrashQuery
  Utils DirSpec DirProofs TiKvInit Db DbSpec MapProofs DbProofs DbHist RangeSpec RangeProofs DbFacts
  ReopenSpec ReopenProofs OpenProofs CrashOpen CrashKeep TornSpec TornProofs.
Ltac Zify.zify_post_hook ::= Z.div_mod_to_equations.

(* the files as they were, the last chunk answering as if it held B and the first of the points *)
Definition partly (f : fworld) (h0 : list dchunk) (d : dchunk) (B : content) (rs : list ireq) (w : dworld) : Prop :=
  d_fs w = f /\ exists k cw, d_heap w = h0 ++ [mkDc (dc_chunk d) cw (dc_name d)] /\
    answering (fun _ => True) (dc_chunk d) (fold_left (ins (dc_chunk d)) (firstn k rs) B) (w_st cw) (w_ix cw).
Lemma partly_more f h0 d B r rs w : partly f h0 d (ins (dc_chunk d) B r) rs w -> partly f h0 d B (r :: rs) w.
Proof. intros (E & k & cw & H1 & H2). split; [assumption|]. exists (S k), cw. split; assumption. Qed.
Lemma keeps_impl {C W A} (h : handler C W) (P Q : W -> Prop) (p : prog C A) w : (forall v, P v -> Q v) -> keeps h P p w -> keeps h Q p w.
Proof. intros H K n. apply H, K. Qed.
Definition known (B : content) (ls : list label) : Prop := exists x, In x B /\ same_setb (fst x) ls = true.
Lemma known_fst A B ls : incl (map fst A) (map fst B) -> known A ls -> known B ls.
Proof.
  intros E (x & Hx & Q). apply (in_map fst) in Hx. apply E in Hx. apply in_map_iff in Hx as (y & Ey & Hy). exists y. split; [assumption|]. now rewrite Ey.
Qed.
Lemma known_ins ch B r ls : known B ls -> known (ins ch B r) ls.
Proof.
  intros (x & Hx & Q). apply In_nth_error in Hx as (i & Hi). destruct x as [l pts]. destruct (grown_ins ch B r i l pts Hi) as (pts' & E & _).
  exists (l, pts'). split; [eapply nth_error_In; exact E|exact Q].
Qed.
Lemma write_all_partly ls pts f h0 : Forall (fun p => set_ok ls /\ tp_ok p) pts -> forall w d B, d_fs w = f -> d_heap w = h0 ++ [d] ->
  crep (dc_chunk d) (dc_world d) B -> 0 <= c_start (dc_chunk d) -> Z.of_nat (length B + length pts) < 2 ^ 64 -> known B ls ->
  keeps dhandler (partly f h0 d B (map (pair ls) pts)) (write_all (length h0) (dc_chunk d) ls pts) w.
Proof.
  intros Hp. induction Hp as [|p pts [Hls Hp] Hps IH]; intros w d B Ef Eh R H0 HL Kn.
  - cbn [write_all]. apply keeps_ret. split; [assumption|]. exists 0%nat, (dc_world d). split; [now destruct d|]. cbn [length] in HL.
    change (answering (fun _ => True) (dc_chunk d) B (w_st (dc_world d)) (w_ix (dc_world d))). apply answering_crep; [exact R|lia].
  - cbn [length] in HL. cbn [write_all map]. destruct (batch_passes (dc_chunk d) p) eqn:Bp.
    2:{ eapply keeps_impl; [apply partly_more|]. unfold ins at 1. cbn [fst snd].
        destruct (in_windowb (dc_chunk d) (tp_ts p)) eqn:Iw; [exfalso; clear - Bp Iw H0; unfold batch_passes, in_windowb in *; lia|].
        apply (IH w d B); try assumption. lia. }
    assert (N: nth_error (d_heap w) (length h0) = Some d) by (rewrite Eh; apply nth_last).
    apply keeps_bind.
    + apply (keeps_DC _ _ _ w d N). intros n. split; [assumption|]. cbn [set_heap d_heap].
      destruct (known_crash (fun _ => True) (dc_chunk d) (dc_world d) B ls p n R Hls Hp ltac:(lia) Kn) as [K|K].
      * exists 0%nat. eexists. split; [now rewrite Eh, upd_last|]. exact K.
      * exists 1%nat. eexists. split; [now rewrite Eh, upd_last|]. exact K.
    + intros a w' E. rewrite (run_DC _ _ _ d) in E by assumption.
      pose proof (insert_run (dc_chunk d) (dc_world d) B ls p R Hls Hp ltac:(lia)) as I. unfold crun in I.
      assert (T: forall cw, w' = set_heap w (h0 ++ [mkDc (dc_chunk d) cw (dc_name d)]) -> crep (dc_chunk d) cw (ins (dc_chunk d) B (ls, p)) ->
        keeps dhandler (partly f h0 d B ((ls, p) :: map (pair ls) pts)) (write_all (length h0) (dc_chunk d) ls pts) w').
      { intros cw -> R'. eapply keeps_impl; [apply partly_more|].
        assert (L': (length (ins (dc_chunk d) B (ls, p)) <= S (length B))%nat).
        { pose proof (add_length (c_storage (dc_chunk d)) B ls p). unfold ins. cbn [fst snd]. destruct (in_windowb _ _); lia. }
        apply (IH _ (mkDc (dc_chunk d) cw (dc_name d)) _); try assumption; [reflexivity|lia|]. now apply known_ins. }
      unfold ins in T at 1. cbn [fst snd] in T.
      destruct (in_windowb (dc_chunk d) (tp_ts p)).
      * destruct I as (cw & I1 & I2 & _). rewrite I1 in E. injection E as <- <-.
        eapply T; [now rewrite Eh, upd_last|exact I2].
      * rewrite I in E. injection E as <- <-. unfold qbind. apply keeps_bind.
        -- eapply T; [now rewrite Eh, upd_last|exact R].
        -- intros b w2 E2. assert (Tn: partly f h0 d B ((ls, p) :: map (pair ls) pts) w2) by (eapply keeps_end; [|exact E2]; eapply T; [now rewrite Eh, upd_last|exact R]).
           destruct b; now apply keeps_ret.
Qed.
Lemma op_partly cf w l0 c A h0 d op ls : drep cf w l0 c A h0 d -> Forall ireq_ok (written [op]) -> writes ls op -> known A ls ->
  Z.of_nat (length A + length (written [op])) < 2 ^ 64 ->
  keeps dhandler (partly (d_fs w) h0 d A (written [op])) (dop_prog cf op) w.
Proof.
  intros [H1 H2 H3 H4 H5 H6 H7 H8 H9 H10 H11 H12] Hr Hop Kn HL.
  assert (N: nth_error (d_heap w) (d_cur w) = Some d) by (rewrite H1, H2; apply nth_last).
  assert (T: partly (d_fs w) h0 d A (written [op]) w).
  { split; [reflexivity|]. exists 0%nat, (dc_world d). split; [rewrite H1; now destruct d|]. change (answering (fun _ => True) (dc_chunk d) A (w_st (dc_world d)) (w_ix (dc_world d))). apply answering_crep; [exact H8|lia]. }
  assert (P: 0 <= c_start (dc_chunk d)).
  { apply Forall2_app_inv_r in H11. destruct H11 as (e1 & e2 & _ & F2 & _). inversion F2 as [|e ? ? ? F3 F4]; subst.
    destruct F3 as (_ & _ & U & _). unfold u64 in U. lia. }
  destruct Hop as [(p & ->)|(pts & ->)]; cbn [dop_prog written] in *.
  - cbn [app length] in *. inversion Hr as [|? ? [K1 K2] _]; subst. cbn [fst snd] in K1, K2.
    unfold db_write_point. apply (current_keeps _ _ w d); try assumption; [intros ? ? X; exact X|].
    apply (keeps_DC _ _ _ _ d); [exact N|]. intros n. split; [reflexivity|]. cbn [set_curl set_heap d_heap].
    destruct (known_crash (fun _ => True) (dc_chunk d) (dc_world d) A ls p n H8 K1 K2 ltac:(lia) Kn) as [K|K].
    + exists 0%nat. eexists. split; [now rewrite H1, H2, upd_last|]. exact K.
    + exists 1%nat. eexists. split; [now rewrite H1, H2, upd_last|]. exact K.
  - rewrite app_nil_r in *. rewrite map_length in HL.
    unfold db_write_points. apply (current_keeps _ _ w d); try assumption; [intros ? ? X; exact X|]. rewrite H2.
    assert (K: keeps dhandler (partly (d_fs w) h0 d A (map (pair ls) pts)) (write_all (length h0) (dc_chunk d) ls pts) (set_curl w (mkRw 1 false false))).
    { apply write_all_partly; try assumption; try reflexivity.
      rewrite Forall_forall in *. intros x Hx. apply (Hr (ls, x)). now apply in_map. }
    unfold qbind. apply keeps_bind; [exact K|]. intros a w' E. pose proof (keeps_end _ _ _ _ _ _ K E). destruct a; now apply keeps_ret.
Qed.

(** ** histories *)
Lemma crep_fold ch rs : Forall ireq_ok rs -> forall w A, crep ch w A -> Z.of_nat (length A + length rs) < 2 ^ 64 -> exists w', crep ch w' (fold_left (ins ch) rs A).
Proof.
  induction 1 as [|[ls p] rs [K1 K2] F IH]; intros w A R HL; [eauto|]. cbn [fold_left length fst snd] in *.
  pose proof (insert_run ch w A ls p R K1 K2 ltac:(lia)) as I. pose proof (add_length (c_storage ch) A ls p) as AL. unfold ins at 2. cbn [fst snd].
  destruct (in_windowb ch (tp_ts p)); [destruct I as (w1 & _ & R1 & _)|]; eapply IH; try eassumption; lia.
Qed.
Lemma done_firstn ls op k : writes ls op -> exists done, done_of op done /\ written done = firstn k (written [op]).
Proof.
  intros [(p & ->)|(pts & ->)]; cbn [written app].
  - destruct k as [|k]; [exists []; split; [constructor|reflexivity]|]. exists [OpPoint ls p]. split; [constructor|]. cbn. now rewrite firstn_nil.
  - exists [OpBatch ls (firstn k pts)]. split; [constructor|]. cbn [written]. rewrite !app_nil_r. now rewrite firstn_map.
Qed.
Lemma done_cases op done ls : writes ls op -> done_of op done -> done = [] \/ exists o, done = [o] /\ writes ls o.
Proof.
  intros W D. destruct D as [| |]; [now left| |]; right; eexists; (split; [reflexivity|]).
  - assumption.
  - destruct W as [(p & W)|(q & W)]; [discriminate|]. injection W as -> _. right. eauto.
Qed.
Lemma written_app a b : written (a ++ b) = written a ++ written b.
Proof. induction a as [|[| |] a IH]; cbn [app written]; rewrite ?IH, ?app_assoc; reflexivity. Qed.
Lemma parts_from_snoc cf ops : forall t h, exists l0 ch h', parts_from cf t h ops = l0 ++ [(ch, content_of ch h')] /\
  forall ls op, writes ls op -> parts_from cf t h (ops ++ [op]) = l0 ++ [(ch, content_of ch (h' ++ written [op]))].
Proof.
  induction ops as [|o ops IH]; intros t h.
  - exists [], (the_chunk cf t), h. split; [reflexivity|]. intros ls op [(p & ->)|(pts & ->)]; cbn [app parts_from written]; rewrite ?app_nil_r; reflexivity.
  - destruct o as [l p|l pts|t']; cbn [app parts_from]; try apply IH.
    destruct (IH t' []) as (l0 & ch & h' & E1 & E2). exists ((the_chunk cf t, content_of (the_chunk cf t) h) :: l0), ch, h'. cbn [app]. split; [now rewrite E1|].
    intros ls op W. now rewrite (E2 ls op W).
Qed.
Lemma parts_done cf t ops l0 c A ls op done : parts cf t ops = l0 ++ [(c, A)] -> writes ls op -> done_of op done ->
  parts cf t (ops ++ done) = l0 ++ [(c, fold_left (ins c) (written done) A)].
Proof.
  intros E W D. destruct (done_cases _ _ _ W D) as [->|(o & -> & W')].
  - rewrite app_nil_r. exact E.
  - destruct (parts_from_snoc cf ops t []) as (l1 & ch & h' & E1 & E2). unfold parts in *. rewrite (E2 ls o W'). rewrite E1 in E.
    apply app_inj_tail in E. destruct E as [-> E]. injection E as -> <-. unfold content_of. now rewrite fold_left_app.
Qed.
Lemma timely_prefix a b : timely (a ++ b) -> timely a.
Proof.
  intros T ls. specialize (T ls). rewrite filter_app, map_app in T. eapply increasing_prefix; [|exact T]. now eexists.
Qed.
Lemma starts_writes cf ls op : writes ls op -> forall ops t, starts_ok cf t ops -> starts_ok cf t (ops ++ [op]).
Proof.
  intros W. induction ops as [|[| |] ops IH]; intros t H; cbn [app starts_ok] in *; try (now apply IH).
  - destruct W as [(p & ->)|(pts & ->)]; exact I.
  - destruct H as (H1 & H2 & H3). auto.
Qed.
Lemma stored_grown l c A B p : grown A B -> stored (l ++ [(c, A)]) p -> stored (l ++ [(c, B)]) p.
Proof.
  intros G (x & ls & pts & H1 & H2 & H3). apply in_app_or in H1 as [H1|[<-|[]]].
  - exists x, ls, pts. split; [apply in_or_app; now left|auto].
  - cbn [snd] in H2. apply In_nth_error in H2 as (i & Hi). destruct (G _ _ _ Hi) as (pts' & E & (z & ->)).
    exists (c, B), ls, (pts ++ z). split; [apply in_or_app; right; now left|]. split; [cbn [snd]; eapply nth_error_In; exact E|]. apply in_or_app. now left.
Qed.
Lemma last_done ls op done : writes ls op -> done_of op done -> forall ops t, last_start t (ops ++ done) = last_start t ops.
Proof.
  intros W D. induction ops as [|[| |] ops IH]; intros t; cbn [app last_start]; try apply IH.
  destruct (done_cases _ _ _ W D) as [->|(o & -> & [(p & ->)|(pts & ->)])]; reflexivity.
Qed.

Theorem write_crash_known_comes cf f ops op ls n : open_env cf f -> empty_dir f -> monotone (f_clock f) ->
  cf_st cf = Sled -> cf_ix cf = Sled ->
  let t0 := f_clock f (f_ticks f) in
  ops_ok cf t0 (ops ++ [op]) -> timely (written (ops ++ [op])) -> writes ls op -> has_series cf t0 ops ls ->
  (forall i, (f_ticks f < i)%nat -> last_start t0 ops < f_clock f i) ->
  (forall p, stored (parts cf t0 (ops ++ [op])) p -> tp_ts p <= f_clock f (S (f_ticks f))) ->
  exists done rs w rs1 w1, done_of op done /\ db_after cf f ops = Some (rs, w) /\ db_after cf f (ops ++ done) = Some (rs1, w1) /\
    forall hs bs o q s e, hasher_ok hs -> bs_contract bs -> Forall lab_ok q -> unmixed hs (parts cf t0 (ops ++ done)) q s e ->
    exists r w' r', drun (db_query hs bs o q s e) w1 = Some (r, w1) /\
      db_open cf (stopped cf (snd (crash_at dhandler n (dop_prog cf op) w))) = Some (Ok tt, w') /\
      drun (db_query hs bs o q s e) w' = Some (r', w') /\ alike r r' /\ comes_to (parts cf t0 (ops ++ done)) q s e r'.
Proof.
  intros He Hd Hm S1 S2 t0 Ho T Hop Hs Hclk Hpts. pose proof He as (Henv & Hb & Ha & Hsz & Hcl).
  destruct Ho as (O1 & O2 & O3 & O4 & O5 & O6 & O7). apply starts_snoc in O5. rewrite written_snoc in O6, O7, T. apply Forall_app in O6 as [Hw Hw1]. rewrite app_length in O7.
  destruct (open_run cf f Henv Hd Hb Hsz O4) as (w0 & E0 & S0 & T0 & N0 & _). fold t0 in S0.
  destruct (hist_from cf ops Hsz t0 [] w0 [] S0 O5 Hw) as (w & E & St & Tk & N); [cbn [length]; lia|]. cbn [app] in St.
  change (parts_from cf t0 [] ops) with (parts cf t0 ops) in St.
  assert (Ec: f_clock (d_fs w) = f_clock f) by (destruct N as (_ & -> & _), N0 as (_ & -> & _); reflexivity).
  assert (Et: f_ticks (d_fs w) = S (f_ticks f)) by congruence.
  destruct St as (l0 & c & A & h0 & d & El & D).
  assert (LA: (length A <= length (written ops))%nat).
  { apply (parts_length cf ops t0 [] (c, A)). change (In (c, A) (parts cf t0 ops)). rewrite El. apply in_or_app. right. now left. }
  pose proof D as [H1 H2 H3 H4 H5 H6 H7 H8 H9 H10 H11 H12].
  assert (Kn: known A ls).
  { destruct Hs as (l & ch & A' & x & X1 & X2 & X3). rewrite El in X1. apply app_inj_tail in X1 as [-> X1]. injection X1 as <- <-.
    exists x. split; [assumption|]. pose proof (wf_sets _ (cr_wf _ _ _ H8)) as F. rewrite Forall_forall in F.
    assert (SX: set_ok (fst x)) by (apply F; assumption).
    apply same_setb_spec; [apply SX| |assumption]. unfold keys_distinct. eapply Permutation_NoDup; [apply Permutation_map; exact X3|apply SX]. }
  pose proof (op_partly cf w l0 c A h0 d op ls D Hw1 Hop Kn ltac:(lia) n) as K.
  destruct K as (Kf & k & cw & Kh & Ko).
  destruct (done_firstn ls op k Hop) as (done & Dn & Wd).
  set (B := fold_left (ins c) (written done) A).
  assert (EB: fold_left (ins (dc_chunk d)) (firstn k (written [op])) A = B) by (unfold B; rewrite <- Wd; apply fold_ins_ext; exact H7).
  rewrite EB in Ko.
  assert (EP: parts cf t0 (ops ++ done) = l0 ++ [(c, B)]) by (eapply parts_done; eassumption).
  assert (Lk: (length (written done) <= length (written [op]))%nat) by (rewrite Wd, firstn_length; lia).
  assert (HWd: Forall ireq_ok (written done)).
  { rewrite Wd. rewrite <- (firstn_skipn k (written [op])) in Hw1. apply Forall_app in Hw1. apply Hw1. }
  assert (HO: ops_ok cf t0 (ops ++ done)).
  { repeat split; try assumption.
    - destruct (done_cases _ _ _ Hop Dn) as [->|(o & -> & Wo)]; [now rewrite app_nil_r|]. eapply starts_writes; eassumption.
    - rewrite written_app. apply Forall_app. auto.
    - rewrite written_app, app_length. lia. }
  assert (TD: timely (written (ops ++ done))).
  { rewrite written_app, Wd. rewrite <- (firstn_skipn k (written [op])), app_assoc in T. exact (timely_prefix _ _ T). }
  destruct HO as (Q1 & Q2 & Q3 & Q4 & Q5 & Q6 & Q7).
  destruct (hist_from cf (ops ++ done) Hsz t0 [] w0 [] S0 Q5 Q6) as (w1 & E1 & St1 & _); [cbn [length]; lia|]. cbn [app] in St1.
  change (parts_from cf t0 [] (ops ++ done)) with (parts cf t0 (ops ++ done)) in St1.
  assert (HO: ops_ok cf t0 (ops ++ done)) by (repeat split; assumption).
  assert (OK: Forall part_ok (parts cf t0 (ops ++ done))) by (now apply parts_ok).
  assert (PF: Forall2 fits (parts cf t0 (ops ++ done)) (parts cf t0 (ops ++ done))) by (now apply parts_fit).
  assert (SB: forall c, In c (parts cf t0 (ops ++ done)) -> c_start (fst c) <= last_start t0 ops).
  { intros c' Hc. rewrite <- (last_done ls op done Hop Dn ops t0). exact (starts_bound cf (ops ++ done) t0 [] c' Q5 Hc). }
  assert (HP: forall p, stored (parts cf t0 (ops ++ done)) p -> tp_ts p <= f_clock f (S (f_ticks f))).
  { intros p Hp. apply Hpts. rewrite EP in Hp.
    destruct (done_firstn ls op (length (written [op])) Hop) as (dn & Dn2 & W2). rewrite firstn_all in W2.
    pose proof (parts_done cf t0 ops l0 c A ls op dn El Hop Dn2) as EF. rewrite W2 in EF.
    assert (EW: parts cf t0 (ops ++ [op]) = l0 ++ [(c, fold_left (ins c) (written [op]) A)]).
    { destruct Hop as [(p' & ->)|(pts & ->)].
      - apply (parts_done cf t0 ops l0 c A ls (OpPoint ls p')); [assumption|left; eauto|constructor].
      - pose proof (parts_done cf t0 ops l0 c A ls (OpBatch ls pts) [OpBatch ls (firstn (length pts) pts)] El (or_intror (ex_intro _ pts eq_refl)) (Done_batch _ _ _)) as X.
        rewrite firstn_all in X. exact X. }
    rewrite EW. eapply stored_grown; [|exact Hp]. unfold B. rewrite Wd. rewrite <- (firstn_skipn k (written [op])) at 2. rewrite fold_left_app. apply grown_fold. }
  rewrite EP in OK, PF, SB, HP.
  destruct (crep_fold (dc_chunk d) (written done) HWd (dc_world d) A H8 ltac:(lia)) as (cwk & Rk).
  rewrite (fold_ins_ext _ _ H7) in Rk. fold B in Rk.
  pose proof (drep_write _ _ _ _ _ _ _ _ _ D Rk) as Dk.
  exists done, (outcomes cf t0 ops), w, (outcomes cf t0 (ops ++ done)), w1. split; [assumption|].
  split; [unfold db_after; rewrite E0; exact E|]. split; [unfold db_after; rewrite E0; exact E1|].
  intros hs bs o q s e Hh Hbs Hq Hp.
  assert (OK1: Forall part_ok (parts cf t0 (ops ++ done))) by (now apply parts_ok).
  destruct (query_any hs bs o q s e w1 _ (state_quiet _ _ _ St1) OK1 Hh Hbs Hq Hp) as (r & Er & Ar).
  rewrite EP in Hp, Ar.
  destruct (torn_reopen (fun _ => True) cf _ l0 c B h0 _ (snd (crash_at dhandler n (dop_prog cf op) w)) cw hs bs o q s e Dk) as (w2 & r' & X1 & X2 & X3); try assumption;
    cbn [set_heap d_fs dc_chunk dc_name]; try assumption; try exact I.
  { now rewrite Ec. } { now rewrite Ec. }
  { rewrite Ec, Et. intros c' i Hc Hi. specialize (SB c' Hc). specialize (Hclk i ltac:(lia)). lia. }
  { rewrite Ec, Et. exact HP. }
  exists r, w2, r'. split; [assumption|]. split; [assumption|]. split; [assumption|]. split; [exact (comes_alike _ _ _ _ _ _ Ar X3)|]. rewrite EP. exact X3.
Qed.
Theorem write_crash_known cf f ops op ls n : open_env cf f -> empty_dir f -> monotone (f_clock f) ->
  cf_st cf = Sled -> cf_ix cf = Sled ->
  let t0 := f_clock f (f_ticks f) in
  ops_ok cf t0 (ops ++ [op]) -> timely (written (ops ++ [op])) -> writes ls op -> has_series cf t0 ops ls ->
  (forall i, (f_ticks f < i)%nat -> last_start t0 ops < f_clock f i) ->
  (forall p, stored (parts cf t0 (ops ++ [op])) p -> tp_ts p <= f_clock f (S (f_ticks f))) ->
  exists done rs w rs1 w1, done_of op done /\ db_after cf f ops = Some (rs, w) /\ db_after cf f (ops ++ done) = Some (rs1, w1) /\
    forall hs bs o q s e, hasher_ok hs -> bs_contract bs -> Forall lab_ok q -> unmixed hs (parts cf t0 (ops ++ done)) q s e ->
    exists r w' r', drun (db_query hs bs o q s e) w1 = Some (r, w1) /\
      db_open cf (stopped cf (snd (crash_at dhandler n (dop_prog cf op) w))) = Some (Ok tt, w') /\
      drun (db_query hs bs o q s e) w' = Some (r', w') /\ alike r r'.
Proof.
  intros He Hd Hm S1 S2 t0 Ho T Hop Hs Hclk Hpts.
  destruct (write_crash_known_comes cf f ops op ls n He Hd Hm S1 S2 Ho T Hop Hs Hclk Hpts) as (done & rs & w & rs1 & w1 & H1 & H2 & H3 & H).
  exists done, rs, w, rs1, w1. split; [assumption|]. split; [assumption|]. split; [assumption|].
  intros hs bs o q s e Hh Hb Hq Hp. destruct (H hs bs o q s e Hh Hb Hq Hp) as (r & w' & r' & X1 & X2 & X3 & X4 & _). exists r, w', r'. auto.
Qed.
