(* Any write cut short: what every query may then find. *)
From Coq Require Import ZifyBool ZifyNat Permutation Sorted.
From Verif Require Import Rust StringProofs Prog Gorilla GorillaSpec Storage StorageSpec StorageProofs Labels IndexSpec Indexer
  LabelProofs IntersectProofs IndexProofs IndexHist Chunk ChunkSpec ChunkProofs ChunkFacts ConcSpec Conc CrashProofs ReadsSpec ReadsMay ReadsCrash
  ReadsConc Flush LossSpec FlushProofs LossProofs StopSpec CrashQuery
  Utils DirSpec DirProofs TiKvInit Db DbSpec MapProofs DbProofs DbHist RangeSpec RangeProofs DbFacts
  ReopenSpec ReopenProofs OpenProofs CrashOpen CrashKeep SearchSpec TornSpec TornProofs TornKnown.
Ltac Zify.zify_post_hook ::= Z.div_mod_to_equations.

(** ** a query over chunks that give any answers *)
Definition gives (bs : bsearch) (o : timing) (q : list label) (s e : Z) (d : dchunk) (a : res (list series)) : Prop :=
  crun (dc_chunk d) (chunk_query (dc_chunk d) bs o q s e) (dc_world d) = Some (a, dc_world d) /\ a <> Panic /\
  ((e <? c_start (dc_chunk d)) || (c_end (dc_chunk d) <? s) = true -> okl a = []).
Lemma gives_run w bs o q s e i d a : nth_error (d_heap w) i = Some d -> gives bs o q s e d a ->
  run dhandler (lift (fun X c => @DC X i c) (chunk_query (dc_chunk d) bs o q s e)) w = Some (a, w).
Proof.
  intros N (E & _). rewrite (run_DC i _ w d N). unfold crun in E. rewrite E.
  assert (mkDc (dc_chunk d) (dc_world d) (dc_name d) = d) as -> by now destruct d.
  rewrite upd_self by assumption. now destruct w.
Qed.
Lemma sec_gives hs bs o q s e w : forall (items : list (nat * res (list series))) m,
  Forall (fun it => exists d, nth_error (d_heap w) (fst it) = Some d /\ gives bs o q s e d (snd it)) items ->
  forall cs, Forall2 (fun it x => fst x = fst it /\ nth_error (d_heap w) (fst it) <> None /\
     (forall d, nth_error (d_heap w) (fst it) = Some d -> snd x = dc_chunk d)) items cs ->
  run dhandler (query_secondaries hs bs o q s e cs m) w = Some (merges hs m (map (fun it => okl (snd it)) items), w).
Proof.
  intros items. induction items as [|[i a] items IH]; intros m H cs F.
  - inversion F; subst. reflexivity.
  - inversion F as [|it [i' ch] its cs' (F1 & F2 & F3) F4]; subst. inversion H as [|x xs (d & H3 & H4) H6]; subst.
    cbn [fst snd] in *. subst i'. rewrite (F3 d H3) in *. cbn [query_secondaries map snd merges].
    unfold is_with_range, is_duration_overlap. pose proof H4 as (_ & NP & OR).
    destruct ((e <? c_start (dc_chunk d)) || (c_end (dc_chunk d) <? s)) eqn:O; cbn [negb].
    + rewrite (IH _ H6 _ F4). rewrite OR by reflexivity. reflexivity.
    + rewrite run_bind. rewrite (gives_run w bs o q s e i d a H3 H4).
      destruct a as [l|er|]; [|rewrite (IH _ H6 _ F4); reflexivity|congruence].
      cbn [okl]. destruct (merge (hm_append hs) m l) as [m'|er|]; cbn [rbind]; [now rewrite (IH _ H6 _ F4)|reflexivity..].
Qed.
Lemma F2_nth {A B} (R : A -> B -> Prop) a b : Forall2 R a b -> forall i y, nth_error b i = Some y -> exists x, nth_error a i = Some x /\ R x y.
Proof. induction 1 as [|x y a b H F IH]; intros [|i] z E; try discriminate; [injection E as <-; exists x; auto|exact (IH i z E)]. Qed.
Lemma F2_size {A B} (R : A -> B -> Prop) a b : Forall2 R a b -> length a = length b.
Proof. induction 1; cbn [length]; congruence. Qed.
Theorem query_gives hs bs o q s e w l0 c : Forall2 (gives bs o q s e) (d_heap w) (l0 ++ [c]) -> d_cur w = length l0 -> d_sec w = seq 0 (length l0) ->
  d_curl w = free_lock -> d_secl w = free_lock ->
  drun (db_query hs bs o q s e) w = Some (assembled hs (okl c) (map okl (rev l0)), w).
Proof.
  intros Qh Lc Qs Q1 Q2. set (l := l0 ++ [c]) in *.
  assert (Nc: nth_error l (d_cur w) = Some c) by (unfold l; rewrite nth_error_app2 by lia; rewrite Lc, Nat.sub_diag; reflexivity).
  destruct (F2_nth _ _ _ Qh _ _ Nc) as (d & Nd & Hd).
  pose proof (F2_size _ _ _ Qh) as HL. unfold l in HL. rewrite app_length in HL. cbn [length] in HL.
  unfold drun, db_query, with_current. rewrite run_qbind, run_bind. cbn [run call dhandler].
  rewrite Q1. cbn [rw_read free_lock rw_writer rw_readers rw_poisoned]. rewrite Nd. cbn [rw_poisoned].
  rewrite run_bind, run_bind.
  assert (Nd': nth_error (d_heap (set_curl w (mkRw 1 false false))) (d_cur w) = Some d) by exact Nd.
  rewrite (gives_run _ bs o q s e (d_cur w) d c Nd' Hd). cbn [run call bind dhandler].
  assert (SW: set_curl (set_curl w (mkRw 1 false false)) (rw_unread (d_curl (set_curl w (mkRw 1 false false)))) = w).
  { destruct w. cbn in *. now subst. }
  rewrite SW.
  destruct (lookups_ok (d_heap w) (d_sec w)) as (cs & Ecs & Fcs).
  { rewrite Qs. rewrite Forall_forall. intros i Hi. apply in_seq in Hi. lia. }
  assert (LS: rw_read (d_secl w) = Some (mkRw 1 false false)) by (rewrite Q2; reflexivity).
  set (w2 := set_secl w (mkRw 1 false false)).
  set (items := combine (seq 0 (length l0)) l0).
  assert (SR: forall m, run dhandler (query_secondaries hs bs o q s e (rev cs) m) w2 =
     Some (merges hs m (map (fun it : nat * res (list series) => okl (snd it)) (rev items)), w2)).
  { intros m. apply sec_gives.
    - apply Forall_rev. rewrite Forall_forall. intros [i x] Hx. cbn [fst snd].
      assert (Nx: nth_error l i = Some x).
      { unfold items in Hx. apply In_nth_error in Hx as (j & Hj). assert (j < length l0)%nat.
        { assert (nth_error (combine (seq 0 (length l0)) l0) j <> None) as K by congruence.
          apply nth_error_Some in K. rewrite combine_length, seq_length in K. lia. }
        pose proof (f_equal (option_map fst) Hj) as J1. pose proof (f_equal (option_map snd) Hj) as J2. cbn [option_map fst snd] in J1, J2.
        rewrite <- nth_error_map, combine_fst in J1 by now rewrite seq_length.
        rewrite <- nth_error_map, combine_snd in J2 by now rewrite seq_length.
        assert (i = j).
        { pose proof (nth_error_nth (seq 0 (length l0)) j 0%nat J1) as J3. rewrite seq_nth in J3 by assumption. lia. }
        subst j. unfold l. rewrite nth_error_app1 by assumption. exact J2. }
      exact (F2_nth _ _ _ Qh _ _ Nx).
    - apply Forall2_rev. rewrite Qs in Fcs.
      assert (map fst items = seq 0 (length l0)) as E by (apply combine_fst; now rewrite seq_length).
      rewrite <- E in Fcs. apply Forall2_map_l in Fcs. exact Fcs. }
  assert (Mi: map (fun it : nat * res (list series) => okl (snd it)) (rev items) = map okl (rev l0)).
  { rewrite <- (map_map snd okl). rewrite map_rev. unfold items. now rewrite combine_snd by now rewrite seq_length. }
  assert (SW2: set_secl w2 (rw_unread (d_secl w2)) = w) by (unfold w2; destruct w; cbn in *; now subst).
  unfold assembled.
  assert (E0: (match c with Ok l1 => merge (hm_insert hs) [] l1 | Err _ => Ok [] | Panic => Panic end) = merge (hm_insert hs) [] (okl c)).
  { destruct c; [reflexivity..|]. destruct Hd as (_ & Hd & _). congruence. }
  rewrite E0. destruct (merge (hm_insert hs) [] (okl c)) as [m|er|]; cbn [rbind]; try reflexivity.
  cbn [run call bind dhandler]. rewrite LS, Ecs. cbn [rw_poisoned]. fold w2.
  rewrite run_bind, SR, Mi. cbn [run call bind dhandler]. rewrite SW2. reflexivity.
Qed.

(** ** stores in which a series may be half entered *)
Definition hiding (ch : chunk) (A : content) (st ix : kv) : Prop :=
  forall ch' v bs o q s e, c_storage ch' = c_storage ch -> c_indexer ch' = c_indexer ch -> w_st v = st -> w_ix v = ix ->
    w_faults v = [] -> w_locked v = false -> w_poisoned v = false -> Forall lab_ok q ->
    exists keep t, (t = [] \/ exists id ls, t = [(id, (ls, []))]) /\
      crun ch' (chunk_query ch' bs o q s e) v = Some (answer_from ch' (reader bs s e) (filter keep (matching A q) ++ t) s e, v).
Lemma hiding_all ch A st ix : answering (fun _ => True) ch A st ix -> hiding ch A st ix.
Proof.
  intros H ch' v bs o q s e E1 E2 E3 E4 F1 F2 F3 Hq. exists (fun _ => true), []. split; [now left|].
  rewrite app_nil_r, filter_all by reflexivity. now apply H.
Qed.
Lemma hiding_crash ch w B ls p n : crep ch w B -> set_ok ls -> tp_ok p -> Z.of_nat (length B) + 1 < 2 ^ 64 ->
  let w' := snd (crash_at (chandler ch) n (chunk_insert ch ls p) w) in
  hiding ch B (w_st w') (w_ix w') \/ hiding ch (ins ch B (ls, p)) (w_st w') (w_ix w').
Proof.
  intros R Hls Hp HL. cbv zeta. set (r := (ls, p) : ireq). assert (Hr: ireq_ok r) by (split; assumption).
  pose proof (insert_run ch w B ls p R Hls Hp ltac:(lia)) as I.
  assert (X: exists z w1, crun ch (chunk_insert ch ls p) w = Some (z, w1) /\ crep ch w1 (ins ch B r)).
  { unfold ins. cbn [r fst snd]. destruct (in_windowb ch (tp_ts p)).
    - destruct I as (w2 & I1 & I2 & _). eauto.
    - eauto. }
  destruct X as (z & w1 & Ex & R1).
  pose proof (insert_crash ch ls p w n z w1 Ex) as C. cbv zeta in C.
  pose proof (ordered_crash ch _ (insert_ordered ch ls p) n w z w1 Ex) as O.
  destruct (crash_log ch _ n w z w1 Ex (cr_faults _ _ _ R)) as (L1 & L2 & F1 & F2).
  set (w' := snd (crash_at (chandler ch) n (chunk_insert ch ls p) w)) in *. clearbody w'.
  pose proof (cr_wf _ _ _ R) as W.
  assert (D: w_st w' = w_st w \/ w_st w' = w_st w1 /\ w_ix w' = w_ix w1) by (clear -C O; destruct C, O; auto). clear C O.
  pose proof (grown_ins ch B r) as G. pose proof (add_length (c_storage ch) B ls p) as AL.
  assert (LB: Z.of_nat (length (ins ch B r)) < 2 ^ 64) by (unfold ins; cbn [r fst snd]; destruct (in_windowb _ _); lia).
  destruct D as [D|[D1 D2]]; [left|right; rewrite D1, D2; now apply hiding_all, answering_crep].
  intros ch' v bs o q s e E1 E2 E3 E4 V1 V2 V3 Hq.
  assert (Bt: between (c_indexer ch) (w_ix w') (regs (ins ch B r)) (length B)).
  { rewrite F1. eapply (insert_between ch w _ r z w1 L2 L1); try eassumption; [|reflexivity]. now rewrite F2, F1. }
  destruct (loss_seen_at ch' bs o B (ins ch B r) (length B) v q s e G (cr_wf _ _ _ R1) LB (grown_length _ _ G) V1 V2 V3) as (M & Se & Eq);
    [rewrite E1, E3, D; apply R|rewrite E2, E4; exact Bt|assumption|].
  rewrite cut_before, cut_self in Se by assumption. rewrite Eq.
  destruct (starts_cases ch B r W Hr) as [E|(_ & Nw & E)].
  - rewrite (cut_labels B _ B E), cut_self in Se by assumption. exists (fun _ => true), []. split; [now left|].
    rewrite app_nil_r, filter_all by reflexivity. do 3 f_equal. exact (seen_same _ _ _ Se).
  - rewrite E, cut_new in Se by assumption. destruct (seen_new _ _ _ _ Se) as (keep & b & EM & _). exists keep. eexists. split; [|now rewrite EM].
    destruct b; [right; eauto|now left].
Qed.
Lemma NoDup_filter {A B} (g : A -> B) (f : A -> bool) l : NoDup (map g l) -> NoDup (map g (filter f l)).
Proof.
  induction l as [|x l IH]; intros N; [constructor|]. inversion N as [|? ? N1 N2]; subst. cbn [filter]. destruct (f x); [|now apply IH].
  cbn [map]. constructor; [|now apply IH]. intros H. apply N1. apply in_map_iff in H as (y & E & Hy). apply filter_In in Hy as [Hy _].
  rewrite <- E. now apply in_map.
Qed.
(* what the database gets from such a chunk *)
Lemma hiding_okl bs ch c B q s e keep t : bs_contract bs -> wfc B -> all_increasing B -> s <= e -> (t = [] \/ exists id ls, t = [(id, (ls, []))]) ->
  let a := answer_from ch (reader bs s e) (filter keep (matching B q) ++ t) s e in
  a <> Panic /\ NoDup (map s_meta (okl a)) /\ Forall (fun x => s_points x <> []) (okl a) /\
  Forall (fun x => exists y, In y B /\ s_meta x = sort_labels (fst y)) (okl a) /\
  (forall m, pf m (okl a) = [] \/ found (c, B) q s e m (pf m (okl a))).
Proof.
  intros Hb W Hi Hse Ht. cbv zeta. unfold answer_from.
  assert (HZ: forall er, @Err (list series) er <> Panic /\ NoDup (map s_meta (okl (@Err (list series) er))) /\ Forall (fun x => s_points x <> []) (okl (@Err (list series) er)) /\
    Forall (fun x => exists y : list label * list tp, In y B /\ s_meta x = sort_labels (fst y)) (okl (@Err (list series) er)) /\
    (forall m, pf m (okl (@Err (list series) er)) = [] \/ found (c, B) q s e m (pf m (okl (@Err (list series) er))))).
  { intros er. split; [discriminate|]. repeat split; try constructor. reflexivity. }
  destruct (_ || _); [apply HZ|].
  assert (HM: forall x, In x (filter keep (matching B q)) -> increasing (snd (snd x))).
  { intros x Hx. apply filter_In in Hx as [Hx _]. apply matching_pts in Hx as (_ & _ & Hx & _). unfold all_increasing in Hi. rewrite Forall_forall in Hi. exact (Hi _ Hx). }
  set (M := filter keep (matching B q)) in *.
  assert (E: collect (reader bs s e) M = collect (fun pts => read_spec pts s e) M).
  { apply collect_ext. intros x Hx. apply reader_spec; auto. }
  assert (CP: (exists r, collect (reader bs s e) M = Ok r) \/ exists er, collect (reader bs s e) M = Err er).
  { rewrite E. destruct (collect_any s e M HM) as [C1 C2].
    destruct (forallb (fun x => touchesb s e (snd (snd x))) M) eqn:T.
    - left. apply C1. intros x Hx. rewrite forallb_forall in T. now apply touchesb_spec, T.
    - right. apply C2. intros X. assert (forallb (fun x : Z * (list label * list tp) => touchesb s e (snd (snd x))) M = true); [|congruence].
      apply forallb_forall. intros x Hx. now apply touchesb_spec, X. }
  rewrite collect_app. destruct CP as [(r & Er)|(er & Er)]; rewrite Er; cbn [rbind]; [|apply HZ].
  destruct Ht as [->|(id & ls & ->)]; cbn [collect rbind]; [|apply HZ]. rewrite app_nil_r. cbn [okl].
  split; [discriminate|]. split. { eapply collect_metas; [exact Er|]. apply NoDup_filter. now apply matching_sorted. }
  pose proof (collect_In _ _ _ Er) as CI.
  assert (Q: forall x, In x r -> s_points x <> [] /\ exists y, In y B /\ s_meta x = sort_labels (fst y) /\ matches B q (fst y) = true /\ s_points x = within s e (snd y)).
  { intros x Hx. apply CI in Hx as (id & ls & pts & d & H1 & H2 & H3 & ->). cbn [s_points s_meta]. split; [assumption|].
    pose proof (HM _ H1) as HI. cbn [snd] in HI. apply filter_In in H1 as [H1 _]. apply matching_pts in H1 as (_ & _ & H4 & H5). cbn [fst snd] in *.
    exists (ls, pts). rewrite reader_spec in H2 by assumption. apply read_spec_range in H2. auto. }
  split. { rewrite Forall_forall. intros x Hx. apply (Q x Hx). }
  split. { rewrite Forall_forall. intros x Hx. destruct (Q x Hx) as (_ & y & H1 & H2 & _). eauto. }
  intros m. unfold pf. destruct (find (fun x => labs_eqb (s_meta x) m) r) as [x|] eqn:G; [right|now left].
  apply find_some in G as [G1 G2]. apply labs_eqb_spec in G2. destruct (Q x G1) as (_ & y & H1 & H2 & H3 & H4). exists y. cbn [snd fst]. repeat split; congruence || assumption.
Qed.

(** ** writing *)
Definition halfway (f : fworld) (h0 : list dchunk) (d : dchunk) (B : content) (rs : list ireq) (w : dworld) : Prop :=
  d_fs w = f /\ exists k cw, d_heap w = h0 ++ [mkDc (dc_chunk d) cw (dc_name d)] /\
    hiding (dc_chunk d) (fold_left (ins (dc_chunk d)) (firstn k rs) B) (w_st cw) (w_ix cw).
Lemma halfway_more f h0 d B r rs w : halfway f h0 d (ins (dc_chunk d) B r) rs w -> halfway f h0 d B (r :: rs) w.
Proof. intros (E & k & cw & H1 & H2). split; [assumption|]. exists (S k), cw. split; assumption. Qed.
Lemma halfway_none f h0 d B rs w : d_fs w = f -> d_heap w = h0 ++ [d] -> crep (dc_chunk d) (dc_world d) B -> Z.of_nat (length B) < 2 ^ 64 -> halfway f h0 d B rs w.
Proof.
  intros Ef Eh R HL. split; [assumption|]. exists 0%nat, (dc_world d). split; [now destruct d|].
  change (hiding (dc_chunk d) B (w_st (dc_world d)) (w_ix (dc_world d))). apply hiding_all, answering_crep; assumption.
Qed.
Lemma write_all_halfway ls pts f h0 : Forall (fun p => set_ok ls /\ tp_ok p) pts -> forall w d B, d_fs w = f -> d_heap w = h0 ++ [d] ->
  crep (dc_chunk d) (dc_world d) B -> 0 <= c_start (dc_chunk d) -> Z.of_nat (length B + length pts) < 2 ^ 64 ->
  keeps dhandler (halfway f h0 d B (map (pair ls) pts)) (write_all (length h0) (dc_chunk d) ls pts) w.
Proof.
  intros Hp. induction Hp as [|p pts [Hls Hp] Hps IH]; intros w d B Ef Eh R H0 HL.
  - cbn [write_all]. apply keeps_ret. cbn [length] in HL. apply halfway_none; try assumption. lia.
  - cbn [length] in HL. cbn [write_all map]. destruct (batch_passes (dc_chunk d) p) eqn:Bp.
    2:{ eapply keeps_impl; [apply halfway_more|]. unfold ins at 1. cbn [fst snd].
        destruct (in_windowb (dc_chunk d) (tp_ts p)) eqn:Iw; [exfalso; clear - Bp Iw H0; unfold batch_passes, in_windowb in *; lia|].
        apply (IH w d B); try assumption. lia. }
    assert (N: nth_error (d_heap w) (length h0) = Some d) by (rewrite Eh; apply nth_last).
    apply keeps_bind.
    + apply (keeps_DC _ _ _ w d N). intros n. split; [assumption|]. cbn [set_heap d_heap].
      destruct (hiding_crash (dc_chunk d) (dc_world d) B ls p n R Hls Hp ltac:(lia)) as [K|K].
      * exists 0%nat. eexists. split; [now rewrite Eh, upd_last|]. exact K.
      * exists 1%nat. eexists. split; [now rewrite Eh, upd_last|]. exact K.
    + intros a w' E. rewrite (run_DC _ _ _ d) in E by assumption.
      pose proof (insert_run (dc_chunk d) (dc_world d) B ls p R Hls Hp ltac:(lia)) as I. unfold crun in I.
      assert (T: forall cw, w' = set_heap w (h0 ++ [mkDc (dc_chunk d) cw (dc_name d)]) -> crep (dc_chunk d) cw (ins (dc_chunk d) B (ls, p)) ->
        keeps dhandler (halfway f h0 d B ((ls, p) :: map (pair ls) pts)) (write_all (length h0) (dc_chunk d) ls pts) w').
      { intros cw -> R'. eapply keeps_impl; [apply halfway_more|].
        assert (L': (length (ins (dc_chunk d) B (ls, p)) <= S (length B))%nat).
        { pose proof (add_length (c_storage (dc_chunk d)) B ls p). unfold ins. cbn [fst snd]. destruct (in_windowb _ _); lia. }
        apply (IH _ (mkDc (dc_chunk d) cw (dc_name d)) _); try assumption; [reflexivity|lia]. }
      unfold ins in T at 1. cbn [fst snd] in T.
      destruct (in_windowb (dc_chunk d) (tp_ts p)).
      * destruct I as (cw & I1 & I2 & _). rewrite I1 in E. injection E as <- <-.
        eapply T; [now rewrite Eh, upd_last|exact I2].
      * rewrite I in E. injection E as <- <-. unfold qbind. apply keeps_bind.
        -- eapply T; [now rewrite Eh, upd_last|exact R].
        -- intros b w2 E2. assert (Tn: halfway f h0 d B ((ls, p) :: map (pair ls) pts) w2) by (eapply keeps_end; [|exact E2]; eapply T; [now rewrite Eh, upd_last|exact R]).
           destruct b; now apply keeps_ret.
Qed.
Lemma op_halfway cf w l0 c A h0 d op ls : drep cf w l0 c A h0 d -> Forall ireq_ok (written [op]) -> writes ls op ->
  Z.of_nat (length A + length (written [op])) < 2 ^ 64 ->
  keeps dhandler (halfway (d_fs w) h0 d A (written [op])) (dop_prog cf op) w.
Proof.
  intros [H1 H2 H3 H4 H5 H6 H7 H8 H9 H10 H11 H12] Hr Hop HL.
  assert (N: nth_error (d_heap w) (d_cur w) = Some d) by (rewrite H1, H2; apply nth_last).
  assert (T: halfway (d_fs w) h0 d A (written [op]) w) by (apply halfway_none; try assumption; [reflexivity|lia]).
  assert (P: 0 <= c_start (dc_chunk d)).
  { apply Forall2_app_inv_r in H11. destruct H11 as (e1 & e2 & _ & F2 & _). inversion F2 as [|e ? ? ? F3 F4]; subst.
    destruct F3 as (_ & _ & U & _). unfold u64 in U. lia. }
  destruct Hop as [(p & ->)|(pts & ->)]; cbn [dop_prog written] in *.
  - cbn [app length] in *. inversion Hr as [|? ? [K1 K2] _]; subst. cbn [fst snd] in K1, K2.
    unfold db_write_point. apply (current_keeps _ _ w d); try assumption; [intros ? ? X; exact X|].
    apply (keeps_DC _ _ _ _ d); [exact N|]. intros n. split; [reflexivity|]. cbn [set_curl set_heap d_heap].
    destruct (hiding_crash (dc_chunk d) (dc_world d) A ls p n H8 K1 K2 ltac:(lia)) as [K|K].
    + exists 0%nat. eexists. split; [now rewrite H1, H2, upd_last|]. exact K.
    + exists 1%nat. eexists. split; [now rewrite H1, H2, upd_last|]. exact K.
  - rewrite app_nil_r in *. rewrite map_length in HL.
    unfold db_write_points. apply (current_keeps _ _ w d); try assumption; [intros ? ? X; exact X|]. rewrite H2.
    assert (K: keeps dhandler (halfway (d_fs w) h0 d A (map (pair ls) pts)) (write_all (length h0) (dc_chunk d) ls pts) (set_curl w (mkRw 1 false false))).
    { apply write_all_halfway; try assumption; try reflexivity.
      rewrite Forall_forall in *. intros x Hx. apply (Hr (ls, x)). now apply in_map. }
    unfold qbind. apply keeps_bind; [exact K|]. intros a w' E. pose proof (keeps_end _ _ _ _ _ _ K E). destruct a; now apply keeps_ret.
Qed.

(** ** opening again *)
Definition set_of (l : list part) (m : list label) : Prop := exists c ls pts, In c l /\ In (ls, pts) (snd c) /\ m = sort_labels ls.
Lemma piece_set l c q s e m : In c l -> piece c q s e m <> [] -> set_of l m.
Proof.
  intros Hc H. unfold piece in H. destruct (answers c q s e); [|congruence].
  destruct (find _ (snd c)) as [x|] eqn:F; [|congruence]. apply find_some in F as [F1 F2]. apply andb_true_iff in F2 as [F2 _]. apply labs_eqb_spec in F2.
  destruct x as [ls pts]. exists c, ls, pts. auto.
Qed.
Lemma part_gives bs o q s e d c : like (dc_chunk d) (fst c) -> crd (dc_chunk d) (dc_world d) (snd c) -> part_ok c -> bs_contract bs -> Forall lab_ok q -> s <= e ->
  gives bs o q s e d (ans bs q s e c).
Proof.
  intros (L1 & L2 & L3) R P Hb Hq Hse.
  assert (E: ans bs q s e c = query_spec (fst c) (snd c) q s e) by (apply ans_query; [assumption|apply P|assumption]).
  split; [|split].
  - unfold ans. rewrite <- L2, <- L3. apply query_crq; [|apply P|assumption]. apply crd_crq; [assumption|apply P].
  - rewrite E. apply (okl_spec c q s e P Hse).
  - intros O. unfold ans. rewrite <- L2, <- L3, O. reflexivity.
Qed.
Lemma part_wfa bs q s e c l : part_ok c -> bs_contract bs -> s <= e -> (forall m, piece c q s e m <> [] -> set_of l m) ->
  wfa (set_of l) (okl (ans bs q s e c)) /\ forall m, pf m (okl (ans bs q s e c)) = piece c q s e m.
Proof.
  intros P Hb Hse Hc. rewrite ans_query by (assumption || apply P). destruct (okl_spec c q s e P Hse) as (_ & N & F & G).
  split; [|exact G]. constructor; [exact N| |exact F]. rewrite Forall_forall in *. intros y Hy. apply Hc.
  rewrite <- G. unfold pf. destruct (find (fun z => labs_eqb (s_meta z) (s_meta y)) (okl (query_spec (fst c) (snd c) q s e))) as [z|] eqn:Fz.
  - apply find_some in Fz as [Fz _]. now apply F.
  - apply (find_none _ _ Fz) in Hy. now rewrite labs_eqb_refl in Hy.
Qed.
Lemma halfway_reopen cf w l0 c B h0 d wc cw hs bs o q s e : drep cf w l0 c B h0 d ->
  d_fs wc = d_fs w -> d_heap wc = h0 ++ [mkDc (dc_chunk d) cw (dc_name d)] -> hiding (dc_chunk d) B (w_st cw) (w_ix cw) ->
  cf_st cf = Sled -> cf_ix cf = Sled -> cf_base cf <> [] -> ascii (cf_base cf) -> 0 <= cf_size cf ->
  let f := d_fs w in let P := l0 ++ [(c, B)] in
  monotone (f_clock f) -> (forall i, f_clock f i + cf_size cf < 2 ^ 64) ->
  (forall c i, In c P -> (f_ticks f <= i)%nat -> c_start (fst c) < f_clock f i) ->
  Forall2 fits P P -> (forall p, stored P p -> tp_ts p <= f_clock f (f_ticks f)) -> Forall part_ok P ->
  hasher_ok hs -> bs_contract bs -> Forall lab_ok q -> s <= e -> apart_in hs P ->
  exists w2 r', db_open cf (stopped cf wc) = Some (Ok tt, w2) /\ drun (db_query hs bs o q s e) w2 = Some (Ok r', w2) /\ answer_short P q s e r'.
Proof.
  intros D Kf Kh Ko S1 S2 Hb Ha Hsz f P Hm Hcl SB PF Hpts OK Hh Hbs Hq Hse Hp.
  pose proof D as [H1 H2 H3 H4 H5 H6 H7 H8 H9 H10 H11 H12].
  set (dx := mkDc (dc_chunk d) cw (dc_name d)) in *.
  assert (Dx: Forall2 (dir_ok cf) (f_dirs (d_fs wc)) (h0 ++ [dx])).
  { rewrite Kf. apply Forall2_app_inv_r in H11. destruct H11 as (e1 & e2 & F1 & F2 & ->). apply Forall2_app; [assumption|].
    inversion F2 as [|e3 ? e2' ? F3 F4]; subst. inversion F4; subst. constructor; [|constructor]. exact F3. }
  assert (HR: hrel (h0 ++ [d]) P).
  { apply Forall2_app; [assumption|]. constructor; [|constructor]. split; [exact H7|]. now apply crep_crd. }
  pose proof (hrel_length _ _ HR) as LN.
  destruct (reopen_raw cf wc (h0 ++ [dx]) Kh) as (w2 & h' & nd & E2 & R1 & R2 & R3 & R4 & R5 & FR & Ln & Cn); try assumption.
  { now rewrite Kf. } { now rewrite Kf. } { rewrite map_app in *. exact H12. }
  { intros x Hx. change (f_clock (stopped cf wc)) with (f_clock (d_fs wc)). change (f_ticks (stopped cf wc)) with (f_ticks (d_fs wc)). rewrite Kf. fold f.
    assert (X: exists p, In p P /\ dstart x = c_start (fst p)).
    { apply in_app_or in Hx as [Hx|[<-|[]]].
      - clear - H6 Hx. induction H6 as [|a b h l [(_ & L & _) _] F IH]; [contradiction|]. destruct Hx as [<-|Hx].
        + exists b. split; [now left|exact L].
        + destruct (IH Hx) as (p & I1 & I2). exists p. split; [now right|exact I2].
      - exists (c, B). split; [apply in_or_app; right; now left|]. destruct H7 as (_ & L & _). exact L. }
    destruct X as (p & X1 & X2). rewrite X2. apply SB; [assumption|lia]. }
  { change (f_clock (stopped cf wc)) with (f_clock (d_fs wc)). rewrite Kf. apply Hcl. }
  change (f_clock (stopped cf wc)) with (f_clock (d_fs wc)) in *. change (f_ticks (stopped cf wc)) with (f_ticks (d_fs wc)) in *. rewrite Kf in FR, Ln. fold f in FR, Ln.
  set (hi := (f_ticks f + length (h0 ++ [dx]))%nat) in *. set (start := f_clock f hi) in *.
  apply Forall2_app_inv_l in FR. destruct FR as (h0' & h1' & F1 & F2 & ->).
  inversion F2 as [|? x' ? ? F3 F4]; subst. inversion F4; subst. clear F2 F4.
  apply Forall2_app_inv_r in H11. destruct H11 as (e1 & e2 & D1 & D2 & ED).
  destruct (reop_parts cf _ _ _ _ _ S1 S2 F1 _ _ D1 H6) as (l0' & HR' & CL).
  assert (FT: Forall2 fits l0 l0').
  { eapply clip_fits; [exact Hm| |exact CL]. intros c' ls' pts' p' I1 I2 I3.
    assert (I1': In c' P) by (apply in_or_app; now left). split; [apply Hpts; red; eauto 8|].
    destruct (F2_in_l _ _ _ _ PF I1') as (c2 & _ & (_ & _ & K)). apply (K ls' pts' p' I2 I3). }
  apply Forall_app in OK as [OK0 OK1]. inversion OK1 as [|? ? [Wb Ib Lb] _]; subst. cbn [snd] in Wb, Ib, Lb.
  pose proof (fits_ok _ _ FT OK0) as OK0'.
  assert (Sd: c_storage (dc_chunk d) = SledStorage /\ c_indexer (dc_chunk d) = SledIndexer).
  { inversion D2 as [|? ? ? ? (_ & _ & _ & _ & Ds & Di) _]; subst. auto. }
  assert (X: exists keep t, (t = [] \/ exists id ls, t = [(id, (ls, []))]) /\
      crun (dc_chunk x') (chunk_query (dc_chunk x') bs o q s e) (dc_world x') =
      Some (answer_from (dc_chunk x') (reader bs s e) (filter keep (matching B q) ++ t) s e, dc_world x')).
  { destruct F3 as (en & i & _ & _ & _ & _ & G). apply Ko; try assumption; rewrite G; try reflexivity; destruct Sd as [Sa Sb]; [rewrite Sa|rewrite Sb]; reflexivity. }
  destruct X as (keep & t & Ht & Ex). set (a := answer_from (dc_chunk x') (reader bs s e) (filter keep (matching B q) ++ t) s e) in *.
  destruct (hiding_okl bs (dc_chunk x') c B q s e keep t Hbs Wb Ib Hse Ht) as (A1 & A2 & A3 & A4 & A5). fold a in A1, A2, A3, A4, A5.
  set (n0 := (the_chunk cf start, []) : part).
  assert (OKn: part_ok n0) by apply empty_part_ok.
  assert (Gv: Forall2 (gives bs o q s e) (d_heap w2) ((map (ans bs q s e) l0' ++ [a]) ++ [ans bs q s e n0])).
  { rewrite R1. apply Forall2_app; [apply Forall2_app|].
    - clear - HR' OK0' Hbs Hq Hse. induction HR' as [|x y h l [Hl Hr] F IH]; [constructor|]. inversion OK0'; subst. cbn [map]. constructor; [|now apply IH].
      now apply part_gives.
    - constructor; [|constructor]. split; [exact Ex|]. split; [exact A1|]. intros O. unfold a, answer_from. now rewrite O.
    - constructor; [|constructor]. apply part_gives; try assumption. now apply crep_crd. }
  pose proof (query_gives hs bs o q s e w2 _ _ Gv) as E.
  assert (Lh: length (h0' ++ [x']) = length (map (ans bs q s e) l0' ++ [a])).
  { rewrite !app_length, map_length. now rewrite (hrel_length _ _ HR'). }
  rewrite <- Lh in E. specialize (E R2 R3 R4 R5).
  assert (Wn: wfa (set_of P) (okl (ans bs q s e n0)) /\ forall m, pf m (okl (ans bs q s e n0)) = piece n0 q s e m).
  { apply part_wfa; try assumption. intros m Hx. exfalso. apply Hx. unfold piece. destruct (answers n0 q s e); reflexivity. }
  assert (Wo: forall y, In y l0' -> wfa (set_of P) (okl (ans bs q s e y)) /\ forall m, pf m (okl (ans bs q s e y)) = piece y q s e m).
  { intros y Hy. rewrite Forall_forall in OK0'. apply part_wfa; try assumption; [now apply OK0'|]. intros m Hx.
    destruct (F2_in_r _ _ _ _ FT Hy) as (y0 & Hy0 & Fy). rewrite (fits_piece _ _ _ _ _ _ Fy) in Hx. eapply piece_set; [|exact Hx]. apply in_or_app. now left. }
  assert (Wa: wfa (set_of P) (okl a)).
  { constructor; [exact A2| |exact A3]. rewrite Forall_forall in *. intros y Hy. destruct (A4 y Hy) as ([ls pts] & Z1 & Z2). exists (c, B), ls, pts. split; [apply in_or_app; right; now left|]. auto. }
  destruct (assembled_spec (set_of P) hs Hp Hh (okl (ans bs q s e n0)) (map okl (rev (map (ans bs q s e) l0' ++ [a])))) as (r & Er & N & _ & M).
  { apply Wn. }
  { rewrite Forall_forall. intros y Hy. apply in_map_iff in Hy as (z & <- & Hz). apply in_rev in Hz. apply in_app_or in Hz as [Hz|[<-|[]]]; [|assumption].
    apply in_map_iff in Hz as (z0 & <- & Hz). now apply Wo. }
  exists w2, r. split; [assumption|]. split; [now rewrite E, Er|].
  exists l0, (c, B), (fun m => pf m (okl a)). split; [reflexivity|]. split; [exact A5|]. split; [exact N|]. intros m pts. rewrite M.
  replace (concat (map (pf m) (rev (okl (ans bs q s e n0) :: map okl (rev (map (ans bs q s e) l0' ++ [a]))))))
    with (concat (map (fun c => piece c q s e m) l0) ++ pf m (okl a)); [reflexivity|].
  cbn [rev]. rewrite <- map_rev, rev_involutive, !map_app, !map_map, !concat_app. cbn [map concat].
  assert (Pn: piece n0 q s e m = []) by (unfold piece; destruct (answers n0 q s e); reflexivity).
  rewrite (proj2 Wn), Pn, !app_nil_r. f_equal. f_equal.
  assert (Wp: forall y, In y l0' -> pf m (okl (ans bs q s e y)) = piece y q s e m) by (intros y Hy; now apply Wo).
  clear - FT Wp. induction FT as [|y y' l l' Fy F IH]; [reflexivity|]. cbn [map]. f_equal.
  - rewrite (Wp y' (or_introl eq_refl)). symmetry. now apply fits_piece.
  - apply IH. intros z Hz. apply Wp. now right.
Qed.

(** ** the theorem *)
Theorem write_crash_any cf f ops op ls n : open_env cf f -> empty_dir f -> monotone (f_clock f) ->
  cf_st cf = Sled -> cf_ix cf = Sled ->
  let t0 := f_clock f (f_ticks f) in
  ops_ok cf t0 (ops ++ [op]) -> timely (written (ops ++ [op])) -> writes ls op ->
  (forall i, (f_ticks f < i)%nat -> last_start t0 ops < f_clock f i) ->
  (forall p, stored (parts cf t0 (ops ++ [op])) p -> tp_ts p <= f_clock f (S (f_ticks f))) ->
  exists done rs w, done_of op done /\ db_after cf f ops = Some (rs, w) /\
    forall hs bs o q s e, hasher_ok hs -> bs_contract bs -> Forall lab_ok q -> s <= e -> apart_in hs (parts cf t0 (ops ++ done)) ->
    exists w' r', db_open cf (stopped cf (snd (crash_at dhandler n (dop_prog cf op) w))) = Some (Ok tt, w') /\
      drun (db_query hs bs o q s e) w' = Some (Ok r', w') /\ answer_short (parts cf t0 (ops ++ done)) q s e r'.
Proof.
  intros He Hd Hm S1 S2 t0 Ho T Hop Hclk Hpts. pose proof He as (Henv & Hb & Ha & Hsz & Hcl).
  destruct Ho as (O1 & O2 & O3 & O4 & O5 & O6 & O7). apply starts_snoc in O5. rewrite written_snoc in O6, O7, T. apply Forall_app in O6 as [Hw Hw1]. rewrite app_length in O7.
  destruct (open_run cf f Henv Hd Hb Hsz O4) as (w0 & E0 & S0 & T0 & N0 & _). fold t0 in S0.
  destruct (hist_from cf ops Hsz t0 [] w0 [] S0 O5 Hw) as (w & E & St & Tk & N); [cbn [length]; lia|]. cbn [app] in St.
  change (parts_from cf t0 [] ops) with (parts cf t0 ops) in St.
  assert (Ec: f_clock (d_fs w) = f_clock f) by (destruct N as (_ & -> & _), N0 as (_ & -> & _); reflexivity).
  assert (Et: f_ticks (d_fs w) = S (f_ticks f)) by congruence.
  destruct St as (l0 & c & A & h0 & d & El & D).
  assert (LA: (length A <= length (written ops))%nat).
  { apply (parts_length cf ops t0 [] (c, A)). change (In (c, A) (parts cf t0 ops)). rewrite El. apply in_or_app. right. now left. }
  pose proof D as [H1 H2 H3 H4 H5 H6 H7 H8 H9 H10 H11 H12].
  pose proof (op_halfway cf w l0 c A h0 d op ls D Hw1 Hop ltac:(lia) n) as K.
  destruct K as (Kf & k & cw & Kh & Ko).
  destruct (done_firstn ls op k Hop) as (done & Dn & Wd).
  set (B := fold_left (ins c) (written done) A).
  assert (EB: fold_left (ins (dc_chunk d)) (firstn k (written [op])) A = B) by (unfold B; rewrite <- Wd; apply fold_ins_ext; exact H7).
  rewrite EB in Ko.
  assert (EP: parts cf t0 (ops ++ done) = l0 ++ [(c, B)]) by (eapply parts_done; eassumption).
  assert (Lk: (length (written done) <= length (written [op]))%nat) by (rewrite Wd, firstn_length; lia).
  assert (HWd: Forall ireq_ok (written done)).
  { rewrite Wd. rewrite <- (firstn_skipn k (written [op])) in Hw1. apply Forall_app in Hw1. apply Hw1. }
  assert (HO: ops_ok cf t0 (ops ++ done)).
  { repeat split; try assumption.
    - destruct (done_cases _ _ _ Hop Dn) as [->|(o & -> & Wo)]; [now rewrite app_nil_r|]. eapply starts_writes; eassumption.
    - rewrite written_app. apply Forall_app. auto.
    - rewrite written_app, app_length. lia. }
  assert (TD: timely (written (ops ++ done))).
  { rewrite written_app, Wd. rewrite <- (firstn_skipn k (written [op])), app_assoc in T. exact (timely_prefix _ _ T). }
  pose proof HO as (Q1 & Q2 & Q3 & Q4 & Q5 & Q6 & Q7).
  assert (OK: Forall part_ok (parts cf t0 (ops ++ done))) by (now apply parts_ok).
  assert (PF: Forall2 fits (parts cf t0 (ops ++ done)) (parts cf t0 (ops ++ done))) by (now apply parts_fit).
  assert (SB: forall c, In c (parts cf t0 (ops ++ done)) -> c_start (fst c) <= last_start t0 ops).
  { intros c' Hc. rewrite <- (last_done ls op done Hop Dn ops t0). exact (starts_bound cf (ops ++ done) t0 [] c' Q5 Hc). }
  assert (HP: forall p, stored (parts cf t0 (ops ++ done)) p -> tp_ts p <= f_clock f (S (f_ticks f))).
  { intros p Hp. apply Hpts. rewrite EP in Hp.
    assert (EW: parts cf t0 (ops ++ [op]) = l0 ++ [(c, fold_left (ins c) (written [op]) A)]).
    { destruct Hop as [(p' & ->)|(pts & ->)].
      - apply (parts_done cf t0 ops l0 c A ls (OpPoint ls p')); [assumption|left; eauto|constructor].
      - pose proof (parts_done cf t0 ops l0 c A ls (OpBatch ls pts) [OpBatch ls (firstn (length pts) pts)] El (or_intror (ex_intro _ pts eq_refl)) (Done_batch _ _ _)) as X.
        rewrite firstn_all in X. exact X. }
    rewrite EW. eapply stored_grown; [|exact Hp]. unfold B. rewrite Wd. rewrite <- (firstn_skipn k (written [op])) at 2. rewrite fold_left_app. apply grown_fold. }
  rewrite EP in OK, PF, SB, HP.
  destruct (crep_fold (dc_chunk d) (written done) HWd (dc_world d) A H8 ltac:(lia)) as (cwk & Rk).
  rewrite (fold_ins_ext _ _ H7) in Rk. fold B in Rk.
  pose proof (drep_write _ _ _ _ _ _ _ _ _ D Rk) as Dk.
  exists done, (outcomes cf t0 ops), w. split; [assumption|]. split; [unfold db_after; rewrite E0; exact E|]. rewrite EP.
  intros hs bs o q s e Hh Hbs Hq Hse Hp.
  apply (halfway_reopen cf _ l0 c B h0 _ (snd (crash_at dhandler n (dop_prog cf op) w)) cw hs bs o q s e Dk); try assumption;
    cbn [set_heap d_fs dc_chunk dc_name]; try assumption; try exact I.
  { now rewrite Ec. } { now rewrite Ec. }
  { rewrite Ec, Et. intros c' i Hc Hi. specialize (SB c' Hc). specialize (Hclk i ltac:(lia)). lia. }
  { rewrite Ec, Et. exact HP. }
Qed.
