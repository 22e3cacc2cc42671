(* What a database answers after power failures. *)
From Coq Require Import ZifyBool ZifyNat Permutation Sorted.
From Verif Require Import Rust StringProofs Prog Gorilla GorillaSpec Storage StorageSpec StorageProofs Labels IndexSpec Indexer
  LabelProofs IndexProofs Chunk ChunkSpec ChunkProofs ChunkFacts ConcSpec Conc CrashProofs ReadsSpec ReadsMay ReadsCrash ReadsConc Utils DirSpec DirProofs TiKvInit Db DbSpec MapProofs DbProofs DbHist RangeSpec RangeProofs DbFacts
  ReopenSpec ReopenProofs Flush LossSpec FlushProofs LossProofs LossDbSpec.
Local Notation length := List.length.

(** ** the point stores along a history *)
Definition logged (d : dchunk) (x : chunk * list ireq) : Prop :=
  like (dc_chunk d) (fst x) /\ slog (dc_chunk d) (w_st (dc_world d)) (snd x).
Definition logs (n : nat) (w : dworld) (hs : list (chunk * list ireq)) : Prop :=
  exists h0 h1, d_heap w = h0 ++ h1 /\ length h0 = n /\ Forall2 logged h1 hs.
Definition part_of (x : chunk * list ireq) : part := (fst x, content_of (fst x) (snd x)).

Lemma like_content a b : like a b -> forall h, content_of a h = content_of b h.
Proof. intros H h. apply fold_ins_ext. exact H. Qed.
Lemma like_taken a b : like a b -> forall h, taken a h = taken b h.
Proof. intros H h. unfold taken. rewrite (like_window _ _ H). reflexivity. Qed.
Lemma like_loss a b : like a b -> forall h n, after_loss a h n = after_loss b h n.
Proof. intros H h n. unfold after_loss. now rewrite !(like_content a b H), (like_taken a b H). Qed.

Lemma slog_out ch st h r : in_windowb ch (tp_ts (snd r)) = false -> slog ch st h -> slog ch st (h ++ [r]).
Proof. intros W H a. rewrite taken_snoc, W, app_nil_r. apply H. Qed.

Lemma write_all_log i ls pts : set_ok ls -> Forall tp_ok pts -> forall w d h w' b, nth_error (d_heap w) i = Some d ->
  c_storage (dc_chunk d) = SledStorage -> 0 <= c_start (dc_chunk d) ->
  crep (dc_chunk d) (dc_world d) (content_of (dc_chunk d) h) -> slog (dc_chunk d) (w_st (dc_world d)) h ->
  Z.of_nat (length (content_of (dc_chunk d) h) + length pts) < 2 ^ 64 ->
  run dhandler (write_all i (dc_chunk d) ls pts) w = Some (b, w') ->
  exists cw, d_heap w' = upd (d_heap w) i (mkDc (dc_chunk d) cw (dc_name d)) /\ slog (dc_chunk d) (w_st cw) (h ++ map (pair ls) pts).
Proof.
  intros Hls Hp. induction Hp as [|p pts Hp _ IH]; intros w d h w' b Hn Hst H0 HA HS HL.
  - cbn [write_all run]. intros E. injection E as _ <-. exists (dc_world d).
    assert (mkDc (dc_chunk d) (dc_world d) (dc_name d) = d) as -> by now destruct d. rewrite upd_self by assumption.
    split; [reflexivity|]. cbn [map]. now rewrite app_nil_r.
  - cbn [length] in HL. cbn [write_all map].
    pose proof (insert_run (dc_chunk d) (dc_world d) _ ls p HA Hls Hp ltac:(lia)) as I.
    assert (AP: h ++ (ls, p) :: map (pair ls) pts = (h ++ [(ls, p)]) ++ map (pair ls) pts) by (rewrite <- app_assoc; reflexivity). rewrite AP.
    assert (CL: (length (content_of (dc_chunk d) (h ++ [(ls, p)])) <= S (length (content_of (dc_chunk d) h)))%nat).
    { rewrite content_snoc. apply ins_len. }
    destruct (in_windowb (dc_chunk d) (tp_ts p)) eqn:W.
    + assert (B: batch_passes (dc_chunk d) p = true) by (unfold batch_passes; unfold in_windowb in W; lia). rewrite B.
      destruct I as (cw & E & R & C). rewrite run_bind, (run_DC _ _ _ d) by assumption. pose proof E as E'. unfold crun in E'. rewrite E'.
      assert (Hi: (i < length (d_heap w))%nat) by (apply nth_error_Some; congruence).
      set (d1 := mkDc (dc_chunk d) cw (dc_name d)). set (w1 := set_heap w (upd (d_heap w) i d1)).
      intros Er. destruct (IH w1 d1 (h ++ [(ls, p)]) w' b) as (cw' & E1 & S1).
      * cbn [w1 d_heap set_heap]. rewrite nth_upd by assumption. now rewrite Nat.eqb_refl.
      * exact Hst.
      * exact H0.
      * cbn [d1 dc_chunk dc_world]. rewrite content_snoc. unfold ins. cbn [fst snd]. rewrite W. exact R.
      * cbn [d1 dc_chunk dc_world]. apply (slog_step _ (dc_world d) h (ls, p) (Ok tt) cw); try assumption; [split; assumption|lia].
      * cbn [d1 dc_chunk]. lia.
      * exact Er.
      * exists cw'. cbn [d1 w1 dc_chunk dc_name d_heap set_heap] in *. rewrite E1, upd_upd by assumption. auto.
    + assert (CE: content_of (dc_chunk d) (h ++ [(ls, p)]) = content_of (dc_chunk d) h) by (rewrite content_snoc; unfold ins; cbn [fst snd]; now rewrite W).
      assert (G: forall b1, run dhandler (write_all i (dc_chunk d) ls pts) w = Some (b1, w') ->
         exists cw, d_heap w' = upd (d_heap w) i (mkDc (dc_chunk d) cw (dc_name d)) /\ slog (dc_chunk d) (w_st cw) ((h ++ [(ls, p)]) ++ map (pair ls) pts)).
      { intros b1 Er. apply (IH w d (h ++ [(ls, p)]) w' b1); try assumption; [now rewrite CE|now apply slog_out|rewrite CE; lia]. }
      destruct (batch_passes (dc_chunk d) p) eqn:B; [|apply G].
      rewrite run_bind, (run_DC _ _ _ d) by assumption. unfold crun in I. rewrite I.
      assert (mkDc (dc_chunk d) (dc_world d) (dc_name d) = d) as -> by now destruct d. rewrite upd_self by assumption.
      assert (set_heap w (d_heap w) = w) as -> by now destruct w.
      rewrite run_qbind. destruct (run dhandler (write_all i (dc_chunk d) ls pts) w) as [[b1 w1]|] eqn:Er; [|discriminate].
      intros E. apply (G b1). destruct b1 as [x|x|]; cbn [run] in E; injection E as _ <-; reflexivity.
Qed.

(* the state with the current chunk's history *)
Lemma state_current cf w l0 start h : cf_st cf = Sled -> state cf w (l0 ++ [(the_chunk cf start, content_of (the_chunk cf start) h)]) ->
  exists h0 d, d_heap w = h0 ++ [d] /\ d_cur w = length h0 /\ d_curl w = free_lock /\ like (dc_chunk d) (the_chunk cf start) /\
    crep (dc_chunk d) (dc_world d) (content_of (dc_chunk d) h) /\ 0 <= c_start (dc_chunk d) /\ c_storage (dc_chunk d) = SledStorage.
Proof.
  intros Hst (l1 & c1 & A1 & h0 & d & E & D). apply app_inj_tail in E. destruct E as [<- E].
  injection E as <- <-. pose proof D as [H1 H2 H3 H4 H5 H6 H7 H8 H9 H10 H11 H12].
  exists h0, d. do 4 (split; [assumption|]). split; [rewrite (like_content _ _ H7); exact H8|].
  apply Forall2_app_inv_r in H11. destruct H11 as (e1 & e2 & _ & F2 & _). inversion F2 as [|e ? ? ? F3 F4]; subst.
  destruct F3 as (_ & _ & U & _ & K & _). unfold u64 in U. split; [lia|]. now apply K.
Qed.

Lemma logs_current n w hs x h0 d : logs n w (hs ++ [x]) -> d_heap w = h0 ++ [d] ->
  exists a b, h0 = a ++ b /\ length a = n /\ Forall2 logged b hs /\ logged d x.
Proof.
  intros (a & h1 & E & L & F) E'. apply Forall2_app_inv_r in F as (b & c & F1 & F2 & ->). inversion F2 as [|y ? ? ? F3 F4]; subst.
  inversion F4; subst. rewrite E, app_assoc in E'. apply app_inj_tail in E' as [<- <-]. exists a, b. auto.
Qed.
Lemma logs_grow n w w' hs x x' h0 d d' : logs n w (hs ++ [x]) -> d_heap w = h0 ++ [d] -> d_heap w' = h0 ++ [d'] -> logged d' x' -> logs n w' (hs ++ [x']).
Proof.
  intros H E E' L. destruct (logs_current _ _ _ _ _ _ H E) as (a & b & -> & La & F & _). exists a, (b ++ [d']).
  rewrite E', app_assoc. split; [reflexivity|]. split; [assumption|]. apply Forall2_app; [assumption|]. constructor; [assumption|constructor].
Qed.

Lemma point_log cf w w' l0 start h ls p n hs r : cf_st cf = Sled ->
  state cf w (l0 ++ [(the_chunk cf start, content_of (the_chunk cf start) h)]) -> logs n w (hs ++ [(the_chunk cf start, h)]) ->
  set_ok ls -> tp_ok p -> Z.of_nat (length (content_of (the_chunk cf start) h)) + 1 < 2 ^ 64 ->
  drun (db_write_point ls p) w = Some (r, w') -> logs n w' (hs ++ [(the_chunk cf start, h ++ [(ls, p)])]).
Proof.
  intros Hst HS HG Hls Hp HL. destruct (state_current _ _ _ _ _ Hst HS) as (h0 & d & H1 & H2 & H3 & H4 & H5 & H6 & H7).
  destruct (logs_current _ _ _ _ _ _ HG H1) as (a & b & _ & _ & _ & _ & LG). cbn [fst snd] in LG.
  assert (N: nth_error (d_heap w) (d_cur w) = Some d) by (rewrite H1, H2; apply nth_last).
  unfold drun, db_write_point. rewrite (with_current_run _ w d) by assumption. rewrite (run_DC _ _ _ d) by exact N.
  destruct (run (chandler (dc_chunk d)) (chunk_insert (dc_chunk d) ls p) (dc_world d)) as [[x cw]|] eqn:E; [|discriminate]. intros Er. injection Er as _ <-.
  eapply (logs_grow n w _ hs _ _ h0 d (mkDc (dc_chunk d) cw (dc_name d))); [exact HG|exact H1| |].
  - cbn [d_heap set_heap set_curl d_cur]. rewrite H1, H2. apply upd_last.
  - split; [exact H4|]. cbn [fst snd dc_chunk dc_world]. apply (slog_step _ (dc_world d) h (ls, p) x cw); try assumption; [split; assumption|].
    now rewrite (like_content _ _ H4).
Qed.
Lemma batch_log cf w w' l0 start h ls pts n hs r : cf_st cf = Sled ->
  state cf w (l0 ++ [(the_chunk cf start, content_of (the_chunk cf start) h)]) -> logs n w (hs ++ [(the_chunk cf start, h)]) ->
  (pts <> [] -> set_ok ls) -> Forall tp_ok pts -> Z.of_nat (length (content_of (the_chunk cf start) h) + length pts) < 2 ^ 64 ->
  drun (db_write_points ls pts) w = Some (r, w') -> logs n w' (hs ++ [(the_chunk cf start, h ++ map (pair ls) pts)]).
Proof.
  intros Hst HS HG Hls Hp HL. destruct (state_current _ _ _ _ _ Hst HS) as (h0 & d & H1 & H2 & H3 & H4 & H5 & H6 & H7).
  destruct (logs_current _ _ _ _ _ _ HG H1) as (a & b & _ & _ & _ & _ & LG). cbn [fst snd] in LG.
  assert (N: nth_error (d_heap w) (d_cur w) = Some d) by (rewrite H1, H2; apply nth_last).
  unfold drun, db_write_points. rewrite (with_current_run _ w d) by assumption. rewrite run_qbind.
  destruct (run dhandler (write_all (d_cur w) (dc_chunk d) ls pts) (set_curl w (mkRw 1 false false))) as [[x w1]|] eqn:E; [|discriminate].
  assert (G: exists cw, d_heap w1 = upd (d_heap w) (d_cur w) (mkDc (dc_chunk d) cw (dc_name d)) /\ slog (dc_chunk d) (w_st cw) (h ++ map (pair ls) pts)).
  { destruct pts as [|p0 pts0].
    - cbn [write_all run] in E. injection E as _ <-. exists (dc_world d). cbn [set_curl d_heap map]. rewrite app_nil_r. split; [|assumption].
      assert (mkDc (dc_chunk d) (dc_world d) (dc_name d) = d) as -> by now destruct d. now rewrite upd_self by assumption.
    - apply (write_all_log (d_cur w) ls (p0 :: pts0) (Hls ltac:(discriminate)) Hp (set_curl w (mkRw 1 false false)) d h w1 x); try assumption.
      now rewrite (like_content _ _ H4). }
  destruct G as (cw & Eh & SL). intros Er.
  assert (Hh: d_heap w' = d_heap w1).
  { destruct x as [x|x|]; cbn [run] in Er; injection Er as _ <-; reflexivity. }
  eapply (logs_grow n w _ hs _ _ h0 d (mkDc (dc_chunk d) cw (dc_name d))); [exact HG|exact H1| |].
  - rewrite Hh, Eh, H1, H2. apply upd_last.
  - split; [exact H4|exact SL].
Qed.
Lemma swap_log cf w w' start start' h n hs : cf_st cf = Sled -> logs n w (hs ++ [(the_chunk cf start, h)]) -> swapped cf w w' ->
  (exists h0 d, d_heap w' = h0 ++ [d] /\ like (dc_chunk d) (the_chunk cf start')) ->
  logs n w' ((hs ++ [(the_chunk cf start, h)]) ++ [(the_chunk cf start', [])]).
Proof.
  intros Hst HG (h0 & d & d' & nd & E1 & E2 & Ed & Es & En) (h0' & d0 & E3 & Lk). specialize (En Hst).
  rewrite E2 in E3. apply app_inj_tail in E3 as [_ <-].
  destruct (logs_current _ _ _ _ _ _ HG E1) as (a & b & -> & La & F & LG). exists a, ((b ++ [d']) ++ [nd]).
  rewrite E2, <- !app_assoc. split; [reflexivity|]. split; [assumption|]. apply Forall2_app; [assumption|].
  constructor; [|constructor; [|constructor]].
  - unfold logged. rewrite Ed, Es. exact LG.
  - split; [exact Lk|]. cbn [snd]. rewrite En. apply slog_new.
Qed.

Lemma hist_logs cf ops : cf_st cf = Sled -> 0 <= cf_size cf -> forall start h w l0 n hs rs w',
  state cf w (l0 ++ [(the_chunk cf start, content_of (the_chunk cf start) h)]) -> logs n w (hs ++ [(the_chunk cf start, h)]) ->
  starts_ok cf start ops -> Forall ireq_ok (written ops) -> Z.of_nat (length h + length (written ops)) < 2 ^ 64 - 1 ->
  db_after_from cf ops w = Some (rs, w') -> logs n w' (hs ++ hists_from cf start h ops).
Proof.
  intros Hst Hsz. induction ops as [|o ops IH]; intros start h w l0 n hs rs w' HS HG Ho Hw HL E.
  - cbn [db_after_from hists_from] in *. injection E as _ <-. exact HG.
  - pose proof (content_length (the_chunk cf start) h) as CL. cbn [db_after_from] in E.
    destruct (drun (dop_prog cf o) w) as [[r w1]|] eqn:E1; [|discriminate].
    destruct (db_after_from cf ops w1) as [[rs' w2]|] eqn:E2; [|discriminate]. injection E as _ <-.
    destruct o as [ls p|ls pts|start']; cbn [written starts_ok hists_from dop_prog] in *.
    + inversion Hw as [|? ? [H1 H2] Hw']; subst. cbn [fst snd length] in *.
      destruct (point_run cf w l0 _ _ ls p HS H1 H2 ltac:(lia)) as (w1' & E1' & S1 & _). assert (w1' = w1) as -> by congruence.
      rewrite <- content_snoc in S1. apply (IH start _ w1 l0 n hs rs'); try assumption.
      * eapply point_log; try eassumption. lia.
      * rewrite app_length. cbn [length]. unfold ireq in *. lia.
    + apply Forall_app in Hw. destruct Hw as [Hb Hw']. rewrite app_length, map_length in HL.
      assert (H1: pts <> [] -> set_ok ls) by (destruct pts; [contradiction|]; intros _; inversion Hb as [|? ? [K _] _]; exact K).
      assert (H2: Forall tp_ok pts) by (clear - Hb; induction pts; inversion Hb as [|? ? [_ K] K2]; subst; constructor; auto).
      pose proof (batch_log _ _ _ _ _ _ _ _ _ _ _ Hst HS HG H1 H2 ltac:(lia) E1) as G1.
      assert (S1: state cf w1 (l0 ++ [(the_chunk cf start, content_of (the_chunk cf start) (h ++ map (pair ls) pts))])).
      { destruct pts as [|p0 pts0].
        - cbn [map]. rewrite app_nil_r. destruct HS as (l1 & c1 & A1 & h0 & d & Eq & D). pose proof D as [K1 K2 K3 K4 K5 K6 K7 K8 K9 K10 K11 K12].
          unfold drun, db_write_points in E1. rewrite (with_current_run _ w d) in E1; [|assumption|rewrite K1, K2; apply nth_last].
          rewrite run_qbind in E1. cbn [write_all run] in E1. injection E1 as _ <-. exists l1, c1, A1, h0, d. split; [assumption|].
          replace (set_curl _ _) with w; [exact D|]. clear - K4. destruct w; cbn in *. now subst.
        - destruct (batch_run cf w l0 _ _ ls (p0 :: pts0) HS (H1 ltac:(discriminate)) H2 ltac:(lia)) as (w1' & E1' & S1 & _).
          assert (w1' = w1) as -> by congruence. unfold content_of in *. rewrite fold_left_app. exact S1. }
      apply (IH start _ w1 l0 n hs rs'); try assumption. rewrite app_length, map_length. unfold ireq in *. lia.
    + destruct Ho as (H1 & H2 & H3).
      destruct (swap_run cf w l0 _ _ start' HS H1 Hsz H2) as (w1' & E1' & S1 & _ & _ & SW). assert (w1' = w1) as -> by congruence.
      replace (hs ++ (the_chunk cf start, h) :: hists_from cf start' [] ops) with ((hs ++ [(the_chunk cf start, h)]) ++ hists_from cf start' [] ops) by (rewrite <- app_assoc; reflexivity).
      apply (IH start' [] w1 _ n _ rs' w2 S1); try assumption; [|cbn [length]; lia].
      eapply swap_log; try eassumption. destruct (state_current cf w1 _ start' [] Hst S1) as (h0 & d & K1 & _ & _ & K2 & _). eauto.
Qed.

(** ** losing sets *)
Lemma lose_none cw : lose_sets 0 cw = cw.
Proof. destruct cw. reflexivity. Qed.
Lemma lose_nil h : lose [] h = h.
Proof. induction h as [|d h IH]; [reflexivity|]. cbn [lose hd tl]. rewrite IH, lose_none. now destruct d. Qed.
Lemma lose_app a b : forall losses, lose losses (a ++ b) = lose losses a ++ lose (skipn (length a) losses) b.
Proof.
  induction a as [|d a IH]; intros losses; [reflexivity|]. cbn [app lose length]. rewrite IH. f_equal. destruct losses; cbn [tl skipn]; [|reflexivity].
  destruct (length a); reflexivity.
Qed.
Lemma lose_zeros a b losses : lose (repeat O (length a) ++ losses) (a ++ b) = a ++ lose losses b.
Proof.
  induction a as [|d a IH]; [reflexivity|]. cbn [app lose length repeat hd tl]. rewrite IH, lose_none. now destruct d.
Qed.
Lemma survivors_app a b : forall losses, survivors (a ++ b) losses = survivors a losses ++ survivors b (skipn (length a) losses).
Proof.
  induction a as [|[c h] a IH]; intros losses; [reflexivity|]. cbn [app survivors length]. rewrite IH. f_equal. f_equal. destruct losses; cbn [tl skipn]; [|reflexivity].
  destruct (length a); reflexivity.
Qed.
Lemma loss_none c h : Forall ireq_ok h -> after_loss c h 0 = content_of c h.
Proof.
  intros H. unfold after_loss. rewrite but_last_0, content_taken. pose proof (content_wf c h H) as W. unfold cut.
  rewrite <- (map_id (content_of c h)) at 2. apply map_ext_in. intros [ls pts] Hin. cbn [fst]. f_equal.
  apply In_nth_error in Hin as (i & Hi). pose proof (fun G => points_at (content_of c h) (content_of c h) i (ls, pts) G W Hi) as K. cbn [fst] in K.
  rewrite K; [now rewrite Hi|]. intros j l q Hj. exists q. split; [assumption|]. exists []. now rewrite app_nil_r.
Qed.
Lemma survivors_nil hs : Forall (fun x => Forall ireq_ok (snd x)) hs -> survivors hs [] = map part_of hs.
Proof.
  induction 1 as [|[c h] hs H F IH]; [reflexivity|]. cbn [survivors map hd tl part_of fst snd]. rewrite IH. f_equal. unfold part_of. cbn [fst snd].
  now rewrite loss_none.
Qed.
Lemma hists_parts cf ops : forall start h, parts_from cf start h ops = map part_of (hists_from cf start h ops).
Proof. induction ops as [|o ops IH]; intros start h; [reflexivity|]. destruct o; cbn [parts_from hists_from map]; rewrite IH; reflexivity. Qed.
Lemma hists_ok cf ops : forall start h, Forall ireq_ok h -> Forall ireq_ok (written ops) -> Forall (fun x => Forall ireq_ok (snd x)) (hists_from cf start h ops).
Proof.
  induction ops as [|o ops IH]; intros start h Hh Hw; [repeat constructor; assumption|]. destruct o as [ls p|ls pts|st]; cbn [written hists_from] in *.
  - inversion Hw; subst. apply IH; [|assumption]. apply Forall_app. split; [assumption|]. constructor; [assumption|constructor].
  - apply Forall_app in Hw as [H1 H2]. apply IH; [|assumption]. apply Forall_app. auto.
  - constructor; [assumption|]. apply IH; [constructor|assumption].
Qed.
Lemma hists_last cf ops : forall start h, exists hs h', hists_from cf start h ops = hs ++ [(the_chunk cf (last_start start ops), h')].
Proof.
  induction ops as [|o ops IH]; intros start h; [exists [], h; reflexivity|]. destruct o as [ls p|ls pts|st]; cbn [hists_from last_start]; [apply IH..|].
  destruct (IH st []) as (hs & h' & E). exists ((the_chunk cf start, h) :: hs), h'. now rewrite E.
Qed.

Lemma lost_crd d x a : c_storage (dc_chunk d) = SledStorage -> Forall ireq_ok (snd x) -> logged d x ->
  crd (dc_chunk d) (dc_world d) (snd (part_of x)) -> crd (dc_chunk d) (lose_sets a (dc_world d)) (after_loss (fst x) (snd x) a).
Proof.
  intros Hs Hh [Lk SL] [R1 R2 R3 R4 R5 R6]. cbn [part_of snd] in *. rewrite <- (like_content _ _ Lk) in *. rewrite <- (like_loss _ _ Lk).
  destruct (loss_crd (dc_chunk d) (dc_world d) (snd x) a Hs Hh R1 SL) as [Q1 Q2 Q3 Q4 Q5 Q6].
  constructor; cbn [lose_sets set_st w_ix w_st w_locked w_poisoned w_faults]; assumption.
Qed.
Lemma lost_crep d x a : c_storage (dc_chunk d) = SledStorage -> Forall ireq_ok (snd x) -> logged d x ->
  crep (dc_chunk d) (dc_world d) (snd (part_of x)) -> crep (dc_chunk d) (lose_sets a (dc_world d)) (after_loss (fst x) (snd x) a).
Proof.
  intros Hs Hh L R. destruct (lost_crd d x a Hs Hh L (crep_crd _ _ _ R)) as [Q1 Q2 Q3 Q4 Q5 Q6].
  constructor; try assumption. cbn [lose_sets set_st w_next]. rewrite (cr_next _ _ _ R). cbn [part_of snd]. unfold after_loss. now rewrite cut_length.
Qed.
Lemma lose_hrel : forall hs h losses, Forall (fun d => c_storage (dc_chunk d) = SledStorage) h -> Forall (fun x => Forall ireq_ok (snd x)) hs ->
  Forall2 logged h hs -> hrel h (map part_of hs) -> hrel (lose losses h) (survivors hs losses).
Proof.
  induction hs as [|[c h1] hs IH]; intros h losses HS HO F R; inversion F as [|d ? h' ? F1 F2]; subst; [constructor|].
  inversion HS; subst. inversion HO; subst. inversion R as [|? ? ? ? [K1 K2] K3]; subst. cbn [lose survivors]. constructor; [|now apply IH].
  split; cbn [fst snd dc_chunk dc_world]; [exact K1|]. apply (lost_crd d (c, h1)); assumption.
Qed.
Lemma dir_lose cf ds : forall h losses, Forall2 (dir_ok cf) ds h -> Forall2 (dir_ok cf) ds (lose losses h).
Proof.
  induction ds as [|e ds IH]; intros h losses F; inversion F as [|? d ? h' F1 F2]; subst; [constructor|]. cbn [lose]. constructor; [exact F1|now apply IH].
Qed.
Lemma map_lose {B} (g : chunk -> B) h : forall losses, map (fun d => g (dc_chunk d)) (lose losses h) = map (fun d => g (dc_chunk d)) h.
Proof. induction h as [|d h IH]; intros losses; [reflexivity|]. cbn [lose map dc_chunk]. now rewrite IH. Qed.
Lemma lose_length h : forall losses, length (lose losses h) = length h.
Proof. induction h as [|d h IH]; intros losses; [reflexivity|]. cbn [lose length]. now rewrite IH. Qed.

Lemma F2_len {A B} {R : A -> B -> Prop} {a b} : Forall2 R a b -> length a = length b.
Proof. induction 1; cbn [length]; congruence. Qed.
Lemma app_len_inj {B} (a a' b b' : list B) : length a = length a' -> a ++ b = a' ++ b' -> a = a' /\ b = b'.
Proof.
  revert a'. induction a as [|x a IH]; intros [|y a'] L E; cbn [length app] in *; try discriminate; [auto|]. injection E as -> E. destruct (IH a' ltac:(lia) E) as [-> ->]. auto.
Qed.
Lemma lose_state cf w l0 hs x losses : cf_st cf = Sled -> Forall (fun x => Forall ireq_ok (snd x)) (hs ++ [x]) ->
  state cf w (l0 ++ map part_of (hs ++ [x])) -> logs (length l0) w (hs ++ [x]) ->
  state cf (set_heap w (lose (repeat O (length l0) ++ losses) (d_heap w))) (l0 ++ survivors (hs ++ [x]) losses).
Proof.
  intros Hst HO (l1 & c & A & h0 & d & E & D) HG. pose proof D as [H1 H2 H3 H4 H5 H6 H7 H8 H9 H10 H11 H12].
  rewrite map_app, app_assoc in E. cbn [map] in E. apply app_inj_tail in E as [<- E]. unfold part_of in E. injection E as <- <-.
  destruct (logs_current _ _ _ _ _ _ HG H1) as (a & b & -> & La & F & LG). apply Forall_app in HO as [HO HX]. inversion HX as [|? ? HX' _]; subst.
  apply Forall2_app_inv_l in H6 as (l1 & l2 & G1 & G2 & E). fold (hrel a l1) in G1.
  destruct (app_len_inj l0 l1 (map part_of hs) l2) as [<- <-]; [rewrite <- La; now apply hrel_length|exact E|]. fold (hrel b (map part_of hs)) in G2.
  assert (SA: Forall (fun d => c_storage (dc_chunk d) = SledStorage) ((a ++ b) ++ [d])).
  { clear - H11 Hst. induction H11 as [|e y ds h K1 K2 IH]; constructor; [|assumption]. destruct K1 as (_ & _ & _ & _ & K & _). now apply K. }
  apply Forall_app in SA as [SB SD]. apply Forall_app in SB as [_ SB]. inversion SD as [|? ? SD' _]; subst.
  assert (EH: lose (repeat O (length l0) ++ losses) (d_heap w) = (a ++ lose losses b) ++ lose (skipn (length hs) losses) [d]).
  { rewrite H1, <- La, <- !app_assoc, lose_zeros, lose_app. now rewrite (F2_len F). }
  assert (LB: length (lose losses b) = length b) by apply lose_length.
  rewrite survivors_app, app_assoc. destruct x as [c0 h1]. cbn [survivors fst snd] in *.
  exists (l0 ++ survivors hs losses), c0, (after_loss c0 h1 (hd O (skipn (length hs) losses))), (a ++ lose losses b),
    (mkDc (dc_chunk d) (lose_sets (hd O (skipn (length hs) losses)) (dc_world d)) (dc_name d)). split; [reflexivity|].
  constructor; cbn [set_heap d_heap d_cur d_sec d_curl d_secl d_fs dc_chunk dc_world]; try assumption.
  - rewrite H2, !app_length. now rewrite LB.
  - rewrite H3, !app_length. now rewrite LB.
  - apply Forall2_app; [assumption|]. now apply lose_hrel.
  - apply (lost_crep d (c0, h1)); assumption.
  - change (a ++ lose losses b) with (a ++ lose losses b). fold (lose (skipn (length hs) losses) [d]).
    replace ((a ++ lose losses b) ++ _) with (lose (repeat O (length l0) ++ losses) ((a ++ b) ++ [d])); [now apply dir_lose|]. rewrite <- H1. exact EH.
  - pose proof (map_lose c_start ((a ++ b) ++ [d]) (repeat O (length l0) ++ losses)) as M. rewrite <- H1, EH in M. cbn [lose] in M. rewrite M, H1. exact H12.
Qed.

(** ** what survives was written *)
Lemma loss_sub c h a ls pts p : In (ls, pts) (after_loss c h a) -> In p pts -> exists ls' pts', In (ls', pts') (content_of c h) /\ In p pts'.
Proof.
  unfold after_loss, cut. intros Hin Hp. apply in_map_iff in Hin as (e & E & _). injection E as <- <-. unfold points_in in Hp.
  destruct (find _ _) as [[l q]|] eqn:F; [|contradiction]. apply find_some in F as [F _]. apply In_nth_error in F as (i & Hi).
  destruct (but_last_grown c h a _ _ _ Hi) as (q' & Hq & (z & Ez)). exists l, q'. split; [now apply nth_error_In in Hq|]. rewrite Ez. apply in_or_app. now left.
Qed.
Lemma survivors_sub hs : forall losses c ls pts p, In c (survivors hs losses) -> In (ls, pts) (snd c) -> In p pts ->
  exists h ls' pts', In (fst c, h) hs /\ In (ls', pts') (content_of (fst c) h) /\ In p pts'.
Proof.
  induction hs as [|[c0 h] hs IH]; intros losses c ls pts p Hc Hin Hp; [contradiction|]. cbn [survivors] in Hc. destruct Hc as [<-|Hc].
  - cbn [fst snd] in *. destruct (loss_sub _ _ _ _ _ _ Hin Hp) as (ls' & pts' & K1 & K2). exists h, ls', pts'. split; [now left|auto].
  - destruct (IH _ _ _ _ _ Hc Hin Hp) as (h' & ls' & pts' & K1 & K2). exists h', ls', pts'. split; [now right|assumption].
Qed.
Lemma survivors_stored cf start ops losses p : stored (survivors (hists cf start ops) losses) p -> stored (parts cf start ops) p.
Proof.
  intros (c & ls & pts & H1 & H2 & H3). destruct (survivors_sub _ _ _ _ _ _ H1 H2 H3) as (h & ls' & pts' & K1 & K2 & K3).
  exists (part_of (fst c, h)), ls', pts'. split; [|split; assumption]. unfold parts. rewrite hists_parts. now apply in_map.
Qed.
Lemma survivors_fit cf start ops losses : Forall ireq_ok (written ops) -> Forall2 fits (survivors (hists cf start ops) losses) (survivors (hists cf start ops) losses).
Proof.
  intros Hw. assert (G: forall l, (forall c, In c l -> In c (survivors (hists cf start ops) losses)) -> Forall2 fits l l); [|apply G; auto].
  induction l as [|c l IH]; intros H; constructor.
  - split; [reflexivity|]. split; [reflexivity|]. intros ls pts p H1 H2.
    destruct (survivors_sub _ _ _ _ _ _ (H c ltac:(now left)) H1 H2) as (h & ls' & pts' & K1 & K2 & K3).
    assert (In (part_of (fst c, h)) (parts cf start ops)) as K4 by (unfold parts; rewrite hists_parts; now apply in_map).
    pose proof (parts_in_window cf start ops _ ls' pts' p Hw K4 K2 K3) as K. unfold in_window in K. cbn [part_of fst] in K. lia.
  - apply IH. intros c' Hc'. apply H. now right.
Qed.
Lemma survivors_starts hs : forall losses, map (fun c => c_start (fst c)) (survivors hs losses) = map (fun x => c_start (fst x)) hs.
Proof. induction hs as [|[c h] hs IH]; intros losses; [reflexivity|]. cbn [survivors map fst]. now rewrite IH. Qed.
Lemma survivors_length hs : forall losses, length (survivors hs losses) = length hs.
Proof. induction hs as [|[c h] hs IH]; intros losses; [reflexivity|]. cbn [survivors length]. now rewrite IH. Qed.
Lemma survivors_bound cf start ops losses c : starts_ok cf start ops -> In c (survivors (hists cf start ops) losses) -> c_start (fst c) <= last_start start ops.
Proof.
  intros Hs Hc. assert (In (c_start (fst c)) (map (fun x => c_start (fst x)) (parts cf start ops))) as K.
  { unfold parts. rewrite hists_parts, map_map. cbn [part_of fst]. rewrite <- (survivors_starts _ losses). apply (in_map (fun c => c_start (fst c))). exact Hc. }
  apply in_map_iff in K as (c' & E & K). rewrite <- E. now apply (starts_bound cf ops start []).
Qed.
Lemma hists_length cf start ops : length (hists cf start ops) = length (parts cf start ops).
Proof. unfold parts, hists. rewrite hists_parts. now rewrite map_length. Qed.

(** ** processes ended by power failures *)
(* one process, from its opening on *)
Lemma life_state cf w0 l1 start ops : cf_st cf = Sled -> ops_ok cf start ops ->
  state cf w0 (l1 ++ [(the_chunk cf start, [])]) -> starts_empty cf w0 ->
  exists rs w, db_after_from cf ops w0 = Some (rs, w) /\ length (d_heap w0) = S (length l1) /\
    f_ticks (d_fs w) = f_ticks (d_fs w0) /\ same_env (d_fs w0) (d_fs w) /\
    forall losses, state cf (set_heap w (lose (repeat O (length l1) ++ losses) (d_heap w))) (l1 ++ survivors (hists cf start ops) losses).
Proof.
  intros Hst (Hb & H0 & Hsz & Hend & Hs & Hw & HL) S0 (hh & nd & Eh & En). specialize (En Hst).
  destruct (hist_from cf ops Hsz start [] w0 l1 S0 Hs Hw HL) as (w & E & St & T & N).
  exists (outcomes cf start ops), w. split; [exact E|].
  assert (LW: exists h0 d, d_heap w0 = h0 ++ [d] /\ length h0 = length l1 /\ like (dc_chunk d) (the_chunk cf start)).
  { destruct S0 as (l0 & c & A & h0 & d & E0 & D). apply app_inj_tail in E0 as [<- E0]. injection E0 as <- <-.
    exists h0, d. split; [apply D|]. split; [apply hrel_length; apply D|apply D]. }
  destruct LW as (h0 & d & E0 & L0 & Lk). pose proof E0 as E0'. rewrite Eh in E0. apply app_inj_tail in E0 as [-> ->].
  split; [rewrite E0', app_length, L0; cbn [length]; lia|]. split; [exact T|]. split; [exact N|]. intros losses.
  assert (G0: logs (length l1) w0 ([] ++ [(the_chunk cf start, [])])).
  { exists h0, [d]. split; [exact E0'|]. split; [exact L0|]. constructor; [|constructor]. split; [exact Lk|]. cbn [snd]. rewrite En. apply slog_new. }
  pose proof (hist_logs cf ops Hst Hsz start [] w0 l1 (length l1) [] _ w S0 G0 Hs Hw HL E) as G. cbn [app] in G.
  pose proof (hists_ok cf ops start [] (Forall_nil _) Hw) as HO. rewrite hists_parts in St. unfold hists.
  destruct (hists_last cf ops start []) as (hs & h' & EH). rewrite EH in *. now apply lose_state.
Qed.

Lemma fits_clip clock tick hi P l l1 : monotone clock -> Forall2 fits P l -> (forall p, stored P p -> tp_ts p <= clock tick) ->
  Forall2 (clip clock tick hi) l l1 -> Forall2 fits P l1.
Proof.
  intros Hm HF Hp C1. assert (Hp': forall c ls pts p, In c P -> In (ls, pts) (snd c) -> In p pts -> tp_ts p <= clock tick) by (intros; apply Hp; red; eauto 8).
  clear Hp. revert l1 C1. induction HF as [|c c' P l (A1 & A2 & A3) HF IH]; intros l1 C1; inversion C1 as [|? c1 ? l1' (B1 & B2 & en & i & B3 & B4 & B5) B6]; subst; constructor.
  - split; [congruence|]. split; [congruence|]. intros ls pts p G1 G2. destruct (A3 ls pts p G1 G2) as [G3 G4]. split; [assumption|].
    specialize (Hp' c ls pts p ltac:(now left) G1 G2). specialize (Hm tick i ltac:(lia)). rewrite B5. destruct (_ <? _) eqn:Q; lia.
  - apply IH; [|assumption]. intros. eapply Hp'; [right|..]; eassumption.
Qed.

Lemma last_app_ne {A} (a b : list A) d : b <> [] -> last (a ++ b) d = last b d.
Proof.
  intros H. induction a as [|x a IH]; [reflexivity|]. cbn [app]. rewrite <- IH. destruct (a ++ b) as [|y l] eqn:E; [|reflexivity].
  apply app_eq_nil in E as [_ E]. contradiction.
Qed.
Lemma last_shift {A} (l : list A) : forall x d, last (x :: l) d = last l x.
Proof. induction l as [|y l IH]; intros x d; [reflexivity|]. change (last (y :: l) d = last (y :: l) x). now rewrite !IH. Qed.
Lemma survivors_ne cf start ops losses : survivors (hists cf start ops) losses <> [].
Proof.
  intros Z. pose proof (survivors_length (hists cf start ops) losses) as L. rewrite Z in L. unfold hists in L. destruct (hists_last cf ops start []) as (hs & h' & E). rewrite E, app_length in L. cbn in L. lia.
Qed.
Lemma off_parts_ne clock tick n x L : off_parts clock tick n (x :: L) <> [].
Proof. destruct x as [x losses]. cbn [off_parts]. intros Z. apply app_eq_nil in Z as [Z _]. now apply survivors_ne in Z. Qed.
Lemma off_from clock L : monotone clock -> forall f P l1 w0 x losses tick n,
  db_open (lf_cf x) f = Some (Ok tt, w0) -> state (lf_cf x) w0 (l1 ++ [(the_chunk (lf_cf x) (clock (tick + n)%nat), [])]) -> starts_empty (lf_cf x) w0 ->
  Forall2 fits P l1 -> f_ticks (d_fs w0) = S (tick + n) -> f_clock (d_fs w0) = clock -> n = length l1 ->
  (forall c, In c l1 -> c_start (fst c) <= clock (tick + n)%nat) -> (forall p, stored P p -> tp_ts p <= clock (S (tick + n))) ->
  (exists last, lives_ok clock tick n last (map fst ((x, losses) :: L))) ->
  exists w' l' cf', live_off ((x, losses) :: L) f = Some w' /\ state cf' w' l' /\ Forall2 fits (P ++ off_parts clock tick n ((x, losses) :: L)) l' /\
    cf' = lf_cf (fst (last L (x, losses))) /\ forall d, last l' d = last (off_parts clock tick n ((x, losses) :: L)) d.
Proof.
  intros Hm. induction L as [|[y ly] L IH]; intros f P l1 w0 x losses tick n E0 S0 M0 HF Ht Hc Hn Hl Hp (last & HL).
  all: cbn [map fst lives_ok] in HL; destruct HL as (S1 & S2 & Ha & Hlast & Ho & Hpts & HL'); pose proof Ho as (Hb & H0 & Hsz & Hend & Hs & Hw & Hlen).
  all: set (start := clock (tick + n)%nat) in *.
  all: destruct (life_state (lf_cf x) w0 l1 start (lf_ops x) S1 Ho S0 M0) as (rs & w & E & LH & T & N & St).
  - cbn [live_off off_parts]. rewrite E0, E. fold start. rewrite app_nil_r. exists w, (l1 ++ survivors (hists (lf_cf x) start (lf_ops x)) []), (lf_cf x).
    split; [reflexivity|]. split.
    + specialize (St []). rewrite app_nil_r in St.
      assert (Z: forall k h, lose (repeat O k) h = h).
      { induction k as [|k IHk]; intros h; cbn [repeat]; [apply lose_nil|]. destruct h as [|d h]; [reflexivity|]. cbn [lose hd tl]. rewrite IHk, lose_none. now destruct d. }
      rewrite Z in St. replace (set_heap w (d_heap w)) with w in St by now destruct w. exact St.
    + split; [apply Forall2_app; [assumption|]; now apply survivors_fit|]. split; [reflexivity|]. intros d. apply last_app_ne. apply survivors_ne.
  - set (sv := survivors (hists (lf_cf x) start (lf_ops x)) losses).
    assert (EL: live_off ((x, losses) :: (y, ly) :: L) f = live_off ((y, ly) :: L) (power_off (lf_cf x) w (repeat O (length l1) ++ losses))).
    { cbn [live_off]. rewrite E0, E, LH. reflexivity. }
    rewrite EL, last_shift. change (off_parts clock tick n ((x, losses) :: (y, ly) :: L)) with
      (sv ++ off_parts clock (S (tick + n)) (n + length (hists (lf_cf x) start (lf_ops x))) ((y, ly) :: L)). rewrite app_assoc, hists_length.
    assert (LAST: forall (l : list part) d, List.last (sv ++ l ++ off_parts clock (S (tick + n)) (n + length (parts (lf_cf x) start (lf_ops x))) ((y, ly) :: L)) d = List.last (l ++ off_parts clock (S (tick + n)) (n + length (parts (lf_cf x) start (lf_ops x))) ((y, ly) :: L)) d).
    { intros l d. apply last_app_ne. intros Z. apply app_eq_nil in Z as [_ Z]. revert Z. apply off_parts_ne. }
    pose proof (LAST []) as LAST'. cbn [app] in LAST'.
    pose proof HL' as HL2. cbn [map fst lives_ok] in HL2. destruct HL2 as (Y1 & Y2 & Ya & Ylast & Yo & _ & _). pose proof Yo as (Yb & Y0 & Ysz & Yend & _).
    set (wl := set_heap w (lose (repeat O (length l1) ++ losses) (d_heap w))) in *. specialize (St losses). fold wl sv in St.
    set (tick' := S (tick + n)) in *. set (n' := (n + length (parts (lf_cf x) start (lf_ops x)))%nat) in *. set (start' := clock (tick' + n')%nat) in *.
    assert (Fc: f_clock (stopped (lf_cf x) wl) = clock) by (destruct N as (_ & K & _); exact (eq_trans K Hc)).
    assert (Ft: f_ticks (stopped (lf_cf x) wl) = tick') by (exact (eq_trans T Ht)).
    assert (Ln: length (l1 ++ sv) = n') by (rewrite app_length; unfold sv, n'; rewrite survivors_length, hists_length; lia).
    assert (EB: f_clock (stopped (lf_cf x) wl) (f_ticks (stopped (lf_cf x) wl) + length (l1 ++ sv)) = start') by (rewrite Fc, Ft, Ln; reflexivity).
    pose proof (last_start_ge _ _ _ Hs) as LG.
    assert (BD: forall c, In c (l1 ++ sv) -> c_start (fst c) <= last_start start (lf_ops x)).
    { intros c Hin. apply in_app_or in Hin as [Hin|Hin]; [specialize (Hl c Hin); lia|now apply (survivors_bound (lf_cf x) start (lf_ops x) losses c Hs)]. }
    destruct (reopen_run (lf_cf x) (lf_cf y) wl (l1 ++ sv) St S1 S2 Y1 Y2 Yb Ya Ysz) as (w1 & l2 & E1 & St1 & T1 & En1 & M1 & C1).
    { intros c Hin. apply (Z.le_lt_trans _ _ _ (BD c Hin)). apply (Z.lt_le_trans _ _ _ Ylast). apply Z.eq_le_incl. symmetry. exact EB. }
    { exact (eq_ind_r (fun z => z + cf_size (lf_cf y) < 2 ^ 64) Yend EB). }
    apply (fun S => eq_ind _ (fun z => state (lf_cf y) w1 (l2 ++ [(the_chunk (lf_cf y) z, [])])) S _ EB) in St1. rewrite Fc, Ft in C1.
    assert (FP: Forall2 fits (P ++ sv) (l1 ++ sv)) by (apply Forall2_app; [assumption|now apply survivors_fit]).
    assert (SP: forall p, stored (P ++ sv) p -> tp_ts p <= clock tick').
    { intros p (c & ls & pts & K1 & K2 & K3). apply in_app_or in K1 as [K1|K1]; [apply Hp; red; eauto 8|].
      apply Hpts; [discriminate|]. apply (survivors_stored (lf_cf x) start (lf_ops x) losses). red. eauto 8. }
    enough (G: exists w' l' cf', live_off ((y, ly) :: L) (power_off (lf_cf x) w (repeat O (length l1) ++ losses)) = Some w' /\ state cf' w' l' /\
      Forall2 fits ((P ++ sv) ++ off_parts clock tick' n' ((y, ly) :: L)) l' /\ cf' = lf_cf (fst (List.last L (y, ly))) /\ forall d, List.last l' d = List.last (off_parts clock tick' n' ((y, ly) :: L)) d).
    { destruct G as (w' & l' & cf' & G1 & G2 & G3 & G4 & G5). exists w', l', cf'. split; [exact G1|]. split; [exact G2|]. split; [exact G3|]. split; [exact G4|].
      intros d. exact (eq_trans (G5 d) (eq_sym (LAST' d))). }
    apply (IH (power_off (lf_cf x) w (repeat O (length l1) ++ losses)) (P ++ sv) l2 w1 y ly tick' n'); try assumption.
    + now apply (fits_clip clock tick' _ _ _ _ Hm FP SP C1).
    + rewrite T1, Ft. exact (f_equal (fun k => S (tick' + k)) Ln).
    + destruct En1 as (_ & K & _). congruence.
    + exact (eq_trans (eq_sym Ln) (F2_len C1)).
    + intros c Hin. destruct (F2_in_r _ _ _ _ C1 Hin) as (c0 & Hc0 & (_ & K & _)). specialize (BD c0 Hc0).
      apply (Z.le_trans _ (last_start start (lf_ops x))); [|apply Z.lt_le_incl; exact Ylast]. exact (eq_ind_r (fun z => z <= _) BD K).
    + intros p Hst. specialize (SP p Hst). specialize (Hm tick' (S (tick' + n')) ltac:(lia)). lia.
    + exists (last_start start (lf_ops x)). exact HL'.
Qed.

Theorem off_state f L : env_ok f -> empty_dir f -> monotone (f_clock f) -> lives_ok (f_clock f) (f_ticks f) 0 (-1) (map fst L) -> L <> [] ->
  exists w l cf, live_off L f = Some w /\ state cf w l /\ Forall2 fits (off_parts (f_clock f) (f_ticks f) 0 L) l /\
    (forall x, cf = lf_cf (fst (last L x))) /\ forall d, last l d = last (off_parts (f_clock f) (f_ticks f) 0 L) d.
Proof.
  intros He Hd Hm HL NE. destruct L as [|[x losses] L]; [contradiction|]. enough (G: exists w l cf, live_off ((x, losses) :: L) f = Some w /\ state cf w l /\ Forall2 fits ([] ++ off_parts (f_clock f) (f_ticks f) 0 ((x, losses) :: L)) l /\
    cf = lf_cf (fst (last L (x, losses))) /\ forall d, last l d = last (off_parts (f_clock f) (f_ticks f) 0 ((x, losses) :: L)) d).
  { destruct G as (w & l & cf & G1 & G2 & G3 & G4 & G5). exists w, l, cf. split; [exact G1|]. split; [exact G2|]. split; [exact G3|]. split; [|exact G5]. intros d. now rewrite last_shift. }
  pose proof HL as HL0. cbn [map fst lives_ok] in HL0. rewrite Nat.add_0_r in HL0.
  destruct HL0 as (S1 & S2 & Ha & Hlast & Ho & _ & _). pose proof Ho as (Hb & H0 & Hsz & Hend & Hs & Hw & Hlen).
  destruct (open_run (lf_cf x) f He Hd Hb Hsz Hend) as (w0 & E & St & T & N & M).
  apply (off_from (f_clock f) L Hm f [] [] w0 x losses (f_ticks f) 0 E); rewrite ?Nat.add_0_r; try assumption; try reflexivity; try constructor.
  - destruct N as (_ & K & _). exact K.
  - intros c [].
  - intros p (c & ls & pts & [] & _).
  - eauto.
Qed.

Lemma survivors_ok cf start ops losses : ops_ok cf start ops -> timely (written ops) -> Forall part_ok (survivors (hists cf start ops) losses).
Proof.
  intros Ho T. pose proof (parts_ok cf start ops Ho T) as K. pose proof Ho as (_ & _ & _ & _ & _ & Hw & _).
  pose proof (hists_ok cf ops start [] (Forall_nil _) Hw) as HO. unfold parts in K. rewrite hists_parts in K. unfold hists.
  revert losses K HO. generalize (hists_from cf start [] ops). induction l as [|[c h] l IH]; intros losses K HO; [constructor|].
  cbn [map survivors] in *. inversion K as [|? ? [K1 K2 K3] K4]; subst. inversion HO as [|? ? HO1 HO2]; subst. constructor; [|now apply IH].
  cbn [part_of fst snd] in *. constructor; cbn [snd].
  - apply cut_wfc; [assumption|]. apply content_wf. now apply but_last_ok.
  - now apply after_loss_increasing.
  - unfold after_loss. now rewrite cut_length.
Qed.
Lemma off_parts_ok clock : forall L tick n last, lives_ok clock tick n last (map fst L) -> timely (life_written (map fst L)) ->
  Forall part_ok (off_parts clock tick n L).
Proof.
  induction L as [|[x losses] L IH]; intros tick n last H T; [constructor|]. cbn [map fst lives_ok off_parts] in *.
  destruct H as (_ & _ & _ & _ & Ho & _ & H). unfold life_written in T. cbn [map concat] in T. apply Forall_app. split.
  - apply survivors_ok; [assumption|]. apply (timely_mid [] _ (concat (map (fun x => written (lf_ops x)) (map fst L)))). exact T.
  - rewrite hists_length. eapply IH; [exact H|]. apply (timely_mid (written (lf_ops x)) _ []). now rewrite app_nil_r.
Qed.

Theorem off_refine f L hs bs o q s e : env_ok f -> empty_dir f -> monotone (f_clock f) -> L <> [] ->
  lives_ok (f_clock f) (f_ticks f) 0 (-1) (map fst L) -> timely (life_written (map fst L)) ->
  hasher_ok hs -> bs_contract bs -> Forall lab_ok q ->
  let P := off_parts (f_clock f) (f_ticks f) 0 L in
  unmixed hs P q s e ->
  exists w r, live_off L f = Some w /\ drun (db_query hs bs o q s e) w = Some (r, w) /\ comes_to P q s e r.
Proof.
  intros He Hd Hm NE HL T Hh Hb Hq P Hp. destruct (off_state f L He Hd Hm HL NE) as (w & l & cf & E & St & F & _). fold P in F.
  pose proof (off_parts_ok _ _ _ _ _ HL T) as OK. fold P in OK.
  destruct (query_any hs bs o q s e w l (state_quiet _ _ _ St) (fits_ok _ _ F OK) Hh Hb Hq (fits_free _ _ _ _ _ _ F Hp)) as (r & Er & Ha).
  exists w, r. split; [assumption|]. split; [assumption|]. now apply (fits_comes P l).
Qed.

(** ** what the answers are like *)
Lemma loss_entry c h a ls pts : Forall ireq_ok h -> In (ls, pts) (after_loss c h a) -> exists pts0, In (ls, pts0) (content_of c h) /\ prefix pts pts0.
Proof.
  intros H. pose proof (content_wf c h H) as W. unfold after_loss, cut. intros Hin. apply in_map_iff in Hin as ([l q] & E & Hin). cbn [fst] in E. injection E as <- <-.
  exists q. split; [assumption|]. apply In_nth_error in Hin as (i & Hi). pose proof (points_at _ _ i (l, q) (but_last_grown c h a) W Hi) as K. cbn [fst] in K. rewrite K.
  destruct (nth_error (content_of c (but_last a (taken c h))) i) as [[l' q']|] eqn:F; [|exists q; reflexivity].
  destruct (but_last_grown c h a _ _ _ F) as (q2 & Hq & P). cbn [snd]. assert (Some (l', q2) = Some (l, q)) as Q by (etransitivity; [symmetry; exact Hq|exact Hi]).
  injection Q as _ <-. exact P.
Qed.
Lemma ss_prefix {A} (a b : list A) : prefix a b -> subseq a b.
Proof. intros (c & ->). rewrite <- (app_nil_r a) at 1. apply ss_app; [|apply ss_any]. induction a; constructor; assumption. Qed.
Lemma loss_piece c h a q s e m : Forall ireq_ok h -> subseq (piece (c, after_loss c h a) q s e m) (of_set m h).
Proof.
  intros H. unfold piece. destruct (answers _ q s e); [|apply ss_any]. cbn [fst snd].
  destruct (find _ (after_loss c h a)) as [[ls pts]|] eqn:F; [|apply ss_any].
  apply find_some in F as [F1 F2]. cbn [fst snd] in *. rewrite andb_true_iff in F2. destruct F2 as [F2 F3]. apply labs_eqb_spec in F2. subst m.
  destruct (loss_entry _ _ _ _ _ H F1) as (pts0 & F4 & P).
  rewrite of_set_sort; [|apply (content_sound c h H ls pts0 F4)|assumption].
  eapply ss_trans; [apply ss_filter|]. eapply ss_trans; [apply ss_prefix; exact P|exact (content_sub c h H _ _ F4)].
Qed.
Lemma survivors_concat cf q s e m ops : forall start h losses, Forall ireq_ok (h ++ written ops) ->
  subseq (concat (map (fun c => piece c q s e m) (survivors (hists_from cf start h ops) losses))) (of_set m (h ++ written ops)).
Proof.
  induction ops as [|o ops IH]; intros start h losses H; cbn [hists_from written] in *.
  - cbn [survivors map concat]. rewrite !app_nil_r in *. now apply loss_piece.
  - destruct o as [ls p|ls pts|start'].
    + specialize (IH start (h ++ [(ls, p)])). rewrite <- app_assoc in IH. apply IH, H.
    + specialize (IH start (h ++ map (pair ls) pts)). rewrite <- app_assoc in IH. apply IH, H.
    + apply Forall_app in H. destruct H as [H1 H2]. cbn [survivors map concat]. rewrite of_set_app. apply ss_app; [now apply loss_piece|].
      apply (IH start' []). exact H2.
Qed.
Lemma off_sub clock q s e m : forall L tick n last, lives_ok clock tick n last (map fst L) ->
  subseq (concat (map (fun c => piece c q s e m) (off_parts clock tick n L))) (of_set m (life_written (map fst L))).
Proof.
  induction L as [|[x losses] L IH]; intros tick n last H; [constructor|]. cbn [map fst lives_ok off_parts] in *.
  destruct H as (_ & _ & _ & _ & Ho & _ & H). unfold life_written. cbn [map concat]. rewrite map_app, concat_app, of_set_app.
  apply ss_app; [|rewrite hists_length; eapply IH; exact H]. apply (survivors_concat (lf_cf x) q s e m (lf_ops x) _ []). apply Ho.
Qed.
Theorem off_ordered f L hs bs o q s e : env_ok f -> empty_dir f -> monotone (f_clock f) -> L <> [] ->
  lives_ok (f_clock f) (f_ticks f) 0 (-1) (map fst L) -> timely (life_written (map fst L)) ->
  hasher_ok hs -> bs_contract bs -> Forall lab_ok q -> s <= e ->
  unmixed hs (off_parts (f_clock f) (f_ticks f) 0 L) q s e ->
  exists w r, live_off L f = Some w /\ drun (db_query hs bs o q s e) w = Some (Ok r, w) /\
    (forall i j a b, nth_error r i = Some a -> nth_error r j = Some b -> same_set (fst a) (fst b) -> i = j) /\
    (forall m pts, In (m, pts) r -> increasing pts /\ pts <> []) /\
    (forall m pts p, In (m, pts) r -> In p pts -> s <= tp_ts p <= e /\ exists ls, In (ls, p) (life_written (map fst L)) /\ same_set ls m).
Proof.
  intros He Hd Hm NE HL T Hh Hb Hq Hse Hp. destruct (off_refine f L hs bs o q s e He Hd Hm NE HL T Hh Hb Hq Hp) as (w & r0 & E1 & E2 & Ha).
  apply (comes_fwd _ _ _ _ _ Hse) in Ha as (r & -> & Ha).
  pose proof (off_parts_ok _ _ _ _ _ HL T) as OK. exists w, r. split; [assumption|]. split; [assumption|].
  split; [exact (answer_once _ _ _ _ _ OK Ha)|]. split.
  - intros m pts Hin. apply Ha in Hin as [N ->]. split; [|assumption]. eapply ss_increasing; [|apply (T m)]. eapply off_sub. exact HL.
  - intros m pts p Hin Hp'. apply Ha in Hin as [N ->]. split.
    + apply in_concat in Hp' as (x & Hx & Hp'). apply in_map_iff in Hx as (c & <- & Hc). apply piece_in in Hp' as (? & ? & _ & _ & _ & _ & K & _). exact K.
    + pose proof (ss_in _ _ p (off_sub _ q s e m L _ _ _ HL) Hp') as K. unfold of_set in K. apply in_map_iff in K as ([ls p'] & E & K). cbn [snd] in E. subst p'.
      apply filter_In in K as [K1 K2]. cbn [fst] in K2. exists ls. split; [assumption|].
      apply same_setb_perm; [|assumption]. clear - HL K1. revert HL K1. generalize (f_ticks f) as tick, 0%nat as n, (-1) as last.
      induction (map fst L) as [|x L' IH]; intros tick n last H K; [contradiction|]. cbn [lives_ok] in H. destruct H as (_ & _ & _ & _ & Ho & _ & H).
      unfold life_written in K. cbn [map concat] in K. apply in_app_or in K as [K|K]; [|eapply IH; eassumption].
      destruct Ho as (_ & _ & _ & _ & _ & Hw & _). rewrite Forall_forall in Hw. exact (proj1 (Hw _ K)).
Qed.
