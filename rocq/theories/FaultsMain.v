(* Proofs about histories of a database whose file operations may fail. *)
From Coq Require Import ZifyBool ZifyNat Permutation Sorted.
From Verif Require Import Rust StringProofs Prog Gorilla GorillaSpec Storage StorageSpec StorageProofs Labels IndexSpec Indexer
  LabelProofs IndexProofs Chunk ChunkSpec ChunkProofs ChunkFacts Conc Utils DirSpec DirProofs TiKvInit Db DbSpec MapProofs DbProofs DbHist RangeSpec RangeProofs DbFacts FaultsSpec FaultsProofs.

Lemma used_trans f g h u v : used f g u -> used g h v -> used f h (u ++ v).
Proof. unfold used. intros -> ->. now rewrite app_assoc. Qed.

Lemma any_from cf ops : 0 <= cf_size cf -> forall start hi h w l0,
  fstate cf w (l0 ++ [(the_chunk cf start, content_of (the_chunk cf start) h)]) hi -> starts_ok cf hi ops ->
  Forall ireq_ok (written ops) -> Z.of_nat (length h + length (written ops)) < 2 ^ 64 - 1 ->
  exists rs w' hi' u, db_after_from cf ops w = Some (rs, w') /\ reported cf start ops rs /\
    fstate cf w' (l0 ++ parts_from cf start h (performed ops rs)) hi' /\ last_start hi ops = hi' /\
    used (d_fs w) (d_fs w') u /\ (~ In true u -> performed ops rs = ops).
Proof.
  intros Hsz. induction ops as [|o ops IH]; intros start hi h w l0 HS Ho Hw HL.
  - exists [], w, hi, []. split; [reflexivity|]. split; [exact I|]. split; [exact HS|]. split; [reflexivity|]. split; [reflexivity|]. reflexivity.
  - pose proof (content_length (the_chunk cf start) h) as CL.
    destruct o as [ls p|ls pts|start']; cbn [written starts_ok db_after_from dop_prog last_start] in *.
    + inversion Hw as [|? ? [H1 H2] Hw']; subst. cbn [fst snd length] in *.
      destruct (point_any cf w l0 _ _ hi ls p HS H1 H2 ltac:(lia)) as (w1 & E & S1 & F1). rewrite E.
      rewrite <- content_snoc in S1. destruct (IH start hi (h ++ [(ls, p)]) w1 l0 S1 Ho Hw') as (rs & w' & hi' & u & E' & R' & S' & L' & U' & P').
      { rewrite app_length. cbn [length]. unfold ireq in *. lia. }
      rewrite E'. eexists _, w', hi', u. split; [reflexivity|]. split; [split; [reflexivity|exact R']|]. cbn [performed parts_from]. split; [exact S'|]. split; [exact L'|].
      rewrite F1 in U'. split; [exact U'|]. intros K. now rewrite (P' K).
    + assert (E: exists w1, drun (db_write_points ls pts) w = Some (outcome (the_chunk cf start) (OpBatch ls pts), w1) /\
        fstate cf w1 (l0 ++ [(the_chunk cf start, content_of (the_chunk cf start) (h ++ map (pair ls) pts))]) hi /\ d_fs w1 = d_fs w).
      { destruct pts as [|p0 pts0].
        - cbn [map app existsb outcome] in *. destruct HS as (l1 & c1 & A1 & h0 & d & Eq & D). pose proof D as [H1 H2 H3 H4 H5 H6 H7 H8 H9 H10 H11].
          exists w. split; [|split; [exists l1, c1, A1, h0, d; rewrite app_nil_r; auto|reflexivity]].
          unfold drun, db_write_points. rewrite (with_current_run _ w d); [|assumption|rewrite H1, H2; apply nth_last].
          rewrite run_qbind. cbn [write_all run]. clear - H4. destruct w; cbn in *. now subst.
        - remember (p0 :: pts0) as pts. apply Forall_app in Hw. destruct Hw as [Hb Hw']. rewrite app_length, map_length in HL.
          assert (H1: set_ok ls) by (subst pts; inversion Hb as [|? ? [K _] _]; exact K).
          assert (H2: Forall tp_ok pts) by (clear - Hb; induction pts; inversion Hb as [|? ? [_ K] K2]; subst; constructor; auto).
          destruct (batch_any cf w l0 _ _ hi ls pts HS H1 H2 ltac:(lia)) as (w1 & E & S1 & F1).
          assert (EX: existsb (refused (the_chunk cf start)) pts = existsb (on_edge (the_chunk cf start)) pts).
          { clear - Hsz. induction pts as [|p pts IH]; [reflexivity|]. cbn [existsb]. rewrite IH, refused_edge; [reflexivity|]. cbn. lia. }
          cbn [outcome]. rewrite <- EX. exists w1. split; [exact E|]. split; [|exact F1]. unfold content_of in S1 |- *. rewrite <- fold_left_app in S1. exact S1. }
      destruct E as (w1 & E & S1 & F1). rewrite E. apply Forall_app in Hw. destruct Hw as [_ Hw']. rewrite app_length, map_length in HL.
      destruct (IH start hi (h ++ map (pair ls) pts) w1 l0 S1 Ho Hw') as (rs & w' & hi' & u & E' & R' & S' & L' & U' & P').
      { rewrite app_length, map_length. unfold ireq in *. lia. }
      rewrite E'. eexists _, w', hi', u. split; [reflexivity|]. split; [split; [reflexivity|exact R']|]. cbn [performed parts_from]. split; [exact S'|]. split; [exact L'|].
      rewrite F1 in U'. split; [exact U'|]. intros K. now rewrite (P' K).
    + destruct Ho as (H1 & H2 & H3).
      destruct (swap_any cf w l0 _ _ hi start' HS H1 Hsz H2) as (r & w1 & b & E & LT & HR). rewrite E. destruct LT as [_ _ (u1 & U1 & B1)].
      destruct r as [[]|e|]; [| |contradiction].
      * destruct (IH start' start' [] w1 (l0 ++ [(the_chunk cf start, content_of (the_chunk cf start) h)]) HR H3 Hw) as (rs & w' & hi' & u & E' & R' & S' & L' & U' & P').
        { cbn [length]. lia. }
        rewrite E'. eexists _, w', hi', (u1 ++ u). split; [reflexivity|]. cbn [reported performed parts_from]. split; [exact R'|]. rewrite <- app_assoc in S'. split; [exact S'|]. split; [exact L'|].
        split; [exact (used_trans _ _ _ _ _ U1 U')|]. intros K. rewrite P'; [reflexivity|]. intros Q. apply K. apply in_or_app. now right.
      * destruct HR as (S1 & _ & Eb). destruct (IH start start' h w1 l0 S1 H3 Hw HL) as (rs & w' & hi' & u & E' & R' & S' & L' & U' & P').
        rewrite E'. eexists _, w', hi', (u1 ++ u). split; [reflexivity|]. cbn [reported performed]. split; [exact R'|]. split; [exact S'|]. split; [exact L'|].
        split; [exact (used_trans _ _ _ _ _ U1 U')|]. intros K. exfalso. apply K. apply in_or_app. left. auto.
Qed.

Lemma open_any cf f w : env_weak f -> empty_dir f -> cf_base cf <> [] -> 0 <= cf_size cf -> f_clock f (f_ticks f) + cf_size cf < 2 ^ 64 ->
  db_open cf f = Some (Ok tt, w) -> fstate cf w [(the_chunk cf (f_clock f (f_ticks f)), [])] (f_clock f (f_ticks f)).
Proof.
  intros He (M & DD) Hb Hsz Hend. pose proof He as (Hord & Huid & Hclk).
  unfold db_open, db_new. rewrite run_qbind. unfold read_or_create_metadata at 1. rewrite run_bind, run_call. cbn [fhandler].
  rewrite M. replace (if hd false (f_faults f) then None else @None (file db_meta)) with (@None (file db_meta)) by (now destruct (hd false (f_faults f))).
  rewrite run_qbind, run_call. cbn [fhandler]. destruct (hd false (f_faults (next_fault f))); [discriminate|].
  rewrite run_qbind, run_call. cbn [fhandler].
  set (f1 := set_fmeta (next_fault (next_fault f)) (Some Empty)).
  destruct (hd false (f_faults f1)); [discriminate|]. cbn [run].
  set (f2 := set_fmeta (next_fault f1) (Some (Written (own_meta cf)))).
  rewrite run_qbind. unfold read_existing_chunk. rewrite run_qbind, run_call. cbn [fhandler].
  destruct (hd false (f_faults f2)); [discriminate|].
  assert (EN: f_order f2 (entries f2) = [metadata_name]).
  { unfold entries. change (f_dirs f2) with (f_dirs f). change (f_meta f2) with (Some (Written (own_meta cf))). rewrite DD. cbn [map app].
    apply Permutation_length_1_inv. symmetry. apply Hord. }
  rewrite EN. rewrite run_qbind. cbn [forM]. rewrite run_qbind, metadata_entry by assumption. rewrite run_qbind. cbn [run somes sort_chunks fold_right].
  rewrite run_bind, run_call. cbn [fhandler]. set (f3 := next_fault f2). change (f_clock f3 (f_ticks f3)) with (f_clock f (f_ticks f)).
  set (now := f_clock f (f_ticks f)) in *. assert (Hnow: u64 now) by apply Hclk. unfold u64 in Hnow.
  assert (E1: env_weak (tick f3)) by exact He.
  assert (ND: names (tick f3) = []) by (unfold names; change (f_dirs (tick f3)) with (f_dirs f); now rewrite DD).
  destruct (create_any cf now (tick f3) E1) as (r & f' & b & R & LT & HR); try lia. { rewrite ND. tauto. }
  rewrite run_qbind, R. destruct r as [nd|e|]; cbn [run]; [|discriminate|contradiction]. intros E. injection E as <-. destruct HR as [N2 N3].
  exists [], (the_chunk cf now), [], [], nd. split; [reflexivity|]. unfold opened. cbn [fst snd].
  constructor; cbn [d_heap d_cur d_sec d_curl d_secl d_fs]; try reflexivity.
  - constructor.
  - exact N2.
  - exact N3.
  - cbn [the_chunk c_start]. lia.
  - exact (weak_later _ _ _ _ LT E1).
  - intros n Hn. destruct LT as [_ LN _]. destruct (LN n Hn) as [<-|K]; [|rewrite ND in K; contradiction].
    exists now, (now + cf_size cf). unfold u64. repeat split; lia.
Qed.

Lemma performed_written cf ops : forall start rs, reported cf start ops rs -> written (performed ops rs) = written ops.
Proof.
  induction ops as [|[ls p|ls pts|st] ops IH]; intros start [|r rs] H; cbn [reported] in H; try contradiction; try reflexivity; cbn [performed written].
  - destruct H as [_ H]. now rewrite (IH _ _ H).
  - destruct H as [_ H]. now rewrite (IH _ _ H).
  - destruct r; [| |contradiction]; now rewrite <- (IH _ _ H).
Qed.
Lemma starts_le cf ops : forall a b, a <= b -> starts_ok cf b ops -> starts_ok cf a ops.
Proof. induction ops as [|[ls p|ls pts|st] ops IH]; intros a b H; cbn [starts_ok]; [trivial|now apply IH..|]. intros (K1 & K2 & K3). repeat split; [lia|assumption..]. Qed.
Lemma performed_starts cf ops : forall a hi start rs, a <= hi -> reported cf start ops rs -> starts_ok cf hi ops -> starts_ok cf a (performed ops rs).
Proof.
  induction ops as [|[ls p|ls pts|st] ops IH]; intros a hi start [|r rs] La H Ho; cbn [reported] in H; try contradiction; try exact I; cbn [performed starts_ok] in *.
  - destruct H as [_ H]. exact (IH a hi start rs La H Ho).
  - destruct H as [_ H]. exact (IH a hi start rs La H Ho).
  - destruct Ho as (K1 & K2 & K3). destruct r as [u|e|]; [| |contradiction].
    + cbn [starts_ok]. repeat split; [lia|assumption|]. apply (IH st st st rs); [lia|assumption..].
    + apply (IH a st start rs); [lia|assumption..].
Qed.
Lemma performed_ok cf t0 ops rs : reported cf t0 ops rs -> ops_ok cf t0 ops -> ops_ok cf t0 (performed ops rs).
Proof.
  intros R (H1 & H2 & H3 & H4 & H5 & H6 & H7). unfold ops_ok. rewrite (performed_written cf ops t0 rs R). repeat split; try assumption.
  apply (performed_starts cf ops t0 t0 t0 rs); [lia|assumption..].
Qed.

Theorem faulty_history cf f ops w0 : env_weak f -> empty_dir f -> ops_ok cf (f_clock f (f_ticks f)) ops -> db_open cf f = Some (Ok tt, w0) ->
  exists rs w hi u, db_after_from cf ops w0 = Some (rs, w) /\ reported cf (f_clock f (f_ticks f)) ops rs /\
    fstate cf w (parts cf (f_clock f (f_ticks f)) (performed ops rs)) hi /\ hi = last_start (f_clock f (f_ticks f)) ops /\
    f_faults (d_fs w0) = u ++ f_faults (d_fs w) /\ (~ In true u -> performed ops rs = ops).
Proof.
  intros He Hd (Hb & H0 & Hsz & Hend & Hs & Hw & HL) Ho.
  pose proof (open_any cf f w0 He Hd Hb Hsz Hend Ho) as S0.
  destruct (any_from cf ops Hsz (f_clock f (f_ticks f)) (f_clock f (f_ticks f)) [] w0 [] S0 Hs Hw HL) as (rs & w & hi & u & E & R & HS & L & U & P).
  exists rs, w, hi, u. auto 7.
Qed.
Theorem faulty_refines cf f ops w0 : env_weak f -> empty_dir f -> let t0 := f_clock f (f_ticks f) in
  ops_ok cf t0 ops -> db_open cf f = Some (Ok tt, w0) ->
  exists rs w u, db_after_from cf ops w0 = Some (rs, w) /\ reported cf t0 ops rs /\
    f_faults (d_fs w0) = u ++ f_faults (d_fs w) /\ (~ In true u -> performed ops rs = ops) /\
    forall hs bs o q s e, timely (written ops) -> hasher_ok hs -> bs_contract bs -> Forall lab_ok q ->
      unmixed hs (parts cf t0 (performed ops rs)) q s e ->
      exists r, drun (db_query hs bs o q s e) w = Some (r, w) /\ comes_to (parts cf t0 (performed ops rs)) q s e r.
Proof.
  intros He Hd t0 Ho Hop. destruct (faulty_history cf f ops w0 He Hd Ho Hop) as (rs & w & hi & u & E & R & HS & _ & U & P). fold t0 in R, HS.
  exists rs, w, u. split; [exact E|]. split; [exact R|]. split; [exact U|]. split; [exact P|].
  intros hs bs o q s e T Hh Hb Hq Hp. rewrite <- (performed_written cf ops t0 rs R) in T.
  exact (query_any hs bs o q s e w _ (fstate_quiet _ _ _ _ HS) (parts_ok cf t0 _ (performed_ok cf t0 ops rs R Ho) T) Hh Hb Hq Hp).
Qed.

Lemma starts_app cf b : forall a t, starts_ok cf t (a ++ b) -> starts_ok cf t a /\ starts_ok cf (last_start t a) b.
Proof. induction a as [|[ls p|ls pts|st] a IH]; intros t H; cbn [app starts_ok last_start] in *; [auto|now apply IH..|]. destruct H as (H1 & H2 & H3). apply IH in H3 as [H3 H4]. auto. Qed.
Lemma set_fs_quiet w f l : quiet w l -> quiet (set_fs w f) l.
Proof. intros [H1 H2 H3 H4 H5]. now constructor. Qed.

(* a swap that fails *)
Theorem failed_swap cf f ops w0 rs w st : env_weak f -> empty_dir f -> ops_ok cf (f_clock f (f_ticks f)) (ops ++ [OpSwap st]) -> db_open cf f = Some (Ok tt, w0) ->
  db_after_from cf ops w0 = Some (rs, w) ->
  exists r w' u, drun (db_swap cf st) w = Some (r, w') /\ f_faults (d_fs w) = u ++ f_faults (d_fs w') /\ r <> Panic /\
    forall e, r = Err e -> In true u /\ w' = set_fs w (d_fs w') /\
      (forall ls p r1 w1, set_ok ls -> tp_ok p -> drun (db_write_point ls p) w = Some (r1, w1) -> exists w2, drun (db_write_point ls p) w' = Some (r1, w2)) /\
      forall hs bs o q s e r1, timely (written ops) -> hasher_ok hs -> bs_contract bs -> Forall lab_ok q ->
        drun (db_query hs bs o q s e) w = Some (r1, w) -> drun (db_query hs bs o q s e) w' = Some (r1, w').
Proof.
  intros He Hd (Hb & H0 & Hsz & Hend & Hs & Hw & HL) Hop E0. apply starts_app in Hs as [Hs1 Hs2].
  assert (Wr: written (ops ++ [OpSwap st]) = written ops) by (apply written_swap). rewrite Wr in Hw, HL.
  assert (Ho: ops_ok cf (f_clock f (f_ticks f)) ops) by (repeat split; assumption).
  destruct (faulty_history cf f ops w0 He Hd Ho Hop) as (rs1 & w1 & hi & u & E & R & HS & Eh & U & P).
  rewrite E0 in E. injection E as <- <-. cbn [starts_ok] in Hs2. rewrite <- Eh in Hs2. destruct Hs2 as (K1 & K2 & _).
  pose proof HS as (l0 & c & A & h0 & d & Ep & D). pose proof HS as HS'. rewrite Ep in HS'.
  destruct (swap_any cf w l0 c A hi st HS' K1 Hsz K2) as (r & w' & b & E & [_ _ (v & V & Bv)] & HR).
  exists r, w', v. split; [exact E|]. split; [exact V|]. split; [intros ->; exact HR|]. intros e ->. destruct HR as (S1 & Ew & Eb).
  split; [auto|]. split; [exact Ew|]. split.
  - intros ls p r1 w1 Hls Hp E1.
    assert (LA: Z.of_nat (length A) + 1 < 2 ^ 64).
    { assert (In (c, A) (parts cf (f_clock f (f_ticks f)) (performed ops rs))) by (rewrite Ep; apply in_or_app; right; now left).
      destruct (parts_seg cf _ _ _ _ H) as (a & seg & b' & Eseg & ES). pose proof (content_length c seg) as CL.
      cbn [app] in Eseg. rewrite (performed_written _ _ _ _ R) in Eseg. rewrite Eseg, !app_length in HL. cbn [fst snd] in ES. destruct ES as [-> _]. lia. }
    destruct (point_any cf w l0 c A hi ls p HS' Hls Hp LA) as (w2 & E2 & _). destruct (point_any cf w' l0 c A st ls p S1 Hls Hp LA) as (w3 & E3 & _).
    exists w3. rewrite E3. f_equal. f_equal. congruence.
  - intros hs bs o q s e0 r1 T Hh Hbs Hq E1. rewrite <- (performed_written cf ops _ rs R) in T.
    pose proof (parts_ok cf _ _ (performed_ok cf _ ops rs R Ho) T) as PO. rewrite <- Ep in S1.
    destruct (Z.le_gt_cases s e0) as [Hse|Hse].
    + assert (G: Forall (fun c => ans bs q s e0 c <> Panic /\ Z.of_nat (length (snd c)) < 2 ^ 64) (parts cf (f_clock f (f_ticks f)) (performed ops rs))).
      { rewrite Forall_forall in PO |- *. intros c0 Hc. specialize (PO c0 Hc). split; [|apply PO]. rewrite ans_query; [|assumption|apply PO|assumption].
        destruct c0 as [ch A0]. exact (proj1 (okl_spec (ch, A0) q s e0 PO Hse)). }
      destruct (query_quiet hs bs o q s e0 w _ (fstate_quiet _ _ _ _ HS) G Hq) as (l1 & c1 & El & Q1).
      destruct (query_quiet hs bs o q s e0 w' _ (fstate_quiet _ _ _ _ S1) G Hq) as (l2 & c2 & El2 & Q2).
      rewrite El in El2. apply app_inj_tail in El2 as [<- <-]. rewrite Q2. f_equal. f_equal. congruence.
    + assert (G: Forall (fun c => (ans bs q s e0 c = Panic \/ okl (ans bs q s e0 c) = []) /\ Z.of_nat (length (snd c)) < 2 ^ 64) (parts cf (f_clock f (f_ticks f)) (performed ops rs))).
      { rewrite Forall_forall in PO |- *. intros c0 Hc. specialize (PO c0 Hc). split; [|apply PO]. apply ans_inverted; [assumption|apply PO|lia]. }
      assert (LL: Forall (fun c : part => Z.of_nat (length (snd c)) < 2 ^ 64) (parts cf (f_clock f (f_ticks f)) (performed ops rs))) by (eapply Forall_impl; [|exact PO]; intros c1 [_ _ X]; exact X).
      pose proof (query_empty hs bs o q s e0 w _ (quiet_quietq _ _ (fstate_quiet _ _ _ _ HS) LL) G Hq Hh) as Q1.
      pose proof (query_empty hs bs o q s e0 w' _ (quiet_quietq _ _ (fstate_quiet _ _ _ _ S1) LL) G Hq Hh) as Q2.
      rewrite Q2. f_equal. f_equal. congruence.
Qed.
