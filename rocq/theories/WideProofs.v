(* Proofs: chunk windows beyond the end of time. *)
From Coq Require Import ZifyBool ZifyNat Permutation Sorted.
From Verif Require Import Rust StringProofs Prog Gorilla GorillaSpec Storage StorageSpec StorageProofs Labels IndexSpec Indexer
  LabelProofs IndexProofs Chunk ChunkSpec ChunkProofs ChunkFacts Conc Utils DirSpec DirProofs TiKvInit Db DbSpec MapProofs DbProofs DbHist RangeSpec RangeProofs DbFacts ServerProofs WideSpec.

(* without overflow checks the program cannot tell a size from one that is 2^64 ms shorter *)
Definition shorter (cf : config) : config := mkConfig (cf_dbg cf) (cf_base cf) (cf_st cf) (cf_ix cf) (cf_size cf - 2 ^ 64).
Lemma create_shorter cf start : cf_dbg cf = false -> 0 <= start < 2 ^ 64 -> 0 <= cf_size cf < 2 ^ 64 -> 2 ^ 64 <= start + cf_size cf ->
  create_chunk cf start = create_chunk (shorter cf) start.
Proof.
  intros D H0 Hsz Hw. unfold create_chunk. cbn [shorter cf_dbg cf_size cf_st cf_ix]. rewrite D.
  assert (arith_u false 64 (start + cf_size cf) = arith_u false 64 (start + (cf_size cf - 2 ^ 64))) as ->; [|reflexivity].
  unfold arith_u, in_u, wrapu.
  replace ((0 <=? start + cf_size cf) && (start + cf_size cf <? 2 ^ 64)) with false by lia.
  replace ((0 <=? start + (cf_size cf - 2 ^ 64)) && (start + (cf_size cf - 2 ^ 64) <? 2 ^ 64)) with true by lia.
  f_equal. replace (start + cf_size cf) with (start + (cf_size cf - 2 ^ 64) + 1 * 2 ^ 64) by lia. rewrite Z.mod_add by lia. apply Z.mod_small. lia.
Qed.
(* the size to reason with for the window starting at [start] *)
Definition sized (cf : config) (start : Z) : config := if start + cf_size cf <? 2 ^ 64 then cf else shorter cf.
Lemma sized_state cf start w l : state (sized cf start) w l <-> state cf w l.
Proof.
  unfold sized. destruct (_ <? _); [reflexivity|].
  split; intros (l0 & c & A & h0 & d & E & [H1 H2 H3 H4 H5 H6 H7 H8 H9 H10 H11 H12]); exists l0, c, A, h0, d; (split; [exact E|]); constructor; assumption.
Qed.
Lemma sized_chunk cf start : the_chunk (sized cf start) start = wide_chunk cf start.
Proof.
  unfold sized, wide_chunk, wide_end, the_chunk. destruct (_ <? _); [reflexivity|]. cbn [shorter cf_st cf_size]. f_equal. lia.
Qed.
Lemma sized_range cf start : 0 <= start < 2 ^ 64 -> 0 <= cf_size cf < 2 ^ 64 -> 0 <= start + cf_size (sized cf start) < 2 ^ 64.
Proof. intros H0 Hsz. unfold sized. destruct (start + cf_size cf <? 2 ^ 64) eqn:E; cbn [shorter cf_size]; lia. Qed.
Lemma sized_create cf start : cf_dbg cf = false -> 0 <= start < 2 ^ 64 -> 0 <= cf_size cf < 2 ^ 64 ->
  create_chunk cf start = create_chunk (sized cf start) start.
Proof.
  intros D H0 Hsz. unfold sized. destruct (start + cf_size cf <? 2 ^ 64) eqn:E; [reflexivity|]. apply create_shorter; try assumption; lia.
Qed.

Lemma refused_wide ch p : refused ch p = (c_start ch <=? c_end ch) && on_edge ch p.
Proof. unfold refused, on_edge, batch_passes, in_windowb. lia. Qed.

(* up to the new chunk *)
Lemma open_front cf f : env_ok f -> empty_dir f -> cf_base cf <> [] ->
  run fhandler (db_new cf) f = run fhandler (let? cur := create_chunk cf (f_clock f (f_ticks f)) in Ret (Ok ([], cur)))
    (tick (set_fmeta f (Some (Written (own_meta cf))))).
Proof.
  intros He (M & DD) Hb. pose proof He as (Hord & Huid & Hclk & Hflt).
  unfold db_new. rewrite run_qbind. unfold read_or_create_metadata at 1. rewrite run_bind, run_call. cbn [fhandler].
  rewrite Hflt. cbn [hd]. rewrite no_fault by assumption. rewrite M.
  rewrite run_qbind, run_call. cbn [fhandler]. rewrite Hflt. cbn [hd]. rewrite no_fault by assumption.
  rewrite run_qbind, run_call. cbn [fhandler]. change (f_faults (set_fmeta f (Some Empty))) with (f_faults f). rewrite Hflt. cbn [hd]. rewrite no_fault by assumption.
  set (f1 := set_fmeta f (Some (Written (own_meta cf)))).
  change (set_fmeta (set_fmeta f (Some Empty)) (Some (Written (own_meta cf)))) with f1. cbn [run].
  rewrite run_qbind. unfold read_existing_chunk. rewrite run_qbind, run_call. cbn [fhandler].
  assert (FF: f_faults f1 = []) by assumption. rewrite FF. cbn [hd]. rewrite no_fault by assumption.
  assert (EN: f_order f1 (entries f1) = [metadata_name]).
  { unfold entries. change (f_dirs f1) with (f_dirs f). change (f_meta f1) with (Some (Written (own_meta cf))). rewrite DD. cbn [map app].
    apply Permutation_length_1_inv. symmetry. apply Hord. }
  rewrite EN. rewrite run_qbind. cbn [forM]. rewrite run_qbind, metadata_entry by assumption. rewrite run_qbind. cbn [run somes sort_chunks fold_right].
  rewrite run_bind, run_call. cbn [fhandler]. reflexivity.
Qed.
Lemma wide_open cf f : env_ok f -> empty_dir f -> cf_base cf <> [] -> cf_dbg cf = false -> 0 <= cf_size cf < 2 ^ 64 ->
  exists w, db_open cf f = Some (Ok tt, w) /\ state cf w [(wide_chunk cf (f_clock f (f_ticks f)), [])].
Proof.
  intros He Hd Hb D Hsz. pose proof He as (Hord & Huid & Hclk & Hflt).
  assert (U: 0 <= f_clock f (f_ticks f) < 2 ^ 64) by (pose proof (Hclk (f_ticks f)) as U; unfold u64 in U; lia).
  set (now := f_clock f (f_ticks f)) in *.
  assert (Hb': cf_base (sized cf now) <> []) by (unfold sized; destruct (_ <? _); assumption).
  destruct (open_at (sized cf now) f He Hd Hb') as (w & E & HS & _).
  { now apply sized_range. }
  exists w. split; [|fold now in HS; rewrite sized_chunk in HS; exact (proj1 (sized_state _ _ _ _) HS)].
  rewrite <- E. unfold db_open. rewrite !open_front by assumption. fold now. rewrite <- sized_create by assumption.
  unfold sized. destruct (_ <? _); reflexivity.
Qed.

Lemma wide_swap cf w l0 c A start : state cf w (l0 ++ [(c, A)]) -> 0 <= c_start c < start -> start < 2 ^ 64 -> cf_dbg cf = false -> 0 <= cf_size cf < 2 ^ 64 ->
  exists w', drun (db_swap cf start) w = Some (Ok tt, w') /\ state cf w' ((l0 ++ [(c, A)]) ++ [(wide_chunk cf start, [])]).
Proof.
  intros HS [H0 Hst] Hm D Hsz. destruct (swap_at (sized cf start) w l0 c A start) as (w' & E & S' & _).
  { now apply sized_state. }
  { assumption. }
  { assumption. }
  { apply sized_range; [lia|assumption]. }
  exists w'. rewrite sized_chunk in S'. split; [|exact (proj1 (sized_state _ _ _ _) S')].
  rewrite <- E. unfold db_swap. rewrite <- sized_create by (try assumption; lia). reflexivity.
Qed.

Lemma wide_hist cf ops : cf_dbg cf = false -> 0 <= cf_size cf < 2 ^ 64 -> forall start h w l0, 0 <= start ->
  state cf w (l0 ++ [(wide_chunk cf start, content_of (wide_chunk cf start) h)]) -> later_starts start ops ->
  Forall ireq_ok (written ops) -> Z.of_nat (length h + length (written ops)) < 2 ^ 64 - 1 ->
  exists w', db_after_from cf ops w = Some (wide_outcomes cf start ops, w') /\ state cf w' (l0 ++ wide_from cf start h ops).
Proof.
  intros D Hsz. induction ops as [|o ops IH]; intros start h w l0 H0 HS Ho Hw HL.
  - exists w. split; [reflexivity|exact HS].
  - pose proof (content_length (wide_chunk cf start) h) as CL.
    destruct o as [ls p|ls pts|start']; cbn [written later_starts wide_from wide_outcomes db_after_from dop_prog wide_outcome] in *.
    + inversion Hw as [|? ? [H1 H2] Hw']; subst. cbn [fst snd length] in *.
      destruct (point_run cf w l0 _ _ ls p HS H1 H2 ltac:(lia)) as (w1 & E & S1 & _ & F1). rewrite E.
      rewrite <- content_snoc in S1. destruct (IH start (h ++ [(ls, p)]) w1 l0 H0 S1 Ho Hw') as (w' & E' & S').
      { rewrite app_length. cbn [length]. unfold ireq in *. lia. }
      exists w'. rewrite E'. split; [reflexivity|exact S'].
    + destruct pts as [|p0 pts0].
      { cbn [map app existsb] in *. assert (E: exists w1, drun (db_write_points ls []) w = Some (Ok tt, w1) /\
          state cf w1 (l0 ++ [(wide_chunk cf start, content_of (wide_chunk cf start) h)]) /\ d_fs w1 = d_fs w).
        { destruct HS as (l1 & c1 & A1 & h0 & d & Eq & DR). pose proof DR as [H1 H2 H3 H4 H5 H6 H7 H8 H9 H10 H11 H12].
          exists w. split; [|split; [exists l1, c1, A1, h0, d; auto|reflexivity]].
          unfold drun, db_write_points. rewrite (with_current_run _ w d); [|assumption|rewrite H1, H2; apply nth_last].
          rewrite run_qbind. cbn [write_all run]. clear - H4. destruct w; cbn in *. now subst. }
        destruct E as (w1 & -> & S1 & F1). rewrite app_nil_r, Bool.andb_false_r. destruct (IH start h w1 l0 H0 S1 Ho Hw HL) as (w' & -> & S'). exists w'. auto. }
      remember (p0 :: pts0) as pts. apply Forall_app in Hw. destruct Hw as [Hb Hw']. rewrite app_length, map_length in HL.
      assert (H1: set_ok ls) by (subst pts; inversion Hb as [|? ? [K _] _]; exact K).
      assert (H2: Forall tp_ok pts) by (clear - Hb; induction pts; inversion Hb as [|? ? [_ K] K2]; subst; constructor; auto).
      destruct (batch_run cf w l0 _ _ ls pts HS H1 H2 ltac:(lia)) as (w1 & E & S1 & F1).
      assert (EX: existsb (refused (wide_chunk cf start)) pts = (c_start (wide_chunk cf start) <=? c_end (wide_chunk cf start)) && existsb (on_edge (wide_chunk cf start)) pts).
      { clear. induction pts as [|p pts IH]; cbn [existsb]; [symmetry; apply Bool.andb_false_r|]. rewrite IH, refused_wide. now destruct (_ <=? _). }
      rewrite E, EX. unfold content_of in S1. rewrite <- fold_left_app in S1. destruct (IH start (h ++ map (pair ls) pts) w1 l0 H0 S1 Ho Hw') as (w' & E' & S').
      { rewrite app_length, map_length. unfold ireq in *. lia. }
      exists w'. rewrite E'. split; [reflexivity|exact S'].
    + destruct Ho as ((H1 & H2) & H3).
      destruct (wide_swap cf w l0 _ _ start' HS ltac:(cbn [wide_chunk c_start]; lia) H2 D Hsz) as (w1 & E & S1). rewrite E.
      destruct (IH start' [] w1 (l0 ++ [(wide_chunk cf start, content_of (wide_chunk cf start) h)]) ltac:(lia) S1 H3 Hw) as (w' & E' & S').
      { cbn [length]. lia. }
      exists w'. rewrite E'. split; [reflexivity|]. rewrite <- app_assoc in S'. exact S'.
Qed.

Theorem wide_history cf f ops : env_ok f -> empty_dir f -> cf_dbg cf = false -> wide_ok cf (f_clock f (f_ticks f)) ops ->
  exists w, db_after cf f ops = Some (wide_outcomes cf (f_clock f (f_ticks f)) ops, w) /\
    state cf w (wide_parts cf (f_clock f (f_ticks f)) ops).
Proof.
  intros He Hd D (Hb & H0 & Hsz & Hs & Hw & HL).
  destruct (wide_open cf f He Hd Hb D Hsz) as (w0 & E & S0).
  unfold db_after. rewrite E. apply (wide_hist cf ops D Hsz _ [] w0 []); try assumption. lia.
Qed.

Lemma wide_seg cf ops : forall start h c, In c (wide_from cf start h ops) ->
  exists a seg b, h ++ written ops = a ++ seg ++ b /\ snd c = content_of (fst c) seg /\ exists st, fst c = wide_chunk cf st.
Proof.
  induction ops as [|o ops IH]; intros start h c Hc; cbn [wide_from written] in *.
  - destruct Hc as [<-|[]]. exists [], h, []. cbn [fst snd app]. eauto.
  - destruct o as [ls p|ls pts|start'].
    + destruct (IH _ _ _ Hc) as (a & seg & b & E & R). exists a, seg, b. rewrite <- E, <- app_assoc. auto.
    + destruct (IH _ _ _ Hc) as (a & seg & b & E & R). exists a, seg, b. rewrite <- E, <- app_assoc. auto.
    + destruct Hc as [<-|Hc].
      * exists [], h, (written ops). cbn [fst snd app]. eauto.
      * destruct (IH _ _ _ Hc) as (a & seg & b & E & R). cbn [app] in E. exists (h ++ a), seg, b. rewrite E, <- !app_assoc. auto.
Qed.
Theorem wide_parts_ok cf start ops : wide_ok cf start ops -> timely (written ops) -> Forall part_ok (wide_parts cf start ops).
Proof.
  intros (_ & _ & _ & _ & Hw & HL) T. rewrite Forall_forall. intros c Hc.
  destruct (wide_seg cf ops start [] c Hc) as (a & seg & b & E & Ec & _). cbn [app] in E.
  assert (Hs: Forall ireq_ok seg) by (eapply seg_ok; eassumption).
  constructor; rewrite Ec.
  - now apply content_wf.
  - apply content_increasing; [assumption|]. rewrite E in T. now apply timely_mid in T.
  - pose proof (content_length (fst c) seg). rewrite E, !app_length in HL. lia.
Qed.

Theorem wide_refines cf f hs bs o ops q s e : env_ok f -> empty_dir f -> cf_dbg cf = false ->
  let t0 := f_clock f (f_ticks f) in
  wide_ok cf t0 ops -> timely (written ops) -> hasher_ok hs -> bs_contract bs -> Forall lab_ok q ->
  unmixed hs (wide_parts cf t0 ops) q s e ->
  exists w r, db_after cf f ops = Some (wide_outcomes cf t0 ops, w) /\
    drun (db_query hs bs o q s e) w = Some (r, w) /\ comes_to (wide_parts cf t0 ops) q s e r.
Proof.
  intros He Hd D t0 Ho T Hh Hb Hq Hp. destruct (wide_history cf f ops He Hd D Ho) as (w & E & HS). fold t0 in E, HS.
  destruct (query_any hs bs o q s e w _ (state_quiet _ _ _ HS) (wide_parts_ok cf t0 ops Ho T) Hh Hb Hq Hp) as (r & Er & Ha).
  exists w, r. auto.
Qed.

(* windows that all come round *)
Lemma round_content ch h : c_end ch <= c_start ch -> content_of ch h = [].
Proof.
  intros H. unfold content_of. induction h as [|r h IH] using rev_ind; [reflexivity|]. rewrite fold_left_app, IH. cbn [fold_left].
  unfold ins. replace (in_windowb ch (tp_ts (snd r))) with false; [reflexivity|]. unfold in_windowb. lia.
Qed.
Lemma round_empty cf ops : 0 <= cf_size cf < 2 ^ 64 -> forall start h, later_starts start ops -> 2 ^ 64 <= start + cf_size cf ->
  Forall (fun c => snd c = []) (wide_from cf start h ops).
Proof.
  intros Hsz. induction ops as [|o ops IH]; intros start h Ho Hw.
  - constructor; [|constructor]. cbn [snd]. apply round_content. cbn [wide_chunk c_start c_end]. unfold wide_end. destruct (start + cf_size cf <? 2 ^ 64) eqn:E; lia.
  - destruct o as [ls p|ls pts|start']; cbn [wide_from later_starts] in *; [now apply IH..|]. destruct Ho as [H1 H2]. constructor.
    + cbn [snd]. apply round_content. cbn [wide_chunk c_start c_end]. unfold wide_end. destruct (start + cf_size cf <? 2 ^ 64) eqn:E; lia.
    + apply IH; [assumption|lia].
Qed.
(* what is said to whom *)
Definition dropped (o : dop) (r : res unit) : Prop :=
  match o with OpPoint _ _ => exists s e, r = Err (OutOfRangeErr s e) | _ => r = Ok tt end.
Lemma round_outcomes cf ops : 0 <= cf_size cf < 2 ^ 64 -> forall start, later_starts start ops -> 2 ^ 64 <= start + cf_size cf ->
  Forall2 dropped ops (wide_outcomes cf start ops).
Proof.
  intros Hsz. induction ops as [|o ops IH]; intros start Ho Hw; [constructor|].
  assert (Hc: c_end (wide_chunk cf start) < c_start (wide_chunk cf start)).
  { cbn [wide_chunk c_start c_end]. unfold wide_end. destruct (start + cf_size cf <? 2 ^ 64) eqn:E; lia. }
  destruct o as [ls p|ls pts|start']; cbn [wide_outcomes later_starts wide_outcome] in *; constructor; cbn [dropped].
  - replace (in_windowb (wide_chunk cf start) (tp_ts p)) with false by (unfold in_windowb; lia). eauto.
  - now apply IH.
  - replace (c_start (wide_chunk cf start) <=? c_end (wide_chunk cf start)) with false by lia. reflexivity.
  - now apply IH.
  - reflexivity.
  - destruct Ho as [H1 H2]. apply IH; [assumption|lia].
Qed.
Lemma no_piece l q s e : Forall (fun c : part => snd c = []) l -> forall m, concat (map (fun c => piece c q s e m) l) = [].
Proof.
  intros F m. induction F as [|[ch A] l H F IH]; [reflexivity|]. cbn [map concat]. rewrite IH. cbn [snd] in H. subst A. now rewrite piece_empty.
Qed.
Theorem wide_dropped cf f ops : env_ok f -> empty_dir f -> cf_dbg cf = false ->
  wide_ok cf (f_clock f (f_ticks f)) ops -> 2 ^ 64 <= f_clock f (f_ticks f) + cf_size cf ->
  exists rs w, db_after cf f ops = Some (rs, w) /\ Forall2 dropped ops rs /\
    forall hs bs o q s e, hasher_ok hs -> bs_contract bs -> Forall lab_ok q -> drun (db_query hs bs o q s e) w = Some (Ok [], w).
Proof.
  intros He Hd D Ho Hw. destruct (wide_history cf f ops He Hd D Ho) as (w & E & HS). pose proof Ho as (_ & _ & Hsz & Hs & _).
  set (t0 := f_clock f (f_ticks f)) in *. pose proof (round_empty cf ops Hsz t0 [] Hs Hw) as F. fold (wide_parts cf t0 ops) in F.
  eexists _, w. split; [exact E|]. split; [now apply round_outcomes|]. intros hs bs o q s e Hh Hb Hq.
  assert (PO: Forall part_ok (wide_parts cf t0 ops)).
  { eapply Forall_impl; [|exact F]. intros [ch A] Hc. cbn [snd] in Hc. subst A. constructor; cbn [snd]; [exact (content_wf ch [] (Forall_nil _))|constructor|cbn; lia]. }
  assert (UM: unmixed hs (wide_parts cf t0 ops) q s e).
  { intros ks k i k' x (c & Hc & K). exfalso. apply K. rewrite Forall_forall in F. specialize (F c Hc). destruct c as [ch A]. cbn [snd] in F. subst A. apply piece_empty. }
  destruct (query_any hs bs o q s e w _ (state_quiet _ _ _ HS) PO Hh Hb Hq UM) as (r & Er & Ha).
  rewrite Er. f_equal. f_equal. destruct Ha as [((c & Hc & (_ & _ & b & ls & pts & a & K & _)) & _)|(_ & l & -> & _ & M)].
  - exfalso. rewrite Forall_forall in F. specialize (F c Hc). destruct c as [ch A]. cbn [snd] in F, K. subst A. now destruct b.
  - destruct l as [|[m pts] l]; [reflexivity|]. exfalso. destruct (proj1 (M m pts) (or_introl eq_refl)) as [N K]. rewrite no_piece in K by assumption. contradiction.
Qed.

(* with overflow checks *)
Lemma checked_create cf start f : cf_dbg cf = true -> 2 ^ 64 <= start + cf_size cf -> run fhandler (create_chunk cf start) f = Some (Panic, draw f).
Proof.
  intros D H. unfold create_chunk. rewrite run_bind, run_call. cbn [fhandler]. rewrite D. unfold arith_u, in_u.
  replace ((0 <=? start + cf_size cf) && (start + cf_size cf <? 2 ^ 64)) with false by lia. reflexivity.
Qed.
Theorem checked_swap cf start w : cf_dbg cf = true -> 2 ^ 64 <= start + cf_size cf -> drun (db_swap cf start) w = Some (Panic, set_fs w (draw (d_fs w))).
Proof.
  intros D H. unfold drun, db_swap. rewrite run_qbind, run_DF, checked_create by assumption. reflexivity.
Qed.
Lemma fh_clock {X} (c : fcmd X) f x f' : fhandler X c f = Some (x, f') -> f_clock f' = f_clock f.
Proof.
  destruct c; cbn [fhandler]; repeat match goal with |- context [match ?b with _ => _ end] => destruct b end; intros E; try discriminate E;
    assert (f' = snd (x, f')) as -> by reflexivity; try (injection E as E1 E2; subst f'; reflexivity).
Qed.
Lemma run_clock {A} (p : prog fcmd A) : forall f x f', run fhandler p f = Some (x, f') -> f_clock f' = f_clock f.
Proof.
  induction p as [a|X c k IH]; intros f x f' E.
  - cbn [run] in E. congruence.
  - cbn [run] in E. destruct (fhandler X c f) as [[y g]|] eqn:H; [|discriminate]. rewrite (IH y g x f' E). now apply (fh_clock c f y g).
Qed.
Theorem checked_open cf f r w : cf_dbg cf = true -> (forall i, 2 ^ 64 <= f_clock f i + cf_size cf) -> db_open cf f = Some (r, w) -> r <> Ok tt.
Proof.
  intros D H E ->. unfold db_open, db_new in E. rewrite run_qbind in E.
  destruct (run fhandler (read_or_create_metadata (own_meta cf)) f) as [[[u|er|] g]|] eqn:E1; try discriminate E.
  rewrite run_qbind in E. destruct (run fhandler (read_existing_chunk cf) g) as [[[old|er|] g']|] eqn:E2; try discriminate E.
  rewrite run_bind, run_call in E. cbn [fhandler] in E. rewrite run_qbind, checked_create in E; [discriminate E|assumption|].
  rewrite (run_clock _ _ _ _ E2), (run_clock _ _ _ _ E1). apply H.
Qed.
Theorem checked_open_empty cf f : env_ok f -> empty_dir f -> cf_base cf <> [] -> cf_dbg cf = true -> 2 ^ 64 <= f_clock f (f_ticks f) + cf_size cf ->
  exists w, db_open cf f = Some (Panic, w) /\ f_meta (d_fs w) = Some (Written (own_meta cf)) /\ f_dirs (d_fs w) = [].
Proof.
  intros He Hd Hb D H. unfold db_open. rewrite open_front by assumption. rewrite run_qbind, checked_create by assumption.
  eexists. split; [reflexivity|]. split; [reflexivity|]. apply Hd.
Qed.

(* after a rotation that failed so, the database goes on as before *)
Lemma state_draw cf w l : state cf w l -> state cf (set_fs w (draw (d_fs w))) l.
Proof.
  intros (l0 & c & A & h0 & d & E & [H1 H2 H3 H4 H5 H6 H7 H8 H9 H10 H11 H12]). exists l0, c, A, h0, d. split; [exact E|]. constructor; assumption.
Qed.
Lemma parts_split cf more ops : forall start h, exists l1 h',
  parts_from cf start h ops = l1 ++ [(the_chunk cf (last_start start ops), content_of (the_chunk cf (last_start start ops)) h')] /\
  parts_from cf start h (ops ++ more) = l1 ++ parts_from cf (last_start start ops) h' more /\
  (length h' <= length h + length (written ops))%nat.
Proof.
  induction ops as [|o ops IH]; intros start h.
  - exists [], h. cbn [app parts_from last_start written length]. repeat split. lia.
  - destruct o as [ls p|ls pts|start']; cbn [app parts_from last_start written].
    + destruct (IH start (h ++ [(ls, p)])) as (l1 & h' & E1 & E2 & L). exists l1, h'. rewrite app_length in L. cbn [length] in *. repeat split; try assumption. unfold ireq in *. lia.
    + destruct (IH start (h ++ map (pair ls) pts)) as (l1 & h' & E1 & E2 & L). exists l1, h'. rewrite app_length in L. rewrite app_length. repeat split; try assumption. unfold ireq in *. lia.
    + destruct (IH start' []) as (l1 & h' & E1 & E2 & L). eexists (_ :: l1), h'. rewrite E1, E2. cbn [length app] in *. repeat split. unfold ireq in *. lia.
Qed.
Theorem checked_goes_on cf f hs bs o ops start more q s e : env_ok f -> empty_dir f -> cf_dbg cf = true ->
  let t0 := f_clock f (f_ticks f) in
  ops_ok cf t0 (ops ++ more) -> 2 ^ 64 <= start + cf_size cf -> timely (written (ops ++ more)) -> hasher_ok hs -> bs_contract bs -> Forall lab_ok q ->
  unmixed hs (parts cf t0 (ops ++ more)) q s e ->
  exists w r a b, db_after cf f (ops ++ OpSwap start :: more) = Some (a ++ Panic :: b, w) /\
    a ++ b = outcomes cf t0 (ops ++ more) /\ length a = length ops /\
    drun (db_query hs bs o q s e) w = Some (r, w) /\ comes_to (parts cf t0 (ops ++ more)) q s e r.
Proof.
  intros He Hd D t0 Ho Hst T Hh Hb Hq Hu. pose proof (parts_ok cf t0 _ Ho T) as PO. destruct (history cf f ops He Hd (ops_ok_prefix _ _ _ _ Ho)) as (w1 & E1 & S1). fold t0 in E1, S1.
  destruct (parts_split cf more ops t0 []) as (l1 & h' & P1 & P2 & L). fold (parts cf t0 ops) in P1. fold (parts cf t0 (ops ++ more)) in P2. rewrite P1 in S1.
  pose proof Ho as (_ & _ & Hsz & _ & Hs & Hw & HL). apply starts_app in Hs as [_ Hs]. rewrite written_app in Hw, HL. apply Forall_app in Hw as [_ Hw]. rewrite app_length in HL. cbn [length] in L.
  destruct (hist_from cf more Hsz (last_start t0 ops) h' _ l1 (state_draw _ _ _ S1) Hs Hw ltac:(unfold ireq in *; lia)) as (w & E2 & S2 & _).
  rewrite <- P2 in S2.
  destruct (query_any hs bs o q s e w _ (state_quiet _ _ _ S2) PO Hh Hb Hq Hu) as (r & Er & Ha).
  exists w, r, (outcomes cf t0 ops), (outcomes cf (last_start t0 ops) more). split; [|split; [symmetry; apply outcomes_app|split; [apply outcomes_length|split; assumption]]].
  unfold db_after in *. destruct (db_open cf f) as [[[[]|er|] w0]|]; try discriminate E1.
  rewrite (after_app _ _ _ _ _ _ E1). cbn [db_after_from dop_prog]. rewrite checked_swap by assumption. now rewrite E2.
Qed.

(* while no window reaches beyond the end of time, nothing is special *)
Lemma wide_same_from cf ops : 0 <= cf_size cf -> forall start h, start + cf_size cf < 2 ^ 64 -> starts_ok cf start ops ->
  wide_from cf start h ops = parts_from cf start h ops /\ wide_outcomes cf start ops = outcomes cf start ops.
Proof.
  intros Hsz. induction ops as [|o ops IH]; intros start h Hend Ho;
    assert (W: wide_chunk cf start = the_chunk cf start) by (unfold wide_chunk, the_chunk, wide_end; now replace (start + cf_size cf <? 2 ^ 64) with true by lia).
  - cbn [wide_from parts_from]. rewrite W. split; reflexivity.
  - assert (WO: wide_outcome (the_chunk cf start) o = outcome (the_chunk cf start) o).
    { destruct o; cbn [wide_outcome outcome the_chunk c_start c_end]; try reflexivity. replace (start <=? start + cf_size cf) with true by lia. reflexivity. }
    destruct o as [ls p|ls pts|start']; cbn [wide_from parts_from wide_outcomes outcomes starts_ok] in *; rewrite W, WO.
    + destruct (IH start (h ++ [(ls, p)]) Hend Ho) as [-> ->]. split; reflexivity.
    + destruct (IH start (h ++ map (pair ls) pts) Hend Ho) as [-> ->]. split; reflexivity.
    + destruct Ho as (H1 & H2 & H3). destruct (IH start' [] H2 H3) as [-> ->]. split; reflexivity.
Qed.
Theorem wide_same cf start ops : ops_ok cf start ops -> wide_parts cf start ops = parts cf start ops /\ wide_outcomes cf start ops = outcomes cf start ops.
Proof. intros (_ & _ & Hsz & Hend & Hs & _). now apply wide_same_from. Qed.
