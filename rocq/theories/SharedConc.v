(* What a query reads at each step of an interleaving of clients, queries and the swap thread. *)
From Coq Require Import ZifyBool ZifyNat Permutation Sorted.
From Verif Require Import Rust StringProofs Prog Gorilla GorillaSpec Storage StorageSpec StorageProofs Labels IndexSpec Indexer
  LabelProofs IndexProofs Chunk ChunkSpec ChunkProofs ChunkFacts ConcSpec Conc Utils DirSpec DirProofs TiKvInit Db DbSpec MapProofs
  DbProofs DbHist DbFacts FaultsSpec FaultsProofs FaultsMain SwapSpec SwapProofs SwapConc SwapMain WritersSpec WritersProofs WritersConc WritersMain
  ReadsSpec ReadsMay ReadsCrash ReadsConc SharedSpec SharedLog.
Local Notation plain := SwapProofs.plain.
Local Notation inv cf := (WritersConc.inv cf Rok (good cf) fok).
Local Notation vok cf := (WritersConc.vok (good cf) fok).

Lemma rok_insert cf d ls p r w' : good cf d -> Rok ls p ->
  crun (dc_chunk d) (chunk_insert (dc_chunk d) ls p) (dc_world d) = Some (r, w') -> r <> Panic /\ good cf (mkDc (dc_chunk d) w' (dc_name d)).
Proof. intros G [H _]. apply good_insert; [exact G|now right]. Qed.
Lemma call_in c : Forall ireq_ok (call_points c) -> wcall_in Rok c.
Proof.
  destruct c as [ls p|ls pts]; cbn [call_points wcall_in]; intros H.
  - inversion H; subst. assumption.
  - rewrite Forall_forall in *. intros p Hp. exact (H (ls, p) (in_map (pair ls) _ _ Hp)).
Qed.
Lemma calls_in c : Forall ireq_ok (points_of c) -> Forall (wcall_in Rok) c.
Proof.
  unfold points_of. induction c as [|x c IH]; cbn [map concat]; intros H; [constructor|]. apply Forall_app in H as [H1 H2]. constructor; [now apply call_in|auto].
Qed.
Lemma op_vok_ok cf o w r w' : Forall ireq_ok (written [o]) -> vok cf w -> drun (dop_prog cf o) w = Some (r, w') -> vok cf w'.
Proof.
  intros HO V E.
  assert (CASE: forall starts cs i p a, nth_error (WritersSpec.threads cf starts cs []) i = Some p -> Forall (Forall (wcall_in Rok)) cs -> run dhandler p w = Some (a, w') ->
    (forall q, In q (upd (WritersSpec.threads cf starts cs []) i (Ret a)) -> finished q) -> vok cf w').
  { intros starts cs i p a N HC Hr FI. destruct (run_alone dhandler p w a w' i _ Hr N) as (n & Hn).
    apply (all_serial cf Rok (good cf) fok (good_plain cf) (rok_insert cf) (good_new cf) w starts cs [] _ _ _ V HC Hn FI). }
  assert (RUN: forall (p : prog dcmd (res unit)) (f : list (res unit) -> prog dcmd wanswer), run dhandler p w = Some (r, w') -> exists a, run dhandler (bind (sequence [p]) f) w = run dhandler (f a) w').
  { intros p f Hp. cbn [sequence]. rewrite run_bind, run_bind, Hp. destruct r as [u|e|]; cbn [run bind]; eauto. }
  destruct o as [ls p|ls pts|s]; cbn [dop_prog] in E.
  - destruct (RUN (db_write_point ls p) (fun rs => Ret (Wrote rs)) E) as (a & Ha). cbn [run] in Ha.
    apply (CASE [] [[WPoint ls p]] 1%nat (client [WPoint ls p]) (Wrote a)); [reflexivity| |exact Ha|].
    + constructor; [apply calls_in; exact HO|constructor].
    + intros q [<-|[<-|[]]]; eexists; reflexivity.
  - destruct (RUN (db_write_points ls pts) (fun rs => Ret (Wrote rs)) E) as (a & Ha). cbn [run] in Ha.
    apply (CASE [] [[WBatch ls pts]] 1%nat (client [WBatch ls pts]) (Wrote a)); [reflexivity| |exact Ha|].
    + constructor; [apply calls_in; exact HO|constructor].
    + intros q [<-|[<-|[]]]; eexists; reflexivity.
  - destruct (RUN (db_swap cf s) (fun rs => Ret (Rotated rs)) E) as (a & Ha). cbn [run] in Ha.
    apply (CASE [s] [] 0%nat (rotator cf [s]) (Rotated a)); [reflexivity| |exact Ha|].
    + constructor.
    + intros q [<-|[]]; eexists; reflexivity.
Qed.
Lemma after_vok_ok cf ops : forall w rs w', Forall ireq_ok (written ops) -> vok cf w -> db_after_from cf ops w = Some (rs, w') -> vok cf w'.
Proof.
  induction ops as [|o ops IH]; intros w rs w' HO V E; cbn [db_after_from] in E; [injection E as _ <-; exact V|].
  change (o :: ops) with ([o] ++ ops) in HO. rewrite written_cat in HO. apply Forall_app in HO as [H1 H2]. destruct (drun (dop_prog cf o) w) as [[r w1]|] eqn:E1; [|discriminate].
  destruct (db_after_from cf ops w1) as [[rs1 w2]|] eqn:E2; [|discriminate]. injection E as _ <-. apply (IH w1 rs1 w2 H2); [|exact E2]. now apply (op_vok_ok cf o w r).
Qed.
Lemma after_results cf ops : forall w rs w', db_after_from cf ops w = Some (rs, w') -> length rs = length ops.
Proof.
  induction ops as [|o ops IH]; intros w rs w' E; cbn [db_after_from] in E; [injection E as <- _; reflexivity|].
  destruct (drun (dop_prog cf o) w) as [[r w1]|]; [|discriminate]. destruct (db_after_from cf ops w1) as [[rs1 w2]|] eqn:E2; [|discriminate]. injection E as <- _.
  cbn [length]. now rewrite (IH _ _ _ E2).
Qed.

(** ** the log of the threads *)
Lemma inv_log_of cf w0 starts cs qs low log ts w : inv cf w0 (rot_goal starts) (roles_of cs qs) low log ts w -> log_of starts cs log.
Proof.
  intros [p0 ps kinds v fl ph -> HL V HR [L1 L2] HT HI HF HS HW HLw]. constructor.
  - apply rot_ok_end in HR as (es & a & rs & _ & HR). eauto.
  - intros i c Hc. assert (Nr: nth_error (roles_of cs qs) i = Some (client_role c)).
    { unfold roles_of. rewrite nth_error_app1 by (rewrite map_length; apply nth_error_Some; congruence). now apply map_nth_error. }
    assert (Li: (i < length (roles_of cs qs))%nat) by (apply nth_error_Some; congruence).
    destruct (nth_error ps i) as [p|] eqn:Np; [|apply nth_error_None in Np; lia]. destruct (nth_error kinds i) as [kd|] eqn:Nk; [|apply nth_error_None in Nk; lia].
    pose proof (HT i _ p kd Nr Np Nk) as T. destruct kd as [c'| |a b]; cbn [thr client_role] in T.
    + destruct T as (D & HC & HRf & _). apply cli_end in HC as (es & a & HD). destruct (HRf _ _ HD) as (rs & _ & Hs). eauto.
    + destruct T as (D & q & k & r & cw & d & _ & _ & _ & _ & _ & HC & HRf & _). apply cli_end in HC as (es & a & HD). destruct (HRf _ _ HD) as (rs & _ & Hs). eauto.
    + contradiction.
  - eapply Forall_impl; [|exact HW]. intros e. unfold known. destruct (e_who e) as [|i]; [lia|]. intros (spec & N). unfold roles_of in N. apply nth_map_app in N as [(c & N & _)|(q & _ & _ & X)]; [|discriminate].
    assert (i < length cs)%nat by (apply nth_error_Some; congruence). lia.
Qed.
Lemma inv_rot_ret cf w0 starts cs qs low log ts w a : inv cf w0 (rot_goal starts) (roles_of cs qs) low log ts w -> nth_error ts 0 = Some (Ret a) ->
  exists rs, a = Rotated rs /\ rotations starts (of_thread 0 log) rs.
Proof.
  intros [p0 ps kinds v fl ph -> HL V HR [L1 L2] HT HI HF HS HW HLw] N. cbn [nth_error] in N. assert (p0 = Ret a) as -> by congruence.
  destruct (rot_ret cf _ _ _ _ _ HR (shape_closing _ _ _ _ _ _ HS)) as [_ H]. exact H.
Qed.
Lemma inv_cli_ret cf w0 starts cs qs low log ts w i c a : inv cf w0 (rot_goal starts) (roles_of cs qs) low log ts w -> nth_error cs i = Some c -> nth_error ts (S i) = Some (Ret a) ->
  exists rs, a = Wrote rs /\ session c (of_thread (S i) log) rs.
Proof.
  intros [p0 ps kinds v fl ph -> HL V HR [L1 L2] HT HI HF HS HW HLw] Hc N. cbn [nth_error] in N.
  assert (Nr: nth_error (roles_of cs qs) i = Some (client_role c)).
  { unfold roles_of. rewrite nth_error_app1 by (rewrite map_length; apply nth_error_Some; congruence). now apply map_nth_error. }
  assert (Li: (i < length (roles_of cs qs))%nat) by (apply nth_error_Some; congruence).
  destruct (nth_error kinds i) as [kd|] eqn:Nk; [|apply nth_error_None in Nk; lia].
  pose proof (HT i _ _ kd Nr N Nk) as T. apply thr_ret in T. apply T.
Qed.

Section RUN.
  Variables (cf : config) (old : list part) (w00 w : dworld) (t0 : Z) (ops : list dop) (rs0 : list (res unit)) (starts : list Z) (cs : list (list wcall)) (qs : list (list ask)).
  Hypothesis (Hstart : fstate cf w00 (old ++ [(the_chunk cf t0, [])]) t0) (Hvok : vok cf w00)
    (Hops : ops_ok cf t0 ops) (Hafter : db_after_from cf ops w00 = Some (rs0, w)) (Hwork : work_ok cf t0 ops starts cs).
  Local Notation P log := (old ++ chunks_after cf t0 ops rs0 log).
  Local Notation Inv := (inv cf w (rot_goal starts) (roles_of cs qs)).

  Lemma start_vok : vok cf w.
  Proof.
    apply (after_vok_ok cf ops w00 rs0); [apply Hops|exact Hvok|exact Hafter].
  Qed.
  Lemma start_calls : Forall (Forall (wcall_in Rok)) cs.
  Proof. destruct Hwork as (_ & H & _). eapply Forall_impl; [|exact H]. intros c. apply calls_in. Qed.
  Lemma start_inv : Inv [] [] (WritersSpec.threads cf starts cs qs) w.
  Proof. apply WritersConc.inv_start; [exact start_vok|exact start_calls]. Qed.
  Lemma rs0_length : length rs0 = length ops.
  Proof. exact (after_results _ _ _ _ _ Hafter). Qed.

  Lemma state_of log v : ops_ok cf t0 (ops ++ map e_op log) -> one_by_one cf log w v ->
    exists hi, fstate cf v (P log) hi /\ reported cf t0 (ops ++ map e_op log) (rs0 ++ map e_res log).
  Proof.
    intros Ho H. destruct Ho as (_ & _ & Hsz & _ & Hs & Hw & HL).
    destruct (any_from cf (ops ++ map e_op log) Hsz t0 t0 [] w00 old Hstart Hs Hw HL) as (rs & v' & hi & u & E & Rp & Fs & _).
    rewrite (after_app cf ops (map e_op log) _ _ _ Hafter) in E. unfold one_by_one in H. rewrite H in E.
    assert (rs = rs0 ++ map e_res log) as -> by congruence. assert (v' = v) as -> by congruence. exists hi. unfold chunks_after, parts. auto.
  Qed.
  Lemma chunks_last log : exists l A, P log = l ++ [(the_chunk cf (last_start t0 (performed (ops ++ map e_op log) (rs0 ++ map e_res log))), A)].
  Proof. destruct (parts_last cf (performed (ops ++ map e_op log) (rs0 ++ map e_res log)) t0 []) as (l & A & E). exists (old ++ l), A. unfold chunks_after, parts. rewrite E. apply app_assoc. Qed.

  (* the state around a step *)
  Lemma inv_state low log ts wn : Inv low log ts wn ->
    ops_ok cf t0 (ops ++ map e_op log) /\ ops_ok cf t0 (ops ++ map e_op low) /\ (exists r, log = low ++ r).
  Proof.
    intros Iv. pose proof (log_ops_ok cf t0 ops starts cs log Hops Hwork (inv_log_of _ _ _ _ _ _ _ _ _ Iv)) as Ho.
    assert (X: exists r, log = low ++ r).
    { destruct Iv as [p0 ps kinds v fl ph -> HL V HR [L1 L2] HT HI HF HS HW HLw]. unfold lowok in HLw. destruct fl; [|exists []; now rewrite app_nil_r].
      destruct HLw as (i & e & post & _ & _ & -> & _). eauto. }
    split; [exact Ho|]. split; [|exact X]. destruct X as (r & ->). rewrite map_app, app_assoc in Ho. now apply ops_ok_pre in Ho.
  Qed.

  (** ** one read *)
  Lemma crd_seen ch cw A B0 B1 X c x cw' : crd ch cw A -> grown B0 A -> grown A B1 -> readc X c -> chandler ch X c cw = Some (x, cw') -> GC ch B0 B1 X c x.
  Proof.
    intros R G0 G1 Hc E. revert x E. pose proof (rd_faults _ _ _ R) as Hf. destruct c as [X [k|k v]|X [k|k v]| | | | | |]; try contradiction; intros x E; cbn [chandler kv_fault_handler] in E; rewrite ?Hf in E; cbn [hd tl] in E.
    - injection E as <- _. cbn [GC GS]. exists (w_st cw). split; [|reflexivity]. exists (pts_of A). split; [apply (rd_st _ _ _ R)|]. intros id. split; now apply grown_pts.
    - injection E as <- _. cbn [GC GI]. exists (w_ix cw), (length A). split; [|reflexivity]. split; [now apply grown_length|]. rewrite <- grown_regs by assumption. apply (rd_ix _ _ _ R).
    - rewrite (rd_locked _ _ _ R) in E. injection E as <- _. cbn [GC]. apply (rd_poison _ _ _ R).
  Qed.
  Lemma crash_resume {C W A} (h : handler C W) n : forall (p q : prog C A) s s' z, crash_at h n p s = (q, s') -> run h q s' = Some z -> run h p s = Some z.
  Proof.
    induction n as [|n IH]; intros p q s s' z E Hr; cbn [crash_at] in E; [injection E as -> ->; exact Hr|].
    destruct p as [a|X c k]; [injection E as <- <-; exact Hr|]. cbn [run]. destruct (h X c s) as [[x s1]|] eqn:Eh; [exact (IH _ _ _ _ _ E Hr)|].
    injection E as <- <-. cbn [run] in Hr. rewrite Eh in Hr. discriminate.
  Qed.
  Lemma flight_seen ch s0 A0 s1 A1 r ls p n q cw B0 B1 X c x cw' : crd ch s0 A0 -> crd ch s1 A1 -> grown B0 A0 -> grown A0 A1 -> grown A1 B1 -> set_ok ls ->
    crash_at (chandler ch) n (chunk_insert ch ls p) s0 = (q, cw) -> run (chandler ch) q cw = Some (r, s1) -> w_locked cw = true -> w_faults cw = [] ->
    readc X c -> chandler ch X c cw = Some (x, cw') -> GC ch B0 B1 X c x.
  Proof.
    intros R0 R1 G0 G01 G1 Hls Ec Er Lk Hf Hc E. pose proof (crash_resume _ _ _ _ _ _ _ Ec Er) as Run.
    assert (Ew: cw = snd (crash_at (chandler ch) n (chunk_insert ch ls p) s0)) by (rewrite Ec; reflexivity).
    pose proof (grown_trans _ _ _ G0 G01) as G01'. pose proof (grown_trans _ _ _ G01 G1) as G11.
    revert x E. destruct c as [X [k|k v]|X [k|k v]| | | | | |]; try contradiction; intros x E; cbn [chandler kv_fault_handler] in E; rewrite ?Hf in E; cbn [hd tl] in E.
    - injection E as <- _. cbn [GC GS]. destruct (one_set_crash ch _ (insert_one ch ls p) n s0 _ _ Run) as [F|F]; rewrite <- Ew in F; rewrite F.
      + exists (w_st s0). split; [|reflexivity]. exists (pts_of A0). split; [apply (rd_st _ _ _ R0)|]. intros id. split; now apply grown_pts.
      + exists (w_st s1). split; [|reflexivity]. exists (pts_of A1). split; [apply (rd_st _ _ _ R1)|]. intros id. split; now apply grown_pts.
    - injection E as <- _. cbn [GC GI]. pose proof (insert_NoDup ch ls p s0 (rd_faults _ _ _ R0) Hls) as ND.
      destruct (crash_key ch _ k n s0 _ _ ND Run) as [F|F]; rewrite <- Ew in F; rewrite F.
      + exists (w_ix s0), (length A0). split; [|reflexivity]. split; [now apply grown_length|]. rewrite <- grown_regs by assumption. apply (rd_ix _ _ _ R0).
      + exists (w_ix s1), (length A1). split; [|reflexivity]. split; [now apply grown_length|]. rewrite <- grown_regs by assumption. apply (rd_ix _ _ _ R1).
    - rewrite Lk in E. discriminate.
  Qed.
  Lemma alike_seen d1 d A B0 B1 X c x cw' : alike d1 d -> w_faults (dc_world d1) = [] -> crd (dc_chunk d) (dc_world d) A -> grown B0 A -> grown A B1 -> readc X c ->
    chandler (dc_chunk d1) X c (dc_world d1) = Some (x, cw') -> GC (dc_chunk d1) B0 B1 X c x.
  Proof.
    intros (K1 & K2 & K3 & K4) Hf R G0 G1 Hc E. rewrite K1 in *. destruct (read_step (dc_chunk d) X c (dc_world d) (dc_world d1)) as (y & Y1 & [Y2|[Y2 _]]); try assumption; try (symmetry; assumption).
    - apply (rd_locked _ _ _ R).
    - apply (rd_poison _ _ _ R).
    - apply (rd_faults _ _ _ R).
    - assert (x = y) as -> by congruence. eapply crd_seen; eassumption.
    - congruence.
  Qed.

  Lemma observe low log ts wn j dj X c x cw' l0 l1 : Inv low log ts wn -> readc X c -> (j < length (P log))%nat ->
    nth_error (d_heap wn) j = Some dj -> chandler (dc_chunk dj) X c (dc_world dj) = Some (x, cw') -> below l0 (P low) -> below (P log) l1 ->
    exists c1, nth_error l1 j = Some c1 /\ like (dc_chunk dj) (fst c1) /\ GC (dc_chunk dj) (content_at l0 j) (snd c1) X c x.
  Proof.
    intros Iv Hc Lj Nj E B0 B1. destruct (inv_state _ _ _ _ Iv) as (Ho & Hol & (r & El)).
    assert (BL: below (P low) (P log)) by (rewrite El; apply below_prefix, chunks_below, rs0_length).
    destruct Iv as [p0 ps kinds v fl ph -> HL V HR [L1 L2] HT HI HF HS HW HLw].
    destruct (state_of log v Ho HL) as (hi & Fs & _). pose proof (fstate_quiet _ _ _ _ Fs) as [Qh Qc Qs Q1 Q2].
    destruct (nth_error (P log) j) as [[cj Aj]|] eqn:Ej; [|apply nth_error_None in Ej; lia].
    destruct (hrel_nth _ _ Qh _ _ Ej) as (d & Nd & Lk & Rd). cbn [fst snd] in Lk, Rd.
    destruct (B1 _ _ _ Ej) as (A1 & N1 & G1). exists (cj, A1). split; [exact N1|]. cbn [fst snd].
    assert (G0: grown (content_at l0 j) Aj).
    { pose proof (below_content l0 (P log) j (below_trans _ _ _ B0 BL)) as G. unfold content_at in G at 2. rewrite Ej in G. exact G. }
    assert (G00: grown (content_at l0 j) (content_at (P low) j)) by now apply below_content.
    assert (OPEN: wn = openw v fl ph (sum cg kinds) (sum sg kinds) -> like (dc_chunk dj) cj /\ GC (dc_chunk dj) (content_at l0 j) A1 X c x).
    { intros Ew. rewrite Ew in Nj. cbn [openw d_heap] in Nj.
      assert (Lh: (j < length (d_heap v))%nat) by (apply nth_error_Some; congruence).
      unfold infl in Nj. destruct fl as [cw|].
      2:{ rewrite nth_error_app1 in Nj by assumption. assert (dj = d) as -> by congruence. split; [exact Lk|]. eapply crd_seen; eassumption. }
      destruct (v_good _ _ v V) as (d' & Nd' & _). rewrite Nd' in Nj. rewrite nth_error_app1 in Nj by (rewrite upd_length by (apply nth_error_Some; congruence); assumption).
      rewrite nth_upd in Nj by (apply nth_error_Some; congruence). destruct (Nat.eqb_spec j (d_cur v)) as [->|Ne].
      2:{ assert (dj = d) as -> by congruence. split; [exact Lk|]. eapply crd_seen; eassumption. }
      assert (d' = d) as -> by congruence. assert (dj = mkDc (dc_chunk d) cw (dc_name d)) as -> by congruence. cbn [dc_chunk dc_world] in *. split; [exact Lk|].
      destruct HLw as (i & e & post & Nk & _). assert (Li: (i < length (roles_of cs qs))%nat) by (rewrite <- L2; apply nth_error_Some; congruence).
      destruct (nth_error (roles_of cs qs) i) as [ro|] eqn:Nr; [|apply nth_error_None in Nr; lia]. destruct (nth_error ps i) as [pi|] eqn:Np; [|apply nth_error_None in Np; lia].
      pose proof (HT i ro pi IL Nr Np Nk) as T. destruct ro as [spec|]; cbn [thr] in T; [|contradiction].
      destruct T as (D & q & k & r' & cw2 & d2 & _ & _ & Nd2 & Ecw & Hrun & _ & _ & (v0 & d0 & ls & p & m & Hv0 & V0 & Ecur & Nd0 & Ech & HRok & Hcr)).
      assert (d2 = d) as -> by congruence. assert (cw2 = cw) as -> by congruence.
      destruct (state_of low v0 Hol Hv0) as (hi0 & Fs0 & _). pose proof (fstate_quiet _ _ _ _ Fs0) as [Qh0 Qc0 _ _ _].
      assert (Lc: (d_cur v < length (P low))%nat) by (rewrite <- Ecur; lia).
      destruct (nth_error (P low) (d_cur v)) as [[c0 A0]|] eqn:E0; [|apply nth_error_None in E0; lia].
      destruct (hrel_nth _ _ Qh0 _ _ E0) as (d0' & Nd0' & _ & Rd0). assert (d0' = d0) as -> by congruence. cbn [snd] in Rd0. rewrite Ech in Rd0.
      destruct (BL _ _ _ E0) as (A0' & N0' & G01). assert (A0' = Aj) as -> by congruence.
      unfold content_at in G00 at 2. rewrite E0 in G00. cbn [snd] in G00.
      destruct HF as [Hlk Hfl]. destruct HRok as [Hset _].
      eapply (flight_seen (dc_chunk d) (dc_world d0) A0 (dc_world d) Aj); eassumption. }
    destruct ph as [|s q' g|s nd g n|q' r']; try (apply OPEN; exact HS).
    destruct HS as (w1 & Ew & _ & _ & _ & _ & _ & _ & FA & _ & Hcalm). rewrite Ew in Nj. cbn [set_secl d_heap] in Nj.
    assert (AL: alike dj d).
    { clear - FA Nj Nd. revert j Nj Nd. induction FA as [|a b la lb H FA IH]; intros [|j] Nj Nd; try discriminate; cbn [nth_error] in *; [congruence|eauto]. }
    rewrite Forall_forall in Hcalm. pose proof (Hcalm _ (nth_error_In _ _ Nj)) as Cj. split.
    - destruct AL as (-> & _). exact Lk.
    - eapply alike_seen; eassumption.
  Qed.
End RUN.
