(* Proofs about a database whose file operations may fail. *)
From Coq Require Import ZifyBool ZifyNat Permutation Sorted.
From Verif Require Import Rust StringProofs Prog Gorilla GorillaSpec Storage StorageSpec StorageProofs Labels IndexSpec Indexer
  LabelProofs IndexProofs Chunk ChunkSpec ChunkProofs ChunkFacts Conc Utils DirSpec DirProofs TiKvInit Db DbSpec MapProofs DbProofs DbHist DbFacts FaultsSpec.

(** ** files *)
Definition names (f : fworld) : list (list Z) := map fst (f_dirs f).
Definition used (f g : fworld) (u : list bool) : Prop := f_faults f = u ++ f_faults g.
Record later (name : list Z) (b : bool) (f g : fworld) : Prop := mkLater {
  l_env : f_order g = f_order f /\ f_uuid g = f_uuid f /\ f_clock g = f_clock f /\ f_ticks g = f_ticks f;
  l_names : incl (names g) (name :: names f);
  l_used : exists u, used f g u /\ (b = true -> In true u) }.

Lemma later_refl name f : later name false f f.
Proof. constructor; [repeat split|intros x H; now right|]. exists []. split; [reflexivity|discriminate]. Qed.
Lemma later_trans name b c f g h : later name b f g -> later name c g h -> later name (b || c) f h.
Proof.
  intros [(A1 & A2 & A3 & A4) B (u & C1 & C2)] [(D1 & D2 & D3 & D4) E (v & F1 & F2)]. constructor.
  - repeat split; congruence.
  - intros x Hx. destruct (E x Hx) as [<-|Hx']; [now left|]. now apply B.
  - exists (u ++ v). unfold used in *. rewrite C1, F1, app_assoc. split; [reflexivity|]. intros H. apply orb_true_iff in H. apply in_or_app. tauto.
Qed.

Definition st_of (f : fworld) (n : list Z) : option kv := match find_dir (f_dirs f) n with Some d => cd_st d | None => None end.
Definition ix_of (f : fworld) (n : list Z) : option kv := match find_dir (f_dirs f) n with Some d => cd_ix d | None => None end.

Lemma find_put ds n d : find_dir (put_dir ds n d) n = Some d.
Proof.
  induction ds as [|[m e] ds IH]; cbn [put_dir find_dir]; unfold name_eqb in *; [now rewrite bytes_eqb_refl|].
  destruct (bytes_eqb m n) eqn:E; cbn [find_dir]; unfold name_eqb; rewrite E; [reflexivity|exact IH].
Qed.
Lemma put_names ds n d : incl (map fst (put_dir ds n d)) (n :: map fst ds).
Proof.
  induction ds as [|[m e] ds IH]; cbn [put_dir map fst]; [intros x H; exact H|]. unfold name_eqb in *. destruct (bytes_eqb m n); cbn [map fst]; intros x H; [now right|].
  destruct H as [<-|H]; [right; now left|]. destruct (IH x H) as [<-|H']; [now left|right; now right].
Qed.
Lemma used_next f : exists u, used f (next_fault f) u /\ (hd false (f_faults f) = true -> In true u).
Proof.
  unfold used. cbn [next_fault f_faults]. destruct (f_faults f) as [|b l]; [exists []; split; [reflexivity|discriminate]|].
  exists [b]. split; [reflexivity|]. cbn. intros ->. now left.
Qed.
(* a command about the directory [name] *)
Lemma later_next name b f : b = hd false (f_faults f) -> later name b f (next_fault f).
Proof. intros ->. constructor; [repeat split|intros x H; now right|]. destruct (used_next f) as (u & H1 & H2). now exists u. Qed.
Lemma later_put name b f d : b = hd false (f_faults f) -> later name b f (set_dirs (next_fault f) (put_dir (f_dirs (next_fault f)) name d)).
Proof. intros ->. constructor; [repeat split|exact (put_names (f_dirs f) name d)|]. destruct (used_next f) as (u & H1 & H2). now exists u. Qed.

Definition about {A} (name : list Z) (c : fcmd (res A)) (ok : fworld -> A -> fworld -> Prop) : Prop :=
  forall f, exists r g, fhandler _ c f = Some (r, g) /\
    ((exists a, r = Ok a /\ later name false f g /\ ok f a g) \/ (exists e, r = Err e /\ later name true f g)).
Definition keeps {A} name (f : fworld) (a : A) (g : fworld) : Prop := st_of g name = st_of f name /\ ix_of g name = ix_of f name.
Lemma about_mkdir name : about name (FMkDir name) (keeps name).
Proof.
  intros f. cbn [fhandler]. destruct (hd false (f_faults f)) eqn:E; eexists _, _; split; try reflexivity.
  - right. eexists. split; [reflexivity|]. now apply later_next.
  - left. exists tt. split; [reflexivity|]. split; [now apply later_put|]. split; unfold st_of, ix_of; cbn [f_dirs set_dirs next_fault]; rewrite find_put; now destruct (find_dir (f_dirs f) name).
Qed.
Lemma about_create name : about name (FCreateOpts name) (keeps name).
Proof.
  intros f. cbn [fhandler]. destruct (hd false (f_faults f)) eqn:E; eexists _, _; split; try reflexivity.
  - right. eexists. split; [reflexivity|]. now apply later_next.
  - left. exists tt. split; [reflexivity|]. split; [now apply later_put|]. split; unfold st_of, ix_of; cbn [f_dirs set_dirs next_fault]; rewrite find_put; now destruct (find_dir (f_dirs f) name).
Qed.
(* the error is not looked at *)
Lemma write_any name o f : exists r g b, fhandler _ (FWriteOpts name o) f = Some (r, g) /\ later name b f g /\ keeps name f tt g.
Proof.
  cbn [fhandler]. destruct (hd false (f_faults f)) eqn:E; eexists _, _, _; split; try reflexivity; split.
  - now apply later_next.
  - split; reflexivity.
  - now apply later_put.
  - split; unfold st_of, ix_of; cbn [f_dirs set_dirs next_fault]; rewrite find_put; now destruct (find_dir (f_dirs f) name).
Qed.
Lemma about_openst name : about name (FOpenSt name) (fun f s g => s = open_or_new (st_of f name) /\ ix_of g name = ix_of f name).
Proof.
  intros f. cbn [fhandler]. destruct (hd false (f_faults f)) eqn:E; eexists _, _; split; try reflexivity.
  - right. eexists. split; [reflexivity|]. now apply later_next.
  - left. eexists. split; [reflexivity|]. split; [now apply later_put|]. split; [reflexivity|]. unfold ix_of; cbn [f_dirs set_dirs next_fault]; rewrite find_put; now destruct (find_dir (f_dirs f) name).
Qed.
Lemma about_openix name : about name (FOpenIx name) (fun f s g => s = open_or_new (ix_of f name)).
Proof.
  intros f. cbn [fhandler]. destruct (hd false (f_faults f)) eqn:E; eexists _, _; split; try reflexivity.
  - right. eexists. split; [reflexivity|]. now apply later_next.
  - left. eexists. split; [reflexivity|]. split; [now apply later_put|]. reflexivity.
Qed.
Lemma later_draw name f : later name false f (draw f).
Proof. constructor; [repeat split|intros x H; now right|]. exists []. split; [reflexivity|discriminate]. Qed.

(* one of the building steps *)
Definition built_so {A} (name : list Z) (p : prog fcmd (res A)) (f : fworld) (ok : A -> fworld -> Prop) : Prop :=
  exists r g b, run fhandler p f = Some (r, g) /\ later name b f g /\
    match r with Ok a => ok a g | Err _ => b = true | Panic => False end.
Lemma config_any name o f : built_so name (write_config_to_dir name o) f (fun _ g => keeps name f tt g).
Proof.
  unfold built_so, write_config_to_dir. rewrite run_qbind, run_call.
  destruct (about_mkdir name f) as (r & g & -> & [([] & -> & L & K)|(e & -> & L)]); [|exists (Err e), g, true; auto].
  rewrite run_qbind, run_call.
  destruct (about_create name g) as (r & g1 & -> & [([] & -> & L1 & K1)|(e & -> & L1)]); [|exists (Err e), g1, true; split; [reflexivity|]; split; [exact (later_trans _ _ _ _ _ _ L L1)|reflexivity]].
  rewrite run_bind, run_call. destruct (write_any name o g1) as (r & g2 & b & -> & L2 & K2). cbn [run].
  exists (Ok tt), g2, b. split; [reflexivity|]. split; [exact (later_trans _ _ _ _ _ _ (later_trans _ _ _ _ _ _ L L1) L2)|].
  destruct K, K1, K2. split; congruence.
Qed.
Definition st_fresh (b : backend) (st : storage) (s : kv) : Prop :=
  b = Sled /\ st = SledStorage /\ s = [] \/ b = TiKvDry /\ st = TiKvStorage [] /\ exists k v, s = [(k, v)] /\ length k = 16%nat.
Definition ix_fresh (b : backend) (ix : indexer) (s : kv) : Prop :=
  b = Sled /\ ix = SledIndexer /\ s = [] \/
  b = TiKvDry /\ exists u k v, ix = TiKvIndexer u /\ s = [(k, v)] /\ length k = 16%nat /\ length u = 32%nat.
Lemma storage_any name o b f : st_of f name = None -> length (o_ident o) = 16%nat ->
  built_so name (build_storage b name o) f (fun r g => st_fresh b (fst r) (snd r) /\ ix_of g name = ix_of f name).
Proof.
  intros H Ho. unfold built_so. destruct b; cbn [build_storage].
  - rewrite run_qbind, run_call. destruct (about_openst name f) as (r & g & -> & [(s & -> & L & E1 & E2)|(e & -> & L)]); [|exists (Err e), g, true; auto].
    cbn [run]. eexists _, _, _. split; [reflexivity|]. split; [exact L|]. cbn [fst snd]. split; [|exact E2]. left. rewrite H in E1. auto.
  - rewrite run_qbind, run_call. destruct (about_mkdir name f) as (r & g & -> & [([] & -> & L & K)|(e & -> & L)]); [|exists (Err e), g, true; auto].
    rewrite run_bind, run_call. cbn [fhandler]. rewrite krun_init_storage. cbn [rmap run].
    eexists _, _, _. split; [reflexivity|]. split; [exact (later_trans _ _ _ _ _ _ L (later_draw name g))|]. cbn [fst snd].
    split; [|exact (proj2 K)]. right. split; [reflexivity|]. split; [reflexivity|]. eexists _, _. split; [reflexivity|exact Ho].
Qed.
Lemma indexer_any name o b f : ix_of f name = None -> length (o_ident o) = 16%nat -> (forall n, length (f_uuid f n) = 16%nat) ->
  built_so name (build_indexer b name o) f (fun r g => ix_fresh b (fst r) (snd r)).
Proof.
  intros H Ho Hu. unfold built_so. destruct b; cbn [build_indexer].
  - rewrite run_qbind, run_call. destruct (about_openix name f) as (r & g & -> & [(s & -> & L & E1)|(e & -> & L)]); [|exists (Err e), g, true; auto].
    cbn [run]. eexists _, _, _. split; [reflexivity|]. split; [exact L|]. cbn [fst snd]. left. rewrite H in E1. auto.
  - rewrite run_qbind, run_call. destruct (about_mkdir name f) as (r & g & -> & [([] & -> & L & K)|(e & -> & L)]); [|exists (Err e), g, true; auto].
    rewrite run_bind, run_call. cbn [fhandler]. rewrite krun_init_indexer. cbn [rmap run].
    eexists _, _, _. split; [reflexivity|]. split; [exact (later_trans _ _ _ _ _ _ L (later_draw name g))|]. cbn [fst snd].
    right. split; [reflexivity|]. eexists _, _, _. split; [reflexivity|]. split; [reflexivity|]. split; [exact Ho|].
    rewrite app_length. destruct L as [(_ & -> & _) _ _]. rewrite Hu. reflexivity.
Qed.

Lemma create_any cf start f : env_weak f -> 0 <= start -> 0 <= cf_size cf -> start + cf_size cf < 2 ^ 64 ->
  ~ In (encode_chunk_dir start (start + cf_size cf)) (names f) ->
  built_so (encode_chunk_dir start (start + cf_size cf)) (create_chunk cf start) f (fun d _ =>
    like (dc_chunk d) (the_chunk cf start) /\ crep (dc_chunk d) (dc_world d) []).
Proof.
  intros (Hord & Huid & Hclk) H0 Hsz Hend Hn. unfold built_so, create_chunk. rewrite run_bind, run_call. cbn [fhandler].
  unfold arith_u, in_u. replace ((0 <=? start + cf_size cf) && (start + cf_size cf <? 2 ^ 64)) with true by lia.
  cbv zeta. set (name := encode_chunk_dir start (start + cf_size cf)) in *.
  set (o := mkOpts start (start + cf_size cf) (f_uuid f (f_drawn f))).
  assert (Ho: length (o_ident o) = 16%nat) by apply Huid.
  assert (N: find_dir (f_dirs f) name = None) by now apply find_put_none.
  assert (N1: st_of (draw f) name = None /\ ix_of (draw f) name = None) by (unfold st_of, ix_of; cbn [draw f_dirs]; rewrite N; auto). destruct N1 as [N1 N2].
  pose proof (later_draw name f) as L0.
  rewrite run_bind. destruct (config_any name o (draw f)) as (r & g & b & -> & L1 & K). pose proof (later_trans _ _ _ _ _ _ L0 L1) as M1.
  destruct r as [[]|e|]; [|cbn [run]; exists (Err InternalErr), g, true; split; [reflexivity|]; split; [now subst b|reflexivity]|contradiction].
  destruct K as [K1 K2]. rewrite N1 in K1. rewrite N2 in K2.
  rewrite run_qbind. destruct (storage_any name o (cf_st cf) g K1 Ho) as (r & g1 & b1 & -> & L2 & K). pose proof (later_trans _ _ _ _ _ _ M1 L2) as M2.
  destruct r as [[st s]|e|]; [|cbn [run]; exists (Err e), g1, true; split; [reflexivity|]; split; [|reflexivity]; subst b1; rewrite orb_true_r in M2; exact M2|contradiction].
  cbn [fst snd] in K. destruct K as [C2 K3]. rewrite K2 in K3.
  assert (Hu: forall n, length (f_uuid g1 n) = 16%nat) by (intros n; destruct M2 as [(_ & -> & _) _ _]; apply Huid).
  rewrite run_qbind. destruct (indexer_any name o (cf_ix cf) g1 K3 Ho Hu) as (r & g2 & b2 & -> & L3 & C3). pose proof (later_trans _ _ _ _ _ _ M2 L3) as M3.
  destruct r as [[ix si]|e|]; [|cbn [run]; exists (Err e), g2, true; split; [reflexivity|]; split; [|reflexivity]; subst b2; rewrite orb_true_r in M3; exact M3|contradiction].
  cbn [fst snd] in *. cbn [run]. eexists _, g2, _. split; [reflexivity|]. split; [exact M3|]. cbn [dc_chunk dc_world]. split.
  { unfold like, the_chunk. cbn [c_storage c_start c_end]. destruct C2 as [(-> & -> & _)|(-> & -> & _)]; repeat split. }
  apply new_crep.
  - destruct C2 as [(_ & -> & ->)|(_ & -> & k & v & -> & K)]; [left; split; reflexivity|right; eauto].
  - destruct C3 as [(_ & -> & ->)|(_ & u & k & v & -> & -> & Q1 & Q2)]; [left; split; reflexivity|right; eauto 8].
Qed.

(** ** the state of a running database *)
Record frep (cf : config) (w : dworld) (l0 : list part) (c : chunk) (A : content) (h0 : list dchunk) (d : dchunk) (hi : Z) : Prop := mkFrep {
  fr_heap : d_heap w = h0 ++ [d];
  fr_cur : d_cur w = length h0;
  fr_sec : d_sec w = seq 0 (length h0);
  fr_curl : d_curl w = free_lock;
  fr_secl : d_secl w = free_lock;
  fr_old : hrel h0 l0;
  fr_like : like (dc_chunk d) c;
  fr_crep : crep (dc_chunk d) (dc_world d) A;
  fr_start : 0 <= c_start c <= hi;
  fr_env : env_weak (d_fs w);
  fr_dirs : forall n, In n (names (d_fs w)) -> exists s en, u64 s /\ u64 en /\ s <= hi /\ n = encode_chunk_dir s en }.
Definition fstate (cf : config) (w : dworld) (l : list part) (hi : Z) : Prop :=
  exists l0 c A h0 d, l = l0 ++ [(c, A)] /\ frep cf w l0 c A h0 d hi.

Lemma fstate_quiet cf w l hi : fstate cf w l hi -> quiet w l.
Proof.
  intros (l0 & c & A & h0 & d & -> & [H1 H2 H3 H4 H5 H6 H7 H8 _ _ _]).
  pose proof (hrel_length _ _ H6) as L. constructor; try assumption.
  - rewrite H1. apply Forall2_app; [assumption|]. constructor; [|constructor]. split; [exact H7|]. now apply crep_crd.
  - rewrite H2, app_length, L. symmetry. apply Nat.add_1_r.
  - now rewrite H3, H2.
Qed.
Lemma frep_write cf w l0 c A h0 d hi cw A' : frep cf w l0 c A h0 d hi -> crep (dc_chunk d) cw A' ->
  frep cf (set_heap w (h0 ++ [mkDc (dc_chunk d) cw (dc_name d)])) l0 c A' h0 (mkDc (dc_chunk d) cw (dc_name d)) hi.
Proof.
  intros [H1 H2 H3 H4 H5 H6 H7 H8 H9 H10 H11] R. constructor; cbn [set_heap d_heap d_cur d_sec d_curl d_secl d_fs dc_chunk dc_world]; try assumption. reflexivity.
Qed.

Lemma point_any cf w l0 c A hi ls p : fstate cf w (l0 ++ [(c, A)]) hi -> set_ok ls -> tp_ok p -> Z.of_nat (length A) + 1 < 2 ^ 64 ->
  exists w', drun (db_write_point ls p) w =
      Some (if in_windowb c (tp_ts p) then Ok tt else Err (OutOfRangeErr (c_start c) (c_end c)), w') /\
    fstate cf w' (l0 ++ [(c, ins c A (ls, p))]) hi /\ d_fs w' = d_fs w.
Proof.
  intros (l1 & c1 & A1 & h0 & d & E & D) Hls Hp HL. apply app_inj_tail in E. destruct E as [<- E].
  assert (c1 = c) as -> by congruence. assert (A1 = A) as -> by congruence. clear E.
  pose proof D as [H1 H2 H3 H4 H5 H6 H7 H8 H9 H10 H11].
  assert (N: nth_error (d_heap w) (d_cur w) = Some d) by (rewrite H1, H2; apply nth_last).
  unfold drun, db_write_point. rewrite (with_current_run _ w d) by assumption.
  rewrite (run_DC _ _ _ d) by exact N. cbn [set_curl d_heap].
  pose proof (insert_run (dc_chunk d) (dc_world d) A ls p H8 Hls Hp HL) as I. unfold crun in I. unfold ins. cbn [fst snd].
  rewrite <- (like_window _ _ H7). destruct H7 as (E1 & E2 & E3). rewrite <- E1, <- E2, <- E3.
  destruct (in_windowb (dc_chunk d) (tp_ts p)).
  - destruct I as (cw & -> & R & C). cbn [set_heap d_curl set_curl rw_unread rw_readers rw_writer rw_poisoned pred].
    eexists. split; [reflexivity|]. split; [|reflexivity]. eexists l0, c, _, h0, (mkDc (dc_chunk d) cw (dc_name d)). split; [reflexivity|].
    pose proof (frep_write _ _ _ _ _ _ _ _ _ _ D R) as D'.
    replace (set_curl _ _) with (set_heap w (h0 ++ [mkDc (dc_chunk d) cw (dc_name d)])); [exact D'|].
    cbn [d_heap set_curl]. rewrite H1, H2, upd_last. clear - H4. destruct w; cbn in *. subst. reflexivity.
  - rewrite I. assert (mkDc (dc_chunk d) (dc_world d) (dc_name d) = d) as -> by now destruct d. rewrite upd_self by assumption.
    assert (X: set_curl (set_heap (set_curl w (mkRw 1 false false)) (d_heap w)) (rw_unread (d_curl (set_heap (set_curl w (mkRw 1 false false)) (d_heap w)))) = w).
    { destruct w; cbn in *. subst. reflexivity. }
    eexists. split; [reflexivity|]. rewrite X. split; [|reflexivity]. exists l0, c, A, h0, d. auto.
Qed.
Lemma batch_any cf w l0 c A hi ls pts : fstate cf w (l0 ++ [(c, A)]) hi -> set_ok ls -> Forall tp_ok pts ->
  Z.of_nat (length A + length pts) < 2 ^ 64 ->
  exists w', drun (db_write_points ls pts) w =
      Some (if existsb (refused c) pts then Err InternalErr else Ok tt, w') /\
    fstate cf w' (l0 ++ [(c, fold_left (ins c) (map (pair ls) pts) A)]) hi /\ d_fs w' = d_fs w.
Proof.
  intros (l1 & c1 & A1 & h0 & d & E & D) Hls Hp HL. apply app_inj_tail in E. destruct E as [<- E].
  assert (c1 = c) as -> by congruence. assert (A1 = A) as -> by congruence. clear E.
  pose proof D as [H1 H2 H3 H4 H5 H6 H7 H8 H9 H10 H11].
  assert (N: nth_error (d_heap w) (d_cur w) = Some d) by (rewrite H1, H2; apply nth_last).
  assert (P: 0 <= c_start (dc_chunk d)) by (destruct H7 as (_ & -> & _); lia).
  unfold drun, db_write_points. rewrite (with_current_run _ w d) by assumption. rewrite run_qbind.
  destruct (write_all_run (d_cur w) ls pts Hls Hp (set_curl w (mkRw 1 false false)) d A N H8 P HL) as (cw & -> & R & C).
  rewrite (fold_ins_ext _ _ H7) in R.
  assert (EX: existsb (refused (dc_chunk d)) pts = existsb (refused c) pts).
  { clear - H7. induction pts as [|p pts IH]; [reflexivity|]. cbn [existsb]. now rewrite IH, (like_refused _ _ H7). }
  rewrite EX. cbn [run].
  eexists. split; [reflexivity|]. split; [|reflexivity]. eexists l0, c, _, h0, (mkDc (dc_chunk d) cw (dc_name d)). split; [reflexivity|].
  pose proof (frep_write _ _ _ _ _ _ _ _ _ _ D R) as D'.
  replace (set_curl _ _) with (set_heap w (h0 ++ [mkDc (dc_chunk d) cw (dc_name d)])); [exact D'|].
  cbn [d_heap set_curl]. rewrite H1, H2, upd_last. clear - H4. destruct w; cbn in *. subst. reflexivity.
Qed.

Lemma weak_later name b f g : later name b f g -> env_weak f -> env_weak g.
Proof. intros [(E1 & E2 & E3 & _) _ _] (H1 & H2 & H3). unfold env_weak. rewrite E1, E2, E3. auto. Qed.

Lemma swap_any cf w l0 c A hi start : fstate cf w (l0 ++ [(c, A)]) hi -> hi < start -> 0 <= cf_size cf -> start + cf_size cf < 2 ^ 64 ->
  exists r w' b, drun (db_swap cf start) w = Some (r, w') /\ later (encode_chunk_dir start (start + cf_size cf)) b (d_fs w) (d_fs w') /\
    match r with
    | Ok _ => fstate cf w' ((l0 ++ [(c, A)]) ++ [(the_chunk cf start, [])]) start
    | Err _ => fstate cf w' (l0 ++ [(c, A)]) start /\ w' = set_fs w (d_fs w') /\ b = true
    | Panic => False
    end.
Proof.
  intros (l1 & c1 & A1 & h0 & d & E & D) Hst Hsz Hend. apply app_inj_tail in E. destruct E as [<- E].
  assert (c1 = c) as -> by congruence. assert (A1 = A) as -> by congruence. clear E.
  pose proof D as [H1 H2 H3 H4 H5 H6 H7 H8 H9 H10 H11].
  assert (FR: ~ In (encode_chunk_dir start (start + cf_size cf)) (names (d_fs w))).
  { intros K. destruct (H11 _ K) as (s & en & U1 & U2 & L & E). apply encode_inj in E as [E _]; unfold u64 in *; try lia. }
  destruct (create_any cf start (d_fs w) H10 ltac:(lia) Hsz Hend FR) as (r & f' & b & R & LT & HR).
  assert (ND: forall n, In n (names f') -> exists s en, u64 s /\ u64 en /\ s <= start /\ n = encode_chunk_dir s en).
  { intros n Hn. destruct LT as [_ LN _]. destruct (LN n Hn) as [<-|Hn'].
    - exists start, (start + cf_size cf). unfold u64. repeat split; try lia.
    - destruct (H11 n Hn') as (s & en & U1 & U2 & L & E). exists s, en. repeat split; try assumption; try apply U1; try apply U2. lia. }
  pose proof (weak_later _ _ _ _ LT H10) as EW.
  destruct r as [nd|e|]; [destruct HR as [N2 N3]| |contradiction].
  2:{ unfold drun, db_swap. rewrite run_qbind, run_DF, R. exists (Err e), (set_fs w f'), b. split; [reflexivity|]. split; [exact LT|].
      split; [|split; [reflexivity|exact HR]]. exists l0, c, A, h0, d. split; [reflexivity|].
      constructor; cbn [set_fs d_heap d_cur d_sec d_curl d_secl d_fs]; try assumption. lia. }
  destruct w as [heap cur sec curl secl fs]. cbn [d_heap d_cur d_sec d_curl d_secl d_fs] in *. subst heap cur sec curl secl.
  unfold drun, db_swap. rewrite run_qbind, run_DF. cbn [d_fs]. rewrite R. rewrite run_bind, run_call. dnorm. rewrite run_qbind.
  set (heap := (h0 ++ [d]) ++ [nd]).
  assert (NT: nth_error heap (length h0) = Some d).
  { unfold heap. rewrite nth_error_app1 by (rewrite app_length; cbn; lia). apply nth_last. }
  rewrite (with_current_run _ _ d) by (try exact NT; reflexivity). dnorm.
  do 3 (rewrite run_bind, run_call; dnorm). cbn [run]. dnorm.
  rewrite run_bind, run_call. dnorm. rewrite NT.
  rewrite run_bind. rewrite (run_DC _ _ _ d) by exact NT.
  unfold chunk_close. pose proof (crep_crd _ _ _ H8) as CR. rewrite with_lock_run by apply CR.
  rewrite run_bind, run_call. cbn [chandler run is_panic w_poisoned set_closed set_lock]. cbn [orb].
  do 2 (rewrite run_bind, run_call; dnorm). cbn [run].
  eexists _, _, b. split; [reflexivity|]. split; [exact LT|].
  set (d' := mkDc (dc_chunk d) _ (dc_name d)).
  exists (l0 ++ [(c, A)]), (the_chunk cf start), [], (h0 ++ [d']), nd. split; [reflexivity|].
  assert (HU: upd heap (length h0) d' = (h0 ++ [d']) ++ [nd]).
  { unfold heap. rewrite <- !app_assoc. cbn [app]. clear. induction h0 as [|x h0 IH]; [reflexivity|]. cbn [app length]. rewrite upd_cons. now rewrite IH. }
  constructor; cbn [d_heap d_cur d_sec d_curl d_secl d_fs].
  - exact HU.
  - rewrite !app_length. reflexivity.
  - rewrite app_length. cbn [length]. rewrite seq_app. reflexivity.
  - reflexivity.
  - reflexivity.
  - apply Forall2_app; [assumption|]. constructor; [|constructor]. split; [exact H7|]. apply crd_close. exact CR.
  - exact N2.
  - exact N3.
  - cbn [the_chunk c_start]. lia.
  - exact EW.
  - exact ND.
Qed.
