(* Proofs about the database: opening, writing and swapping keep the state described by the
   specification. *)
From Coq Require Import ZifyBool ZifyNat Permutation Sorted String.
From Verif Require Import Rust StringProofs Prog Gorilla GorillaSpec BitsProofs Storage StorageSpec StorageProofs Labels IndexSpec Indexer
  LabelProofs IndexProofs Chunk ChunkSpec ChunkProofs ChunkFacts Conc Utils DirSpec DirProofs TiKvInit Db DbSpec MapProofs DbProofs.
Local Notation length := List.length.
Ltac Zify.zify_post_hook ::= Z.div_mod_to_equations.

Lemma upd_upd {A} (l : list A) i x y : (i < length l)%nat -> upd (upd l i x) i y = upd l i y.
Proof.
  revert i. induction l as [|a l IH]; intros [|i] H; cbn [length] in H; try lia; [reflexivity|].
  rewrite !upd_cons. f_equal. apply IH. lia.
Qed.

(** ** files *)
Lemma find_put_none ds n : find_dir ds n = None <-> ~ In n (map fst ds).
Proof.
  induction ds as [|[m d] ds IH]; cbn [find_dir map fst In]; [tauto|]. unfold name_eqb. destruct (bytes_eqb m n) eqn:E.
  - apply bytes_eqb_spec in E. split; [discriminate|]. intros H. exfalso. apply H. now left.
  - rewrite IH. split; intros H; [intros [->|K]; [rewrite bytes_eqb_refl in E; discriminate|contradiction]|tauto].
Qed.
Lemma put_new ds n d : ~ In n (map fst ds) -> put_dir ds n d = ds ++ [(n, d)].
Proof.
  induction ds as [|[m d'] ds IH]; cbn [put_dir map fst In app]; intros H; [reflexivity|]. unfold name_eqb.
  rewrite bytes_eqb_neq by (intros ->; apply H; now left). f_equal. apply IH. tauto.
Qed.
Lemma put_last ds n d d' : ~ In n (map fst ds) -> put_dir (ds ++ [(n, d)]) n d' = ds ++ [(n, d')].
Proof.
  induction ds as [|[m e] ds IH]; cbn [put_dir map fst In app]; intros H; unfold name_eqb.
  - now rewrite bytes_eqb_refl.
  - rewrite bytes_eqb_neq by (intros ->; apply H; now left). f_equal. apply IH. tauto.
Qed.
Lemma find_last ds n d : ~ In n (map fst ds) -> find_dir (ds ++ [(n, d)]) n = Some d.
Proof.
  induction ds as [|[m e] ds IH]; cbn [find_dir map fst In app]; intros H; unfold name_eqb.
  - now rewrite bytes_eqb_refl.
  - rewrite bytes_eqb_neq by (intros ->; apply H; now left). apply IH. tauto.
Qed.

(** ** new chunks *)
Lemma krun_init_storage id u : krun (init_component id false u) [] = (Ok [], [(id, nil_uuid ++ u)]).
Proof. reflexivity. Qed.
Lemma krun_init_indexer id u : krun (init_component id true u) [] = (Ok (u ++ nil_uuid), [(id, u ++ nil_uuid)]).
Proof. reflexivity. Qed.

Lemma kv_one_len k v key : length k <> length key -> kv_get [(k, v)] key = None.
Proof. intros H. cbn [kv_get]. rewrite bytes_eqb_neq; [reflexivity|]. intros ->. contradiction. Qed.

Lemma new_crep st ix s si a b :
  (st = SledStorage /\ s = [] \/ exists k v, st = TiKvStorage [] /\ s = [(k, v)] /\ length k = 16%nat) ->
  (ix = SledIndexer /\ si = [] \/ exists u k v, ix = TiKvIndexer u /\ si = [(k, v)] /\ length k = 16%nat /\ length u = 32%nat) ->
  crep (mkChunk st ix a b) (new_world s si) [].
Proof.
  intros Hs Hi. pose proof (crep_new (mkChunk st ix a b)) as [C1 C2 C3 C4 C5 C6 C7].
  constructor; cbn [c_indexer c_storage w_ix w_st w_next w_locked w_poisoned w_faults new_world] in *; try assumption.
  - destruct Hi as [[-> ->]|(u & k & v & -> & -> & L1 & L2)]; [assumption|].
    destruct C1 as (R1 & R2 & R3).
    assert (K: forall x, length k <> length (u ++ x)) by (intros x; rewrite app_length; lia).
    split; [|split].
    + intros ls Hls. unfold lkey, pfx. rewrite kv_one_len by apply K. exact (R1 ls Hls).
    + intros l Hl. unfold rkey, pfx. rewrite kv_one_len by apply K. exact (R2 l Hl).
    + intros id Hid. unfold ikey, pfx. rewrite kv_one_len by apply K. exact (R3 id Hid).
  - destruct Hs as [[-> ->]|(k & v & -> & -> & L1)]; [assumption|].
    intros id Hid. destruct (C2 id Hid) as [D1 D2]. split; [assumption|].
    cbn [series_key] in *. unfold tikv_series_key in *. cbn [app] in *.
    rewrite kv_one_len by (rewrite length_be_bytes; lia). exact D2.
Qed.

Definition same_env (f g : fworld) : Prop :=
  f_order g = f_order f /\ f_clock g = f_clock f /\ f_uuid g = f_uuid f /\ f_faults g = f_faults f.
Lemma same_env_refl f : same_env f f.
Proof. repeat split. Qed.
Lemma same_env_trans f g h : same_env f g -> same_env g h -> same_env f h.
Proof. intros (A1 & A2 & A3 & A4) (B1 & B2 & B3 & B4). unfold same_env. rewrite B1, B2, B3, B4. auto. Qed.
Lemma same_env_ok f g : same_env f g -> env_ok f -> env_ok g.
Proof. intros (E1 & E2 & E3 & E4) (H1 & H2 & H3 & H4). unfold env_ok. rewrite E1, E2, E3, E4. auto. Qed.


(** commands on the directory added last *)
Lemma run_call {C W A} (h : handler C W) (c : C A) w : run h (call c) w = h A c w.
Proof. unfold call. cbn [run]. destruct (h A c w) as [[x w']|]; reflexivity. Qed.

Lemma no_fault f : f_faults f = [] -> next_fault f = f.
Proof. destruct f. cbn. intros ->. reflexivity. Qed.
Definition last_dir (f : fworld) (ds : list (list Z * cdir)) (name : list Z) (d : cdir) : Prop :=
  f_faults f = [] /\ f_dirs f = ds ++ [(name, d)] /\ ~ In name (map fst ds).
Lemma last_set f ds name d d' : last_dir f ds name d -> last_dir (set_dirs f (ds ++ [(name, d')])) ds name d'.
Proof. intros (H1 & H2 & H3). repeat split; assumption. Qed.
Lemma last_draw f ds name d : last_dir f ds name d -> last_dir (draw f) ds name d.
Proof. intros (H1 & H2 & H3). repeat split; assumption. Qed.

Lemma fh_mkdir_new f name : f_faults f = [] -> ~ In name (map fst (f_dirs f)) ->
  fhandler _ (FMkDir name) f = Some (Ok tt, set_dirs f (f_dirs f ++ [(name, no_dir)])).
Proof.
  intros H1 H2. cbn [fhandler]. rewrite H1. cbn [hd]. rewrite no_fault by assumption.
  rewrite (proj2 (find_put_none _ _) H2), put_new by assumption. reflexivity.
Qed.
Lemma fh_mkdir f ds name d : last_dir f ds name d ->
  fhandler _ (FMkDir name) f = Some (Ok tt, set_dirs f (ds ++ [(name, d)])).
Proof.
  intros (H1 & H2 & H3). cbn [fhandler]. rewrite H1. cbn [hd]. rewrite no_fault by assumption.
  rewrite H2, find_last, put_last by assumption. reflexivity.
Qed.
Lemma fh_create f ds name d : last_dir f ds name d ->
  fhandler _ (FCreateOpts name) f = Some (Ok tt, set_dirs f (ds ++ [(name, mkCdir (Some Empty) (cd_st d) (cd_ix d))])).
Proof.
  intros (H1 & H2 & H3). cbn [fhandler]. rewrite H1. cbn [hd]. rewrite no_fault by assumption.
  rewrite H2, find_last, put_last by assumption. reflexivity.
Qed.
Lemma fh_write f ds name d o : last_dir f ds name d ->
  fhandler _ (FWriteOpts name o) f = Some (Ok tt, set_dirs f (ds ++ [(name, mkCdir (Some (Written o)) (cd_st d) (cd_ix d))])).
Proof.
  intros (H1 & H2 & H3). cbn [fhandler]. rewrite H1. cbn [hd]. rewrite no_fault by assumption.
  rewrite H2, find_last, put_last by assumption. reflexivity.
Qed.
Lemma fh_openst f ds name d : last_dir f ds name d ->
  fhandler _ (FOpenSt name) f = Some (Ok (open_or_new (cd_st d)),
    set_dirs f (ds ++ [(name, mkCdir (cd_meta d) (Some (open_or_new (cd_st d))) (cd_ix d))])).
Proof.
  intros (H1 & H2 & H3). cbn [fhandler]. rewrite H1. cbn [hd]. rewrite no_fault by assumption.
  rewrite H2, find_last, put_last by assumption. reflexivity.
Qed.
Lemma fh_openix f ds name d : last_dir f ds name d ->
  fhandler _ (FOpenIx name) f = Some (Ok (open_or_new (cd_ix d)),
    set_dirs f (ds ++ [(name, mkCdir (cd_meta d) (cd_st d) (Some (open_or_new (cd_ix d))))])).
Proof.
  intros (H1 & H2 & H3). cbn [fhandler]. rewrite H1. cbn [hd]. rewrite no_fault by assumption.
  rewrite H2, find_last, put_last by assumption. reflexivity.
Qed.
Lemma set_set f a b : set_dirs (set_dirs f a) b = set_dirs f b.
Proof. reflexivity. Qed.
Lemma draw_set f a : draw (set_dirs f a) = set_dirs (draw f) a.
Proof. reflexivity. Qed.

Lemma config_run f name o : f_faults f = [] -> ~ In name (map fst (f_dirs f)) ->
  run fhandler (write_config_to_dir name o) f =
    Some (Ok tt, set_dirs f (f_dirs f ++ [(name, mkCdir (Some (Written o)) None None)])).
Proof.
  intros H1 H2. unfold write_config_to_dir. rewrite run_qbind, run_call, fh_mkdir_new by assumption.
  assert (L: last_dir (set_dirs f (f_dirs f ++ [(name, no_dir)])) (f_dirs f) name no_dir) by (repeat split; assumption).
  rewrite run_qbind, run_call, (fh_create _ _ _ _ L). rewrite run_bind, run_call, (fh_write _ _ _ _ _ (last_set _ _ _ _ _ L)).
  reflexivity.
Qed.

(* what the builders leave in the directory *)
Definition built (b : backend) : option kv := match b with Sled => Some [] | TiKvDry => None end.

Lemma storage_run f ds name d o b : last_dir f ds name d -> cd_st d = None -> (forall n, length (f_uuid f n) = 16%nat) ->
  length (o_ident o) = 16%nat ->
  exists st s f', run fhandler (build_storage b name o) f = Some (Ok (st, s), f') /\
    (b = Sled /\ st = SledStorage /\ s = [] \/ b = TiKvDry /\ st = TiKvStorage [] /\ exists k v, s = [(k, v)] /\ length k = 16%nat) /\
    last_dir f' ds name (mkCdir (cd_meta d) (built b) (cd_ix d)) /\
    f_meta f' = f_meta f /\ f_ticks f' = f_ticks f /\ same_env f f'.
Proof.
  intros L Hd Hu Ho. destruct b; cbn [build_storage built].
  - eexists _, _, _. rewrite run_qbind, run_call, (fh_openst _ _ _ _ L), Hd. split; [reflexivity|].
    split; [left; repeat split|]. split; [eapply last_set; exact L|]. unfold same_env. repeat split.
  - eexists _, _, _. rewrite run_qbind, run_call, (fh_mkdir _ _ _ _ L). rewrite run_bind, run_call. cbn [fhandler].
    rewrite krun_init_storage. cbn [rmap run]. split; [reflexivity|].
    split; [right; split; [reflexivity|]; split; [reflexivity|]; eexists _, _; split; [reflexivity|exact Ho]|].
    split; [|unfold same_env; repeat split]. rewrite draw_set. rewrite <- Hd. destruct d. apply last_set with (d := mkCdir cd_meta cd_st cd_ix).
    now apply last_draw.
Qed.
Lemma indexer_run f ds name d o b : last_dir f ds name d -> cd_ix d = None -> (forall n, length (f_uuid f n) = 16%nat) ->
  length (o_ident o) = 16%nat ->
  exists ix s f', run fhandler (build_indexer b name o) f = Some (Ok (ix, s), f') /\
    (b = Sled /\ ix = SledIndexer /\ s = [] \/
     b = TiKvDry /\ exists u k v, ix = TiKvIndexer u /\ s = [(k, v)] /\ length k = 16%nat /\ length u = 32%nat) /\
    last_dir f' ds name (mkCdir (cd_meta d) (cd_st d) (built b)) /\
    f_meta f' = f_meta f /\ f_ticks f' = f_ticks f /\ same_env f f'.
Proof.
  intros L Hd Hu Ho. destruct b; cbn [build_indexer built].
  - eexists _, _, _. rewrite run_qbind, run_call, (fh_openix _ _ _ _ L), Hd. split; [reflexivity|].
    split; [left; repeat split|]. split; [eapply last_set; exact L|]. unfold same_env. repeat split.
  - eexists _, _, _. rewrite run_qbind, run_call, (fh_mkdir _ _ _ _ L). rewrite run_bind, run_call. cbn [fhandler].
    rewrite krun_init_indexer. cbn [rmap run]. split; [reflexivity|].
    split; [right; split; [reflexivity|]; eexists _, _, _; split; [reflexivity|]; split; [reflexivity|]; split; [exact Ho|];
            rewrite app_length; cbn [f_uuid set_dirs]; rewrite Hu; reflexivity|].
    split; [|unfold same_env; repeat split]. rewrite draw_set. rewrite <- Hd. destruct d. apply last_set with (d := mkCdir cd_meta cd_st cd_ix).
    now apply last_draw.
Qed.

(* the window may also be turned round: see Wide.v *)
Lemma create_at cf start f : env_ok f -> 0 <= start + cf_size cf < 2 ^ 64 ->
  ~ In (encode_chunk_dir start (start + cf_size cf)) (map fst (f_dirs f)) ->
  exists d f' o, run fhandler (create_chunk cf start) f = Some (Ok d, f') /\
    dc_name d = encode_chunk_dir start (start + cf_size cf) /\
    like (dc_chunk d) (the_chunk cf start) /\ crep (dc_chunk d) (dc_world d) [] /\ (w_closed (dc_world d) = false /\ (cf_st cf = Sled -> w_st (dc_world d) = [])) /\
    f_dirs f' = f_dirs f ++ [(dc_name d, mkCdir (Some (Written o)) (built (cf_st cf)) (built (cf_ix cf)))] /\
    (cf_st cf = Sled -> c_storage (dc_chunk d) = SledStorage) /\
    (cf_ix cf = Sled -> c_indexer (dc_chunk d) = SledIndexer) /\
    f_meta f' = f_meta f /\ f_ticks f' = f_ticks f /\ same_env f f'.
Proof.
  intros (Hord & Huid & Hclk & Hflt) Hend Hn.
  unfold create_chunk. rewrite run_bind, run_call. cbn [fhandler].
  unfold arith_u, in_u. replace ((0 <=? start + cf_size cf) && (start + cf_size cf <? 2 ^ 64)) with true by lia.
  cbv zeta. set (name := encode_chunk_dir start (start + cf_size cf)) in *.
  set (o := mkOpts start (start + cf_size cf) (f_uuid f (f_drawn f))).
  assert (Ho: length (o_ident o) = 16%nat) by apply Huid.
  rewrite run_bind, config_run by assumption.
  set (f1 := set_dirs (draw f) _).
  assert (L1: last_dir f1 (f_dirs f) name (mkCdir (Some (Written o)) None None)) by (repeat split; assumption).
  destruct (storage_run f1 _ _ _ o (cf_st cf) L1 eq_refl Huid Ho) as (st & s & f2 & R2 & C2 & L2 & M2 & T2 & E2).
  rewrite run_qbind, R2. cbn [cd_meta cd_ix] in L2.
  assert (Hu2: forall n, length (f_uuid f2 n) = 16%nat) by (intros n; destruct E2 as (_ & _ & -> & _); apply Huid).
  destruct (indexer_run f2 _ _ _ o (cf_ix cf) L2 eq_refl Hu2 Ho) as (ix & si & f3 & R3 & C3 & L3 & M3 & T3 & E3).
  rewrite run_qbind, R3. cbn [cd_meta cd_st] in L3. cbn [run fst snd].
  eexists _, f3, o. split; [reflexivity|]. cbn [dc_name dc_chunk dc_world new_world w_closed c_storage c_indexer].
  split; [reflexivity|]. split.
  { unfold like, the_chunk. cbn [c_storage c_start c_end]. destruct C2 as [(-> & -> & _)|(-> & -> & _)]; repeat split. }
  split. { apply new_crep.
    - destruct C2 as [(_ & -> & ->)|(_ & -> & k & v & -> & K)]; [left; split; reflexivity|right; eauto].
    - destruct C3 as [(_ & -> & ->)|(_ & u & k & v & -> & -> & K1 & K2)]; [left; split; reflexivity|right; eauto 8]. }
  split. { split; [reflexivity|]. intros Q. destruct C2 as [(_ & _ & ->)|(Q' & _)]; [reflexivity|congruence]. }
  split; [apply L3|]. split.
  { intros Q. destruct C2 as [(_ & -> & _)|(Q' & _)]; [reflexivity|congruence]. }
  split. { intros Q. destruct C3 as [(_ & -> & _)|(Q' & _)]; [reflexivity|congruence]. }
  split; [rewrite M3, M2; reflexivity|]. split; [rewrite T3, T2; reflexivity|].
  destruct E2 as (A1 & A2 & A3 & A4), E3 as (B1 & B2 & B3 & B4). unfold same_env. rewrite B1, B2, B3, B4, A1, A2, A3, A4. repeat split.
Qed.
Lemma create_run cf start f : env_ok f -> 0 <= start -> 0 <= cf_size cf -> start + cf_size cf < 2 ^ 64 ->
  ~ In (encode_chunk_dir start (start + cf_size cf)) (map fst (f_dirs f)) ->
  exists d f' o, run fhandler (create_chunk cf start) f = Some (Ok d, f') /\
    dc_name d = encode_chunk_dir start (start + cf_size cf) /\
    like (dc_chunk d) (the_chunk cf start) /\ crep (dc_chunk d) (dc_world d) [] /\ (w_closed (dc_world d) = false /\ (cf_st cf = Sled -> w_st (dc_world d) = [])) /\
    f_dirs f' = f_dirs f ++ [(dc_name d, mkCdir (Some (Written o)) (built (cf_st cf)) (built (cf_ix cf)))] /\
    (cf_st cf = Sled -> c_storage (dc_chunk d) = SledStorage) /\
    (cf_ix cf = Sled -> c_indexer (dc_chunk d) = SledIndexer) /\
    f_meta f' = f_meta f /\ f_ticks f' = f_ticks f /\ same_env f f'.
Proof. intros He H0 Hsz Hend. apply create_at; [assumption|lia]. Qed.

(** ** the state of a running database *)
Definition dir_ok (cf : config) (e : list Z * cdir) (d : dchunk) : Prop :=
  fst e = dc_name d /\ (exists o st ix, snd e = mkCdir (Some (Written o)) st ix) /\
  u64 (c_start (dc_chunk d)) /\
  (exists en, u64 en /\ dc_name d = encode_chunk_dir (c_start (dc_chunk d)) en /\ c_end (dc_chunk d) <= en) /\
  (cf_st cf = Sled -> c_storage (dc_chunk d) = SledStorage) /\
  (cf_ix cf = Sled -> c_indexer (dc_chunk d) = SledIndexer).

Record drep (cf : config) (w : dworld) (l0 : list part) (c : chunk) (A : content) (h0 : list dchunk) (d : dchunk) : Prop := mkDrep {
  dr_heap : d_heap w = h0 ++ [d];
  dr_cur : d_cur w = length h0;
  dr_sec : d_sec w = seq 0 (length h0);
  dr_curl : d_curl w = free_lock;
  dr_secl : d_secl w = free_lock;
  dr_old : hrel h0 l0;
  dr_like : like (dc_chunk d) c;
  dr_crep : crep (dc_chunk d) (dc_world d) A;
  dr_env : env_ok (d_fs w);
  dr_meta : f_meta (d_fs w) = Some (Written (own_meta cf));
  dr_dirs : Forall2 (dir_ok cf) (f_dirs (d_fs w)) (h0 ++ [d]);
  dr_sorted : StronglySorted Z.lt (map (fun x => c_start (dc_chunk x)) (h0 ++ [d])) }.
Definition state (cf : config) (w : dworld) (l : list part) : Prop :=
  exists l0 c A h0 d, l = l0 ++ [(c, A)] /\ drep cf w l0 c A h0 d.

Lemma hrel_length h l : hrel h l -> length h = length l.
Proof. induction 1; cbn [length]; lia. Qed.

Lemma state_quiet cf w l : state cf w l -> quiet w l.
Proof.
  intros (l0 & c & A & h0 & d & -> & [H1 H2 H3 H4 H5 H6 H7 H8 _ _ _ _]).
  pose proof (hrel_length _ _ H6) as L. constructor; try assumption.
  - rewrite H1. apply Forall2_app; [assumption|]. constructor; [|constructor]. split; [exact H7|]. now apply crep_crd.
  - rewrite H2, app_length, L. symmetry. apply Nat.add_1_r.
  - now rewrite H3, H2.
Qed.

Lemma nth_last {T} (l : list T) x : nth_error (l ++ [x]) (length l) = Some x.
Proof. rewrite nth_error_app2 by lia. now rewrite Nat.sub_diag. Qed.
Lemma upd_last {T} (l : list T) x y : upd (l ++ [x]) (length l) y = l ++ [y].
Proof. induction l as [|a l IH]; [reflexivity|]. cbn [app length]. rewrite upd_cons. now rewrite IH. Qed.

(** ** writing *)
Lemma with_current_run {T} (body : nat -> chunk -> prog dcmd (res T)) w d :
  d_curl w = free_lock -> nth_error (d_heap w) (d_cur w) = Some d ->
  run dhandler (with_current body) w =
  match run dhandler (body (d_cur w) (dc_chunk d)) (set_curl w (mkRw 1 false false)) with
  | Some (r, w') => Some (r, set_curl w' (rw_unread (d_curl w')))
  | None => None
  end.
Proof.
  intros H1 H2. unfold with_current. rewrite run_bind, run_call. cbn [dhandler]. rewrite H1, H2. cbn [rw_read free_lock rw_writer rw_poisoned rw_readers].
  rewrite run_bind. destruct (run dhandler (body _ _) _) as [[r w']|]; reflexivity.
Qed.

(* an insert that is let through but refused *)
Definition refused (ch : chunk) (p : tp) : bool := batch_passes ch p && negb (in_windowb ch (tp_ts p)).

Lemma write_all_run i ls pts : set_ok ls -> Forall tp_ok pts -> forall w d A, nth_error (d_heap w) i = Some d ->
  crep (dc_chunk d) (dc_world d) A -> 0 <= c_start (dc_chunk d) -> Z.of_nat (length A + length pts) < 2 ^ 64 ->
  exists cw, run dhandler (write_all i (dc_chunk d) ls pts) w =
      Some (Ok (existsb (refused (dc_chunk d)) pts), set_heap w (upd (d_heap w) i (mkDc (dc_chunk d) cw (dc_name d)))) /\
    crep (dc_chunk d) cw (fold_left (ins (dc_chunk d)) (map (pair ls) pts) A) /\ w_closed cw = w_closed (dc_world d).
Proof.
  intros Hls Hp. induction Hp as [|p pts Hp _ IH]; intros w d A Hn HA H0 HL.
  - exists (dc_world d). split; [|split; [exact HA|reflexivity]]. cbn [write_all run existsb].
    assert (mkDc (dc_chunk d) (dc_world d) (dc_name d) = d) as -> by now destruct d. rewrite upd_self by assumption. now destruct w.
  - cbn [length] in HL. cbn [write_all existsb map fold_left]. unfold ins at 2. cbn [fst snd]. unfold refused at 1.
    pose proof (insert_run (dc_chunk d) (dc_world d) A ls p HA Hls Hp ltac:(lia)) as I.
    destruct (in_windowb (dc_chunk d) (tp_ts p)) eqn:W.
    + assert (B: batch_passes (dc_chunk d) p = true) by (unfold batch_passes; unfold in_windowb in W; lia). rewrite B.
      destruct I as (cw & E & R & C). rewrite run_bind, (run_DC _ _ _ d) by assumption. unfold crun in E. rewrite E.
      assert (Hi: (i < length (d_heap w))%nat) by (apply nth_error_Some; congruence).
      destruct (IH (set_heap w (upd (d_heap w) i (mkDc (dc_chunk d) cw (dc_name d)))) (mkDc (dc_chunk d) cw (dc_name d))
                   (add_point (c_storage (dc_chunk d)) A ls p)) as (cw' & E' & R' & C').
      * cbn [d_heap set_heap]. rewrite nth_upd by assumption. now rewrite Nat.eqb_refl.
      * exact R.
      * exact H0.
      * pose proof (add_length (c_storage (dc_chunk d)) A ls p). lia.
      * cbn [dc_chunk dc_name dc_world] in *. exists cw'. rewrite E'. cbn [d_heap set_heap andb negb orb]. rewrite upd_upd by assumption.
        split; [reflexivity|]. split; [exact R'|]. congruence.
    + destruct (batch_passes (dc_chunk d) p) eqn:B.
      * rewrite run_bind, (run_DC _ _ _ d) by assumption. unfold crun in I. rewrite I.
        assert (mkDc (dc_chunk d) (dc_world d) (dc_name d) = d) as -> by now destruct d. rewrite upd_self by assumption.
        assert (set_heap w (d_heap w) = w) as -> by now destruct w.
        destruct (IH w d A Hn HA H0 ltac:(lia)) as (cw & E & R & C). exists cw. rewrite run_qbind, E. cbn [run andb negb orb]. auto.
      * cbn [andb orb]. apply IH; [assumption|assumption|assumption|lia].
Qed.

Lemma drep_write cf w l0 c A h0 d cw A' : drep cf w l0 c A h0 d -> crep (dc_chunk d) cw A' ->
  drep cf (set_heap w (h0 ++ [mkDc (dc_chunk d) cw (dc_name d)])) l0 c A' h0 (mkDc (dc_chunk d) cw (dc_name d)).
Proof.
  intros [H1 H2 H3 H4 H5 H6 H7 H8 H9 H10 H11 H12] R. constructor; cbn [set_heap d_heap d_cur d_sec d_curl d_secl d_fs dc_chunk dc_world]; try assumption.
  - reflexivity.
  - apply Forall2_app_inv_r in H11. destruct H11 as (e1 & e2 & F1 & F2 & ->). apply Forall2_app; [assumption|].
    inversion F2 as [|e ? e2' ? F3 F4]; subst. inversion F4; subst. constructor; [|constructor]. exact F3.
  - rewrite map_app in *. exact H12.
Qed.

Lemma like_window a b : like a b -> in_windowb a = in_windowb b.
Proof. intros (_ & E1 & E2). unfold in_windowb. now rewrite E1, E2. Qed.
Lemma like_ins a b : like a b -> forall A r, ins a A r = ins b A r.
Proof. intros H A r. unfold ins. rewrite (like_window a b H). destruct H as (-> & _). reflexivity. Qed.
Lemma fold_ins_ext a b : like a b -> forall h A, fold_left (ins a) h A = fold_left (ins b) h A.
Proof. intros H h. induction h as [|r h IH]; intros A; [reflexivity|]. cbn [fold_left]. now rewrite IH, (like_ins a b H). Qed.
Lemma like_refused a b : like a b -> forall p, refused a p = refused b p.
Proof. intros (_ & E1 & E2) p. unfold refused, batch_passes, in_windowb. now rewrite E1, E2. Qed.

Lemma point_run cf w l0 c A ls p : state cf w (l0 ++ [(c, A)]) -> set_ok ls -> tp_ok p -> Z.of_nat (length A) + 1 < 2 ^ 64 ->
  exists w', drun (db_write_point ls p) w =
      Some (if in_windowb c (tp_ts p) then Ok tt else Err (OutOfRangeErr (c_start c) (c_end c)), w') /\
    state cf w' (l0 ++ [(c, ins c A (ls, p))]) /\ (in_windowb c (tp_ts p) = false -> w' = w) /\ d_fs w' = d_fs w.
Proof.
  intros (l1 & c1 & A1 & h0 & d & E & D) Hls Hp HL. apply app_inj_tail in E. destruct E as [<- E].
  assert (c1 = c) as -> by congruence. assert (A1 = A) as -> by congruence. clear E.
  pose proof D as [H1 H2 H3 H4 H5 H6 H7 H8 H9 H10 H11 H12].
  assert (N: nth_error (d_heap w) (d_cur w) = Some d) by (rewrite H1, H2; apply nth_last).
  unfold drun, db_write_point. rewrite (with_current_run _ w d) by assumption.
  rewrite (run_DC _ _ _ d) by exact N. cbn [set_curl d_heap].
  pose proof (insert_run (dc_chunk d) (dc_world d) A ls p H8 Hls Hp HL) as I. unfold crun in I. unfold ins. cbn [fst snd].
  rewrite <- (like_window _ _ H7). destruct H7 as (E1 & E2 & E3). rewrite <- E1, <- E2, <- E3.
  destruct (in_windowb (dc_chunk d) (tp_ts p)).
  - destruct I as (cw & -> & R & C). cbn [set_heap d_curl set_curl rw_unread rw_readers rw_writer rw_poisoned pred].
    eexists. split; [reflexivity|]. split; [|split; [discriminate|reflexivity]]. eexists l0, c, _, h0, (mkDc (dc_chunk d) cw (dc_name d)). split; [reflexivity|].
    pose proof (drep_write _ _ _ _ _ _ _ _ _ D R) as D'.
    replace (set_curl _ _) with (set_heap w (h0 ++ [mkDc (dc_chunk d) cw (dc_name d)])); [exact D'|].
    cbn [d_heap set_curl]. rewrite H1, H2, upd_last. clear - H4. destruct w; cbn in *. subst. reflexivity.
  - rewrite I. assert (mkDc (dc_chunk d) (dc_world d) (dc_name d) = d) as -> by now destruct d. rewrite upd_self by assumption.
    assert (X: set_curl (set_heap (set_curl w (mkRw 1 false false)) (d_heap w)) (rw_unread (d_curl (set_heap (set_curl w (mkRw 1 false false)) (d_heap w)))) = w).
    { destruct w; cbn in *. subst. reflexivity. }
    eexists. split; [reflexivity|]. rewrite X. split; [|split; reflexivity]. exists l0, c, A, h0, d. auto.
Qed.

Lemma batch_run cf w l0 c A ls pts : state cf w (l0 ++ [(c, A)]) -> set_ok ls -> Forall tp_ok pts ->
  Z.of_nat (length A + length pts) < 2 ^ 64 ->
  exists w', drun (db_write_points ls pts) w =
      Some (if existsb (refused c) pts then Err InternalErr else Ok tt, w') /\
    state cf w' (l0 ++ [(c, fold_left (ins c) (map (pair ls) pts) A)]) /\ d_fs w' = d_fs w.
Proof.
  intros (l1 & c1 & A1 & h0 & d & E & D) Hls Hp HL. apply app_inj_tail in E. destruct E as [<- E].
  assert (c1 = c) as -> by congruence. assert (A1 = A) as -> by congruence. clear E.
  pose proof D as [H1 H2 H3 H4 H5 H6 H7 H8 H9 H10 H11 H12].
  assert (N: nth_error (d_heap w) (d_cur w) = Some d) by (rewrite H1, H2; apply nth_last).
  assert (P: 0 <= c_start (dc_chunk d)).
  { apply Forall2_app_inv_r in H11. destruct H11 as (e1 & e2 & _ & F2 & _). inversion F2 as [|e ? ? ? F3 F4]; subst.
    destruct F3 as (_ & _ & U & _). unfold u64 in U. lia. }
  unfold drun, db_write_points. rewrite (with_current_run _ w d) by assumption. rewrite run_qbind.
  destruct (write_all_run (d_cur w) ls pts Hls Hp (set_curl w (mkRw 1 false false)) d A N H8 P HL) as (cw & -> & R & C).
  rewrite (fold_ins_ext _ _ H7) in R.
  assert (EX: existsb (refused (dc_chunk d)) pts = existsb (refused c) pts).
  { clear - H7. induction pts as [|p pts IH]; [reflexivity|]. cbn [existsb]. now rewrite IH, (like_refused _ _ H7). }
  rewrite EX. cbn [run].
  eexists. split; [reflexivity|]. split; [|reflexivity]. eexists l0, c, _, h0, (mkDc (dc_chunk d) cw (dc_name d)). split; [reflexivity|].
  pose proof (drep_write _ _ _ _ _ _ _ _ _ D R) as D'.
  replace (set_curl _ _) with (set_heap w (h0 ++ [mkDc (dc_chunk d) cw (dc_name d)])); [exact D'|].
  cbn [d_heap set_curl]. rewrite H1, H2, upd_last. clear - H4. destruct w; cbn in *. subst. reflexivity.
Qed.

(** ** swapping *)
Lemma sorted_last l x : StronglySorted Z.lt (l ++ [x]) -> forall y, In y l -> y < x.
Proof.
  induction l as [|a l IH]; intros H y Hy; [contradiction|]. cbn [app] in H. inversion H as [|? ? H1 H2]; subst.
  destruct Hy as [<-|Hy]; [|now apply IH]. rewrite Forall_forall in H2. apply H2. apply in_or_app. right. now left.
Qed.
Lemma sorted_snoc l x : StronglySorted Z.lt l -> (forall y, In y l -> y < x) -> StronglySorted Z.lt (l ++ [x]).
Proof.
  induction 1 as [|a l H IH F]; intros Hx; [repeat constructor|]. cbn [app]. constructor.
  - apply IH. intros y Hy. apply Hx. now right.
  - apply Forall_app. split; [assumption|]. constructor; [|constructor]. apply Hx. now left.
Qed.
Lemma sorted_nodup l : StronglySorted Z.lt l -> NoDup l.
Proof.
  induction 1 as [|a l H IH F]; constructor; [|assumption]. intros K. rewrite Forall_forall in F. apply F in K. lia.
Qed.

Lemma fresh_name cf ds hs start en : Forall2 (dir_ok cf) ds hs -> u64 start -> u64 en ->
  (forall d, In d hs -> c_start (dc_chunk d) <> start) ->
  ~ In (encode_chunk_dir start en) (map fst ds).
Proof.
  intros H Hs He Hn K. apply in_map_iff in K as (e & E & Hin).
  assert (exists d, In d hs /\ dir_ok cf e d) as (d & Hd & (E1 & _ & Us & (en' & Ue & E2 & _) & _)).
  { clear - H Hin. induction H as [|x y ds hs H1 H2 IH]; [contradiction|]. destruct Hin as [<-|Hin]; [exists y; split; [now left|assumption]|].
    destruct (IH Hin) as (d & ? & ?). exists d. split; [now right|assumption]. }
  rewrite E1, E2 in E. apply encode_inj in E as [E _]; try assumption. now apply (Hn d Hd).
Qed.

Lemma crd_close ch w A : crd ch w A -> crd ch (set_lock (set_closed (set_lock w true false) true) false false) A.
Proof. intros [H1 H2 H3 H4 H5 H6]. constructor; cbn; try assumption; reflexivity. Qed.

Ltac dnorm :=
  cbn [dhandler]; cbv [set_heap set_fs set_curl set_secl set_cur set_sec free_lock rw_read rw_write rw_unread rw_unwrite];
  cbn [d_heap d_cur d_sec d_curl d_secl d_fs rw_readers rw_writer rw_poisoned pred Nat.eqb negb orb].
(* the new chunk has an empty point store, the others keep theirs *)
Definition swapped (cf : config) (w w' : dworld) : Prop := exists h0 d d' nd, d_heap w = h0 ++ [d] /\ d_heap w' = (h0 ++ [d']) ++ [nd] /\
  dc_chunk d' = dc_chunk d /\ w_st (dc_world d') = w_st (dc_world d) /\ (cf_st cf = Sled -> w_st (dc_world nd) = []).
Lemma swap_at cf w l0 c A start : state cf w (l0 ++ [(c, A)]) -> c_start c < start -> start < 2 ^ 64 -> 0 <= start + cf_size cf < 2 ^ 64 ->
  exists w', drun (db_swap cf start) w = Some (Ok tt, w') /\ state cf w' ((l0 ++ [(c, A)]) ++ [(the_chunk cf start, [])]) /\
    f_ticks (d_fs w') = f_ticks (d_fs w) /\ same_env (d_fs w) (d_fs w') /\ swapped cf w w'.
Proof.
  intros (l1 & c1 & A1 & h0 & d & E & D) Hst Hsz Hend. apply app_inj_tail in E. destruct E as [<- E].
  assert (c1 = c) as -> by congruence. assert (A1 = A) as -> by congruence. clear E.
  pose proof D as [H1 H2 H3 H4 H5 H6 H7 H8 H9 H10 H11 H12].
  assert (U: forall x, In x (h0 ++ [d]) -> 0 <= c_start (dc_chunk x) /\ c_start (dc_chunk x) < start).
  { intros x Hx. destruct H7 as (_ & E2 & _). split.
    - clear - H11 Hx. revert Hx. induction H11 as [|e y ds hs K1 K2 IH]; [contradiction|]. intros [<-|Hx]; [|now apply IH].
      destruct K1 as (_ & _ & U & _). unfold u64 in U. lia.
    - rewrite map_app in H12. cbn [map] in H12. apply in_app_or in Hx as [Hx|[<-|[]]]; [|lia].
      pose proof (sorted_last _ _ H12 (c_start (dc_chunk x))) as L. rewrite in_map_iff in L. specialize (L ltac:(eauto)). lia. }
  assert (S0: 0 <= start) by (pose proof (U d ltac:(apply in_or_app; right; now left)); lia).
  assert (FR: ~ In (encode_chunk_dir start (start + cf_size cf)) (map fst (f_dirs (d_fs w)))).
  { apply (fresh_name cf _ (h0 ++ [d])); [assumption|unfold u64; lia|unfold u64; lia|]. intros x Hx. pose proof (U x Hx). lia. }
  destruct (create_at cf start (d_fs w) H9 Hend FR) as (nd & f' & o & R & N1 & N2 & N3 & N4 & N5 & N6 & N7 & N8 & N9 & N10).
  destruct w as [heap cur sec curl secl fs]. cbn [d_heap d_cur d_sec d_curl d_secl d_fs] in *. subst heap cur sec curl secl.
  unfold drun, db_swap. rewrite run_qbind, run_DF. cbn [d_fs]. rewrite R. rewrite run_bind, run_call. dnorm. rewrite run_qbind.
  set (heap := (h0 ++ [d]) ++ [nd]).
  assert (NT: nth_error heap (length h0) = Some d).
  { unfold heap. rewrite nth_error_app1 by (rewrite app_length; cbn; lia). apply nth_last. }
  rewrite (with_current_run _ _ d) by (try exact NT; reflexivity). dnorm.
  do 3 (rewrite run_bind, run_call; dnorm). cbn [run]. dnorm.
  rewrite run_bind, run_call. dnorm. rewrite NT.
  rewrite run_bind. rewrite (run_DC _ _ _ d) by exact NT.
  unfold chunk_close. pose proof (crep_crd _ _ _ H8) as CR. rewrite with_lock_run by apply CR.
  rewrite run_bind, run_call. cbn [chandler run is_panic w_poisoned set_closed set_lock]. cbn [orb].
  do 2 (rewrite run_bind, run_call; dnorm). cbn [run].
  eexists. split; [reflexivity|].
  set (d' := mkDc (dc_chunk d) _ (dc_name d)).
  assert (HU: upd heap (length h0) d' = (h0 ++ [d']) ++ [nd]).
  { unfold heap. rewrite <- !app_assoc. cbn [app]. clear. induction h0 as [|x h0 IH]; [reflexivity|]. cbn [app length]. rewrite upd_cons. now rewrite IH. }
  split; [|split; [exact N9|split; [exact N10|]]]; [|exists h0, d, d', nd; cbn [d_heap]; split; [reflexivity|split; [exact HU|split; [reflexivity|split; [reflexivity|apply N4]]]]].
  exists (l0 ++ [(c, A)]), (the_chunk cf start), [], (h0 ++ [d']), nd. split; [reflexivity|].
  constructor; cbn [d_heap d_cur d_sec d_curl d_secl d_fs].
  - exact HU.
  - rewrite !app_length. reflexivity.
  - rewrite app_length. cbn [length]. rewrite seq_app. reflexivity.
  - reflexivity.
  - reflexivity.
  - apply Forall2_app; [assumption|]. constructor; [|constructor]. split; [exact H7|]. apply crd_close. exact CR.
  - exact N2.
  - exact N3.
  - eapply same_env_ok; [exact N10|assumption].
  - now rewrite N8.
  - rewrite N5. apply Forall2_app.
    + apply Forall2_app_inv_r in H11. destruct H11 as (e1 & e2 & F1 & F2 & ->). apply Forall2_app; [assumption|].
      inversion F2 as [|e ? e2' ? F3 F4]; subst. inversion F4; subst. constructor; [|constructor]. exact F3.
    + constructor; [|constructor]. destruct N2 as (_ & Es & Ee). cbn [the_chunk c_start c_end] in Es, Ee. unfold dir_ok. cbn [fst snd]. rewrite Es, Ee.
      split; [reflexivity|]. split; [eauto|]. split; [unfold u64; lia|]. split; [|split; [exact N6|exact N7]]. exists (start + cf_size cf). split; [unfold u64; lia|]. split; [exact N1|lia].
  - assert (ES: c_start (dc_chunk nd) = start) by (destruct N2 as (_ & Es & _); exact Es).
    rewrite map_app. cbn [map]. rewrite ES. apply sorted_snoc.
    + rewrite map_app in *. exact H12.
    + intros y Hy. apply in_map_iff in Hy as (x & <- & Hx). apply in_app_or in Hx as [Hx|[<-|[]]].
      * apply U. apply in_or_app. now left.
      * cbn [dc_chunk d']. apply (U d). apply in_or_app. right. now left.
Qed.
Lemma swap_run cf w l0 c A start : state cf w (l0 ++ [(c, A)]) -> c_start c < start -> 0 <= cf_size cf -> start + cf_size cf < 2 ^ 64 ->
  exists w', drun (db_swap cf start) w = Some (Ok tt, w') /\ state cf w' ((l0 ++ [(c, A)]) ++ [(the_chunk cf start, [])]) /\
    f_ticks (d_fs w') = f_ticks (d_fs w) /\ same_env (d_fs w) (d_fs w') /\ swapped cf w w'.
Proof.
  intros HS Hst Hsz Hend. apply swap_at; [assumption|assumption|lia|]. split; [|assumption].
  destruct HS as (l1 & c1 & A1 & h0 & d & E & D). apply app_inj_tail in E. destruct E as [_ E]. assert (c = c1) as -> by congruence.
  destruct (dr_like _ _ _ _ _ _ _ D) as (_ & L & _). pose proof (dr_dirs _ _ _ _ _ _ _ D) as F.
  apply Forall2_app_inv_r in F. destruct F as (e1 & e2 & _ & F2 & _). inversion F2 as [|e ? ? ? F3 F4]; subst.
  destruct F3 as (_ & _ & U & _). unfold u64 in U. lia.
Qed.

(** ** opening an empty directory *)
Lemma metadata_suffix k : exists e, decode_chunk_dir (skipn k metadata_name) = Err e.
Proof.
  destruct (Nat.le_gt_cases 14 k) as [H|H].
  - rewrite skipn_all2 by (change (length metadata_name) with 13%nat; lia). eexists. vm_compute. reflexivity.
  - do 14 (destruct k as [|k]; [eexists; vm_compute; reflexivity|]). lia.
Qed.
Lemma metadata_plain : plain_name metadata_name.
Proof. unfold plain_name. vm_compute. intuition discriminate. Qed.
Lemma metadata_entry cf f : cf_base cf <> [] -> run fhandler (read_entry cf metadata_name) f = Some (Ok None, f).
Proof.
  intros H. unfold read_entry. rewrite extract_exact by (try assumption; apply metadata_plain).
  destruct (metadata_suffix (Z.to_nat (surplus (cf_base cf)))) as (e & ->). reflexivity.
Qed.

Definition starts_empty (cf : config) (w : dworld) : Prop := exists h nd, d_heap w = h ++ [nd] /\ (cf_st cf = Sled -> w_st (dc_world nd) = []).
Lemma open_at cf f : env_ok f -> empty_dir f -> cf_base cf <> [] -> 0 <= f_clock f (f_ticks f) + cf_size cf < 2 ^ 64 ->
  exists w, db_open cf f = Some (Ok tt, w) /\ state cf w [(the_chunk cf (f_clock f (f_ticks f)), [])] /\
    f_ticks (d_fs w) = S (f_ticks f) /\ same_env f (d_fs w) /\ starts_empty cf w.
Proof.
  intros He (M & DD) Hb Hend. pose proof He as (Hord & Huid & Hclk & Hflt).
  unfold db_open, db_new. rewrite run_qbind. unfold read_or_create_metadata at 1. rewrite run_bind, run_call. cbn [fhandler].
  rewrite Hflt. cbn [hd]. rewrite no_fault by assumption. rewrite M.
  rewrite run_qbind, run_call. cbn [fhandler]. rewrite Hflt. cbn [hd]. rewrite no_fault by assumption.
  rewrite run_qbind, run_call. cbn [fhandler]. change (f_faults (set_fmeta f (Some Empty))) with (f_faults f). rewrite Hflt. cbn [hd]. rewrite no_fault by assumption.
  set (f1 := set_fmeta f (Some (Written (own_meta cf)))).
  change (set_fmeta (set_fmeta f (Some Empty)) (Some (Written (own_meta cf)))) with f1. cbn [run].
  rewrite run_qbind. unfold read_existing_chunk. rewrite run_qbind, run_call. cbn [fhandler].
  assert (FF: f_faults f1 = []) by assumption. rewrite FF. cbn [hd]. rewrite no_fault by assumption.
  assert (EN: f_order f1 (entries f1) = [metadata_name]).
  { unfold entries. change (f_dirs f1) with (f_dirs f). change (f_meta f1) with (Some (Written (own_meta cf))). rewrite DD. cbn [map app].
    apply Permutation_length_1_inv. symmetry. apply Hord. }
  rewrite EN. rewrite run_qbind. cbn [forM]. rewrite run_qbind, metadata_entry by assumption. rewrite run_qbind. cbn [run somes sort_chunks fold_right].
  rewrite run_bind, run_call. cbn [fhandler]. change (f_clock f1 (f_ticks f1)) with (f_clock f (f_ticks f)).
  set (now := f_clock f (f_ticks f)) in *. assert (Hnow: u64 now) by apply Hclk. unfold u64 in Hnow.
  assert (E1: env_ok (tick f1)) by exact He.
  destruct (create_at cf now (tick f1) E1) as (nd & f' & o & R & N1 & N2 & N3 & N4 & N5 & N6 & N7 & N8 & N9 & N10); try lia.
  { change (f_dirs (tick f1)) with (f_dirs f). rewrite DD. cbn. tauto. }
  rewrite run_qbind, R. cbn [run]. eexists. split; [reflexivity|]. split; [|split; [exact N9|split; [exact N10|exists [], nd; split; [reflexivity|apply N4]]]].
  exists [], (the_chunk cf now), [], [], nd. split; [reflexivity|]. unfold opened. cbn [fst snd].
  constructor; cbn [d_heap d_cur d_sec d_curl d_secl d_fs]; try reflexivity.
  - constructor.
  - exact N2.
  - exact N3.
  - eapply same_env_ok; [exact N10|assumption].
  - now rewrite N8.
  - rewrite N5. change (f_dirs (tick f1)) with (f_dirs f). rewrite DD. cbn [app]. constructor; [|constructor].
    destruct N2 as (_ & Es & Ee). cbn [the_chunk c_start c_end] in Es, Ee. unfold dir_ok. cbn [fst snd]. rewrite Es, Ee.
    split; [reflexivity|]. split; [eauto|]. split; [exact Hnow|]. split; [|split; [exact N6|exact N7]]. exists (now + cf_size cf). split; [unfold u64; lia|]. split; [exact N1|lia].
  - cbn. repeat constructor.
Qed.
Lemma open_run cf f : env_ok f -> empty_dir f -> cf_base cf <> [] -> 0 <= cf_size cf -> f_clock f (f_ticks f) + cf_size cf < 2 ^ 64 ->
  exists w, db_open cf f = Some (Ok tt, w) /\ state cf w [(the_chunk cf (f_clock f (f_ticks f)), [])] /\
    f_ticks (d_fs w) = S (f_ticks f) /\ same_env f (d_fs w) /\ starts_empty cf w.
Proof.
  intros He Hd Hb Hsz Hend. apply open_at; try assumption. destruct He as (_ & _ & Hc & _). pose proof (Hc (f_ticks f)) as U. unfold u64 in U. lia.
Qed.
