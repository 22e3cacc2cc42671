(* Proofs: points in sled, index in TiKV. *)
From Coq Require Import ZifyBool ZifyNat Permutation Sorted.
From Verif Require Import Rust StringProofs BitsProofs Prog Gorilla GorillaSpec Storage StorageSpec StorageProofs Labels IndexSpec Indexer
  LabelProofs IndexProofs Chunk ChunkSpec ChunkProofs ChunkFacts Conc Utils DirSpec DirProofs TiKvInit TiKvShared TiKvSpec TiKvProofs
  Db DbSpec MapProofs DbProofs DbHist DbFacts SwapProofs ReopenSpec ReopenProofs RangeSpec RangeProofs TiKvDb TiKvDbSpec TiKvDbRun TiKvDbChunk TiKvDbProofs TiKvDbMain
  MixDb MixSpec MixRun MixEngine.

(** ** the files and the store *)
Definition i_entry (f : fworld) (s : kv) (last : Z) (e : list Z * cdir) : Prop :=
  exists a b o k m ss, fst e = encode_chunk_dir a b /\ u64 a /\ u64 b /\ a <= last /\ snd e = mkCdir (Some (Written o)) (Some ss) None /\
    o_ident o = f_uuid f k /\ (k < f_drawn f)%nat /\ kv_get s (f_uuid f k) = Some (f_uuid f m ++ nil_uuid) /\ (m < f_drawn f)%nat.
Record i_disk (f : fworld) (s : kv) (n : nat) (last : Z) (g : unit) : Prop := mkIDisk {
  id_env : env_ok f;
  id_inj : forall i j, f_uuid f i = f_uuid f j -> i = j;
  id_new : forall m r, (f_drawn f <= m)%nat -> kv_get s (f_uuid f m ++ r) = None;
  id_kind : forall m x r, x <> 0 -> kv_get s (f_uuid f m ++ x :: r) = None;
  id_len : length (f_dirs f) = n;
  id_dirs : Forall (i_entry f s last) (f_dirs f) }.
Definition i_cur (u : nat -> list Z) (n : nat) (s : kv) (m : nat) (d : dchunk) (c : chunk) (A : content) (g : unit) : Prop :=
  (exists lo hi, dc_chunk d = mkChunk SledStorage (TiKvIndexer (u m ++ nil_uuid)) lo hi) /\ (m < n)%nat /\ like (dc_chunk d) c /\ w_ix (dc_world d) = [] /\
  crep (dc_chunk d) (set_ix (dc_world d) s (w_faults (dc_world d))) A.
Definition i_old (u : nat -> list Z) (n : nat) (s : kv) (m : nat) (d : dchunk) (c : chunk) (v : unit -> content) : Prop :=
  exists j tail lo hi A, dc_chunk d = mkChunk SledStorage (TiKvIndexer (u j ++ tail)) lo hi /\ (j < n)%nat /\ j <> m /\ like (dc_chunk d) c /\
    w_ix (dc_world d) = [] /\ w_faults (dc_world d) = [] /\ w_locked (dc_world d) = false /\ w_poisoned (dc_world d) = false /\
    wfc A /\ rep (TiKvIndexer (u j ++ tail)) s (regs A) /\
    (forall id, 1 <= id <= Z.of_nat (length A) -> holds_at SledStorage (w_st (dc_world d)) id (pts_of A id)) /\ (forall g, v g = A).
Definition i_put (c : chunk) (x : content * unit) (ls : list label) (p : tp) : (content * unit) * bool := ((ins c (fst x) (ls, p), tt), true).
Definition i_view (A : content) (g : unit) : content := A.

Lemma i_names f s n last g : i_disk f s n last g -> Forall (fun e => fst e <> metadata_name) (f_dirs f).
Proof.
  intros D. eapply Forall_impl; [|exact (id_dirs _ _ _ _ _ D)]. intros e (a & b & o & k & m & si & E1 & E2 & E3 & _) Q.
  pose proof (metadata_suffix 0) as (x & M). cbn [skipn] in M. rewrite <- Q, E1, decode_encode in M by assumption. discriminate.
Qed.
Lemma i_meta f s n last g m : i_disk f s n last g -> i_disk (set_fmeta f m) s n last g.
Proof. intros []. constructor; assumption. Qed.
Lemma i_tick f s n last g : i_disk f s n last g -> i_disk (tick f) s n last g.
Proof. intros []. constructor; assumption. Qed.
Lemma i_stop f s n last g h : i_disk f s n last g -> Forall (fun _ => True) h -> i_disk (left_behind Sled TiKvDry h f) s n last g.
Proof.
  intros [D1 D2 D3 D4 D5 D6] _. constructor; try assumption.
  - unfold left_behind. cbn [set_dirs f_dirs]. now rewrite map_length.
  - unfold left_behind. cbn [set_dirs f_dirs]. rewrite Forall_forall in *. intros e He. apply in_map_iff in He as (e0 & <- & He).
    destruct (D6 e0 He) as (a & b & o & k & m & ss & E1 & E2 & E3 & E4 & E5 & E6 & E7 & E8 & E9).
    destruct (find _ h) as [d|] eqn:F.
    + exists a, b, o, k, m, (w_st (dc_world d)). cbn [fst snd]. rewrite E5. cbn [cd_meta cd_ix]. do 8 (split; [assumption || reflexivity|]). exact E9.
    + exists a, b, o, k, m, ss. do 8 (split; [assumption|]). exact E9.
Qed.
Lemma i_agree f s s' n last g mc : i_disk f s n last g -> (mc < f_drawn f)%nat ->
  (forall k, ~ xkey (f_uuid f mc ++ nil_uuid) k -> kv_get s' k = kv_get s k) -> i_disk f s' n last g.
Proof.
  intros [D1 D2 D3 D4 D5 D6] Hm K. pose proof D1 as (_ & L & _). constructor; try assumption.
  - intros m r Hd. rewrite K; [now apply D3|]. intros (r' & E). rewrite <- app_assoc in E. apply (uuid_first f) in E as [E _]; [lia|assumption|assumption].
  - intros m x r Hx. rewrite K; [now apply D4|]. intros (r' & E). rewrite <- app_assoc in E. apply (uuid_first f) in E as [_ E]; [|assumption|assumption].
    cbn in E. congruence.
  - eapply Forall_impl; [|exact D6]. intros e (a & b & o & k & m & ss & E1 & E2 & E3 & E4 & E5 & E6 & E7 & E8 & E9).
    exists a, b, o, k, m, ss. do 7 (split; [assumption|]). split; [|assumption]. rewrite K; [assumption|].
    intros (r' & E). apply (f_equal (@length Z)) in E. rewrite !app_length, !L, nil_len in E. lia.
Qed.

(** ** chunks *)
Lemma i_still d lo hi ii : dc_chunk d = mkChunk SledStorage (TiKvIndexer ii) lo hi -> w_ix (dc_world d) = [] -> w_faults (dc_world d) = [] -> still d.
Proof. intros E1 E2 E3. split; [|exact E3]. unfold hollowx. rewrite E1. exact E2. Qed.
Lemma i_free u n s m d c k g : i_cur u n s m d c k g -> like (dc_chunk d) c /\ still d /\ w_locked (dc_world d) = false /\ w_poisoned (dc_world d) = false.
Proof.
  intros ((lo & hi & E) & _ & L & W & [_ _ _ T1 T2 T3 _]). split; [exact L|]. split; [|split; [exact T1|exact T2]]. eapply i_still; [exact E|exact W|exact T3].
Qed.
Lemma i_rep_frame f s s' mc j tail R : env_ok f -> (forall i j, f_uuid f i = f_uuid f j -> i = j) -> j <> mc ->
  (forall k, ~ xkey (f_uuid f mc ++ nil_uuid) k -> kv_get s' k = kv_get s k) ->
  rep (TiKvIndexer (f_uuid f j ++ tail)) s R -> rep (TiKvIndexer (f_uuid f j ++ tail)) s' R.
Proof.
  intros He Hi Hj K. apply rep_agree. intros r. rewrite <- app_assoc. apply K.
  intros (r' & E). rewrite <- app_assoc in E. apply (uuid_first f) in E as [E _]; [congruence|assumption|assumption].
Qed.
Lemma i_insert f s n last g m d c A ls p : i_disk f s n last g -> i_cur (f_uuid f) (f_drawn f) s m d c A g -> set_ok ls -> tp_ok p -> Z.of_nat (length A) + 1 < 2 ^ 64 ->
  exists k' g' ok w' s', i_put c (A, g) ls p = ((k', g'), ok) /\
    run (xchandler (dc_chunk d)) (chunk_insert (dc_chunk d) ls p) (dc_world d, s) = Some (put_res (dc_chunk d) p ok, (w', s')) /\
    i_disk f s' n last g' /\ i_cur (f_uuid f) (f_drawn f) s' m (mkDc (dc_chunk d) w' (dc_name d)) c k' g' /\
    (forall x c v, i_old (f_uuid f) (f_drawn f) s m x c v -> i_old (f_uuid f) (f_drawn f) s' m x c v) /\ (length k' <= S (length A))%nat.
Proof.
  intros D C Hls Hp HL. destruct (i_free _ _ _ _ _ _ _ _ C) as (LK & [Hh Hf] & _ & _). destruct C as ((lo & hi & E) & Hm & _ & W & R).
  assert (HM: hollow_at (dc_chunk d) (dc_world d)) by (unfold hollow_at, hollowx in *; cbn [dc_chunk dc_world]; exact Hh).
  assert (XE: xenter (dc_chunk d) s (dc_world d) = set_ix (dc_world d) s (w_faults (dc_world d))) by (rewrite E; reflexivity).
  assert (INS: exists w1, crun (dc_chunk d) (chunk_insert (dc_chunk d) ls p) (set_ix (dc_world d) s (w_faults (dc_world d))) = Some (put_res (dc_chunk d) p true, w1) /\
    crep (dc_chunk d) w1 (ins c A (ls, p))).
  { pose proof (insert_run _ _ _ ls p R Hls Hp HL) as Q. rewrite <- (like_ins _ _ LK). unfold ins, put_res. cbn [fst snd]. destruct (in_windowb (dc_chunk d) (tp_ts p)).
    - destruct Q as (w1 & Q1 & Q2 & _). exists w1. auto.
    - eexists. split; [exact Q|exact R]. }
  destruct INS as (w1 & E1 & R'). unfold i_put. cbn [fst].
  exists (ins c A (ls, p)), tt, true, (set_ix w1 [] (w_faults w1)), (w_ix w1). split; [reflexivity|]. split.
  { rewrite xchandler_run by assumption. rewrite XE. unfold crun in E1. rewrite E1. unfold xleave. rewrite E. reflexivity. }
  assert (KK: forall k, ~ xkey (f_uuid f m ++ nil_uuid) k -> kv_get (w_ix w1) k = kv_get s k).
  { intros k Hk. destruct (run_uses_st (fun _ => True) (xkey (f_uuid f m ++ nil_uuid)) (dc_chunk d) (chunk_insert (dc_chunk d) ls p) ltac:(rewrite E; apply insert_uses_ix) _ _ _ E1) as [_ Q].
    rewrite Q by assumption. destruct (dc_world d); reflexivity. }
  assert (EW: set_ix (set_ix w1 [] (w_faults w1)) (w_ix w1) (w_faults (set_ix w1 [] (w_faults w1))) = w1) by (now destruct w1).
  split; [destruct g; eapply i_agree; [exact D|exact Hm|exact KK]|]. split; [|split; [|apply ins_length]].
  - split; [exists lo, hi; exact E|]. split; [exact Hm|]. split; [exact LK|]. split; [reflexivity|]. cbn [dc_world dc_chunk]. rewrite EW. exact R'.
  - intros x c0 v (j & tail & lo0 & hi0 & A0 & E0 & F1 & F2 & F3 & F4 & F5 & F6 & F7 & F8 & F9 & F10). exists j, tail, lo0, hi0, A0.
    do 9 (split; [assumption|]). split; [|exact F10]. eapply i_rep_frame; [apply D|apply D|exact F2|exact KK|exact F9].
Qed.

(** ** new chunks *)
Definition i_store (f : fworld) (s : kv) : kv := kv_set s (f_uuid f (f_drawn f)) (f_uuid f (S (f_drawn f)) ++ nil_uuid).
Definition i_files (f : fworld) (start en : Z) : fworld :=
  set_dirs (draw (draw f)) (f_dirs f ++ [(encode_chunk_dir start en, mkCdir (Some (Written (mkOpts start en (f_uuid f (f_drawn f))))) (Some []) None)]).
Lemma init_alone s cid u : kv_get s cid = None -> krun (init_component cid true u) s = (Ok (u ++ nil_uuid), kv_set s cid (u ++ nil_uuid)).
Proof.
  intros G. unfold init_component. rewrite (krun_qbind _ _ s _ s (krun_get _ _)), G. cbn beta iota zeta.
  rewrite low16_app by reflexivity. reflexivity.
Qed.
Lemma i_build cf start t : let f := d_fs (t_db t) in cf_st cf = Sled -> cf_ix cf = TiKvDry ->
  f_faults f = [] -> 0 <= start -> 0 <= cf_size cf -> start + cf_size cf < 2 ^ 64 ->
  ~ In (encode_chunk_dir start (start + cf_size cf)) (map fst (f_dirs f)) -> kv_get (t_kv t) (f_uuid f (f_drawn f)) = None ->
  run xhandler (x_create_chunk cf start) t =
    Some (Ok (mkDc (mkChunk SledStorage (TiKvIndexer (f_uuid f (S (f_drawn f)) ++ nil_uuid)) start (start + cf_size cf)) (new_world [] []) (encode_chunk_dir start (start + cf_size cf))),
          mkT (set_fs (t_db t) (i_files f start (start + cf_size cf))) (i_store f (t_kv t))).
Proof.
  intros f T1 T2 Hf H0 Hsz He Hn G. unfold x_create_chunk. rewrite T1, T2. cbn [x_build_storage x_build_indexer]. rewrite run_bind, run_call. cbn [xhandler ff xdhandler dhandler fhandler]. fold f.
  unfold arith_u, in_u. replace ((0 <=? start + cf_size cf) && (start + cf_size cf <? 2 ^ 64)) with true by lia. cbv zeta.
  set (name := encode_chunk_dir start (start + cf_size cf)) in *. set (o := mkOpts start (start + cf_size cf) (f_uuid f (f_drawn f))).
  rewrite run_bind, xrun_ff. cbn [t_db t_kv set_fs d_fs]. rewrite config_run by assumption.
  set (cd := mkCdir (Some (Written o)) None None).
  set (f1 := set_dirs (draw f) _). assert (L1: last_dir f1 (f_dirs f) name cd) by (repeat split; assumption).
  rewrite run_qbind, xrun_ff. cbn [t_db t_kv set_fs d_fs]. cbn [build_storage]. rewrite run_qbind, run_call. rewrite (fh_openst _ _ _ _ L1).
  cbn [run fst snd]. unfold t_build_indexer.
  rewrite run_qbind, run_qbind, run_qbind, run_call. cbn [xhandler ff xdhandler]. cbn [dhandler]. cbn [t_db t_kv set_fs d_fs].
  match goal with |- context [fhandler _ (FMkDir name) ?g] => assert (L2: last_dir g (f_dirs f) name (mkCdir (Some (Written o)) (Some []) None)) by (repeat split; assumption) end.
  rewrite (fh_mkdir _ _ _ _ L2).
  rewrite run_bind, run_call. cbn [xhandler ff xdhandler dhandler fhandler]. cbn [t_db t_kv set_fs d_fs].
  rewrite run_qbind, xrun_TK. cbn [t_db t_kv o_ident o]. rewrite init_alone by exact G. cbn [fst snd run]. reflexivity.
Qed.
Lemma i_store_get f s key : key <> f_uuid f (f_drawn f) -> kv_get (i_store f s) key = kv_get s key.
Proof. intros H. unfold i_store. cbn [kv_get kv_set]. rewrite bytes_eqb_neq; [reflexivity|congruence]. Qed.
Lemma i_store_own f s : kv_get (i_store f s) (f_uuid f (f_drawn f)) = Some (f_uuid f (S (f_drawn f)) ++ nil_uuid).
Proof. unfold i_store. cbn [kv_get kv_set]. now rewrite bytes_eqb_refl. Qed.
Lemma i_new f s n last g start en : i_disk f s n last g -> last < start -> u64 start -> u64 en -> i_disk (i_files f start en) (i_store f s) (S n) start g.
Proof.
  intros [D1 D2 D3 D4 D5 D6] Hl Us Ue. pose proof D1 as (_ & L & _).
  assert (NE: forall m r, (m <> f_drawn f \/ r <> []) -> f_uuid f m ++ r <> f_uuid f (f_drawn f)).
  { intros m r H E. rewrite <- (app_nil_r (f_uuid f (f_drawn f))) in E. apply (uuid_first f) in E as [E1 E2]; [|assumption|assumption]. tauto. }
  constructor; cbn [i_files set_dirs draw f_uuid f_drawn f_dirs]; try assumption.
  - intros m r Hm. rewrite i_store_get; [apply D3; lia|]. apply NE. left. lia.
  - intros m x r Hx. rewrite i_store_get; [now apply D4|]. apply NE. right. discriminate.
  - rewrite app_length. cbn [length]. lia.
  - apply Forall_app. split.
    + eapply Forall_impl; [|exact D6]. intros e (a & b & o & k & m & ss & E1 & E2 & E3 & E4 & E5 & E6 & E7 & E8 & E9).
      exists a, b, o, k, m, ss. cbn [i_files set_dirs draw f_uuid f_drawn]. do 3 (split; [assumption|]). split; [lia|]. do 2 (split; [assumption|]). split; [lia|]. split; [|lia].
      rewrite i_store_get; [exact E8|]. intros E. apply D2 in E. lia.
    + constructor; [|constructor]. eexists start, en, _, (f_drawn f), (S (f_drawn f)), []. cbn [fst snd o_ident i_files set_dirs draw f_uuid f_drawn].
      do 3 (split; [assumption || reflexivity|]). split; [lia|]. do 2 (split; [reflexivity|]). split; [lia|]. split; [apply i_store_own|lia].
Qed.
Lemma i_fresh f s last start en : Forall (i_entry f s last) (f_dirs f) -> last < start -> u64 start -> u64 en -> ~ In (encode_chunk_dir start en) (map fst (f_dirs f)).
Proof.
  intros F Hl Us Ue K. apply in_map_iff in K as (e & E & Hin). rewrite Forall_forall in F. destruct (F e Hin) as (a & b & o & k & m & si & E1 & E2 & E3 & E4 & _).
  rewrite E1 in E. apply encode_inj in E as [E _]; try assumption. lia.
Qed.
Lemma i_rep_new f s j tail R : env_ok f -> (forall i j, f_uuid f i = f_uuid f j -> i = j) -> (j <> f_drawn f) ->
  rep (TiKvIndexer (f_uuid f j ++ tail)) s R -> rep (TiKvIndexer (f_uuid f j ++ tail)) (i_store f s) R.
Proof.
  intros He Hi Hj. apply rep_agree. intros r. rewrite <- app_assoc. apply i_store_get. intros E. rewrite <- (app_nil_r (f_uuid f (f_drawn f))) in E.
  apply (uuid_first f) in E as [E _]; [lia|assumption|assumption].
Qed.
Lemma i_create cf start db s n last g : let f := d_fs db in i_disk f s n last g -> last < start -> u64 start -> u64 (start + cf_size cf) -> 0 <= cf_size cf ->
  cf_st cf = Sled -> cf_ix cf = TiKvDry ->
  exists d f' s' m', run xhandler (x_create_chunk cf start) (mkT db s) = Some (Ok d, mkT (set_fs db f') s') /\
    i_disk f' s' (S n) start g /\ i_cur (f_uuid f') (f_drawn f') s' m' d (the_chunk cf start) [] g /\
    (forall m x c v, i_old (f_uuid f) (f_drawn f) s m x c v -> i_old (f_uuid f') (f_drawn f') s' m' x c v) /\
    (forall m x c k, i_cur (f_uuid f) (f_drawn f) s m x c k g -> Z.of_nat (length k) < 2 ^ 64 -> i_old (f_uuid f') (f_drawn f') s' m' (shut x) c (i_view k)) /\
    f_ticks f' = f_ticks f /\ same_env f f' /\ f_meta f' = f_meta f.
Proof.
  intros f D Hl Us Ue Hsz T1 T2. pose proof (id_env _ _ _ _ _ D) as He. pose proof He as (_ & L & _ & Hf).
  eexists _, _, _, (S (f_drawn f)). split.
  { apply (i_build cf start (mkT db s)); cbn [t_db t_kv]; try assumption; try (unfold u64 in *; lia).
    - eapply i_fresh; [exact (id_dirs _ _ _ _ _ D)|assumption|assumption|assumption].
    - rewrite <- (app_nil_r (f_uuid _ _)). apply (id_new _ _ _ _ _ D). apply Nat.le_refl. }
  cbn [t_db t_kv]. fold f. split; [apply (i_new f s n last); assumption|]. cbn [i_files set_dirs draw f_uuid f_drawn]. split; [|split; [|split; [|repeat split]]].
  - split; [eexists _, _; reflexivity|]. split; [lia|]. split; [unfold like, the_chunk; rewrite T1; repeat split|]. split; [reflexivity|].
    constructor; cbn [dc_world dc_chunk c_indexer c_storage set_ix new_world w_st w_ix w_next w_locked w_poisoned w_faults]; try reflexivity.
    + apply rep_fresh. intros r. rewrite <- app_assoc. rewrite i_store_get; [apply (id_new _ _ _ _ _ D); apply Nat.le_succ_diag_r|].
      intros E. rewrite <- (app_nil_r (f_uuid f (f_drawn f))) in E. apply (uuid_first f) in E as [E1 E2]; [lia|assumption|apply D].
    + exact (cr_st _ _ _ (crep_new (mkChunk SledStorage SledIndexer 0 0))).
    + exact (cr_wf _ _ _ (crep_new (mkChunk SledStorage SledIndexer 0 0))).
  - intros m x c v (j & tail & lo & hi & A & E0 & F1 & F2 & F3 & F4 & F5 & F6 & F7 & F8 & F9 & F10). exists j, tail, lo, hi, A.
    split; [assumption|]. split; [lia|]. split; [lia|]. do 6 (split; [assumption|]). split; [|exact F10]. apply i_rep_new; [assumption|apply D|lia|exact F9].
  - intros m x c A C Hk. destruct (i_free _ _ _ _ _ _ _ _ C) as (LK & [_ Hff] & W1 & W2). destruct C as ((lo & hi & E) & Hm & _ & W & R).
    assert (RI: rep (TiKvIndexer (f_uuid f m ++ nil_uuid)) s (regs A)) by (pose proof (cr_ix _ _ _ R) as Q; rewrite E in Q; destruct (dc_world x); exact Q).
    assert (RS: holds_series SledStorage (w_st (dc_world x)) (pts_of A)) by (pose proof (cr_st _ _ _ R) as Q; rewrite E in Q; destruct (dc_world x); exact Q).
    exists m, nil_uuid, lo, hi, A. unfold shut. cbn [dc_chunk dc_world]. split; [exact E|]. split; [lia|]. split; [lia|]. split; [exact LK|].
    assert (EW: w_st (set_closed (dc_world x) true) = w_st (dc_world x) /\ w_ix (set_closed (dc_world x) true) = w_ix (dc_world x) /\ w_faults (set_closed (dc_world x) true) = w_faults (dc_world x) /\
      w_locked (set_closed (dc_world x) true) = w_locked (dc_world x) /\ w_poisoned (set_closed (dc_world x) true) = w_poisoned (dc_world x)) by (destruct (dc_world x); repeat split).
    destruct EW as (-> & -> & -> & -> & ->). do 4 (split; [assumption|]). split; [exact (cr_wf _ _ _ R)|]. split; [apply i_rep_new; [assumption|apply D|lia|exact RI]|].
    split; [|reflexivity]. intros id Hid. apply RS. lia.
Qed.

(** ** chunks of earlier processes *)
Lemma wfc_nil : wfc [].
Proof. exact (cr_wf _ _ _ (crep_new (mkChunk SledStorage SledIndexer 0 0))). Qed.
Lemma i_read cf db s n last g name : let f := d_fs db in i_disk f s n last g -> cf_st cf = Sled -> cf_ix cf = TiKvDry ->
  cf_base cf <> [] -> ascii (cf_base cf) -> In name (map fst (f_dirs f)) ->
  exists d A, run xhandler (x_read_entry cf name) (mkT db s) = Some (Ok (Some d), mkT (set_fs db (tick f)) s) /\ blank A /\
    i_old (f_uuid f) (f_drawn f) s (f_drawn f) d (dc_chunk d) (fun _ => A).
Proof.
  intros f D T1 T2 Hb Ha Hin. pose proof (id_env _ _ _ _ _ D) as He. pose proof He as (_ & L & _ & Hf).
  destruct (find_dir_some _ _ Hin) as (cd & F & I). pose proof (id_dirs _ _ _ _ _ D) as DD. rewrite Forall_forall in DD.
  destruct (DD _ I) as (a & b & o & k & m & ss & E1 & E2 & E3 & E4 & E5 & E6 & E7 & E8 & E9). cbn [fst snd] in E1, E5.
  eexists _, []. split; [|split].
  - unfold x_read_entry. rewrite T1, T2. cbn [x_read_storage x_read_indexer]. rewrite extract_exact; [|assumption|rewrite E1; unfold u64 in *; apply hex_plain; lia].
    rewrite surplus_ascii by assumption. change (skipn (Z.to_nat 0) name) with name. rewrite E1 at 1. rewrite decode_encode by assumption.
    rewrite run_qbind, xrun_ff. cbn [t_db t_kv]. fold f. unfold read_config_from_dir. rewrite run_bind, run_call, (fh_readopts f name cd Hf F). rewrite E5 at 1. cbn [cd_meta run].
    rewrite run_bind, run_call. cbn [xhandler ff xdhandler dhandler fhandler t_db t_kv set_fs d_fs].
    rewrite run_qbind, xrun_ff. cbn [t_db t_kv set_fs d_fs]. cbn [read_storage]. rewrite run_qbind, run_call.
    rewrite (fh_openst_old (tick f) name cd ss); [|exact Hf|exact F|rewrite E5; reflexivity]. cbn [run fst snd t_db t_kv set_fs d_fs].
    rewrite run_qbind, run_qbind, xrun_TK. cbn [t_db t_kv]. unfold tikv_indexer_read at 1. rewrite (krun_qbind _ _ _ _ _ (krun_get _ _)), E6, E8. cbn [krun fst snd].
    rewrite low16_app by apply L. cbn [rmap rbind].
    unfold tikv_indexer_read. rewrite (krun_qbind _ _ _ _ _ (krun_get _ _)), E8. cbn [krun fst snd run option_map]. reflexivity.
  - split; [|constructor]. constructor; cbn [snd]; [apply wfc_nil|constructor|cbn; lia].
  - eexists m, [], _, _, []. rewrite app_nil_r. cbn [dc_chunk dc_world]. split; [reflexivity|]. split; [assumption|]. split; [lia|]. split; [repeat split|]. do 4 (split; [reflexivity|]).
    split; [apply wfc_nil|]. split; [apply rep_kind; intros; now apply (id_kind _ _ _ _ _ D)|]. split; [|reflexivity]. intros id Hid. cbn in Hid. lia.
Qed.

(** ** reading *)
Lemma i_read_cur f s n last g m d c k : i_disk f s n last g -> i_cur (f_uuid f) (f_drawn f) s m d c k g -> Z.of_nat (length k) < 2 ^ 64 ->
  crq (dc_chunk d) (xenter (dc_chunk d) s (dc_world d)) (i_view k g).
Proof.
  intros D ((lo & hi & E) & Hm & _ & W & R) Hk.
  assert (XE: xenter (dc_chunk d) s (dc_world d) = set_ix (dc_world d) s (w_faults (dc_world d))) by (rewrite E; reflexivity). rewrite XE. unfold i_view.
  apply crd_crq; [|exact Hk]. destruct R. constructor; assumption.
Qed.
Lemma i_read_old f s n last g m d c v : i_disk f s n last g -> i_old (f_uuid f) (f_drawn f) s m d c v ->
  like (dc_chunk d) c /\ still d /\ crq (dc_chunk d) (xenter (dc_chunk d) s (dc_world d)) (v g).
Proof.
  intros D (j & tail & lo & hi & A & E0 & F1 & F2 & F3 & F4 & F5 & F6 & F7 & F8 & F9 & F10 & F11). split; [exact F3|]. split; [eapply i_still; eassumption|].
  rewrite F11, E0. unfold xenter. cbn [c_storage]. constructor; destruct (dc_world d) as [xs xx xn xc xl xp xf]; cbn [set_ix w_st w_ix w_locked w_poisoned w_faults c_storage c_indexer] in *; assumption.
Qed.

(** ** what it amounts to *)
Lemma i_gputs c ls pts : forall A g, gputs _ _ i_put c (A, g) ls pts = ((fold_left (ins c) (map (pair ls) pts) A, match pts with [] => g | _ => tt end), true).
Proof.
  induction pts as [|p pts IH]; intros A g; [reflexivity|]. cbn [gputs map fold_left]. unfold i_put at 1. cbn [fst]. rewrite IH. cbn [andb]. destruct pts; reflexivity.
Qed.
Lemma i_bops cf ops : forall old start h g, let y := bops _ _ i_put [] cf (mkBins _ _ old (the_chunk cf start) (content_of (the_chunk cf start) h) g) ops in
  bparts _ _ i_view (fst y) = old ++ parts_from cf start h ops /\ snd y = outcomes cf start ops.
Proof.
  induction ops as [|o ops IH]; intros old start h g; cbn [bops].
  - cbn [fst snd parts_from outcomes]. split; [|reflexivity]. unfold bparts, i_view. cbn [bn_old bn_cur bn_k bn_g]. rewrite map_app. f_equal.
    induction old as [|[c A] old I]; [reflexivity|]. cbn [map fst snd]. now rewrite I.
  - destruct o as [ls p|ls pts|st]; cbn [bop bn_cur bn_k bn_g bn_old parts_from outcomes].
    + unfold i_put at 1 3. cbn [fst].
      assert (EC: ins (the_chunk cf start) (content_of (the_chunk cf start) h) (ls, p) = content_of (the_chunk cf start) (h ++ [(ls, p)])) by (unfold content_of; now rewrite fold_left_app). rewrite EC.
      destruct (IH old start (h ++ [(ls, p)]) tt) as [P1 P2]. destruct (bops _ _ i_put [] cf _ ops) as [d' rs]. cbn [fst snd] in *. split; [exact P1|]. rewrite P2. reflexivity.
    + rewrite i_gputs.
      assert (EC: fold_left (ins (the_chunk cf start)) (map (pair ls) pts) (content_of (the_chunk cf start) h) = content_of (the_chunk cf start) (h ++ map (pair ls) pts)) by (unfold content_of; now rewrite fold_left_app). rewrite EC.
      destruct (IH old start (h ++ map (pair ls) pts) (match pts with [] => g | _ => tt end)) as [P1 P2]. destruct (bops _ _ i_put [] cf _ ops) as [d' rs]. cbn [fst snd] in *. split; [exact P1|]. rewrite P2, Bool.orb_false_r. reflexivity.
    + destruct (IH (old ++ [(the_chunk cf start, content_of (the_chunk cf start) h)]) st [] g) as [P1 P2]. change (content_of (the_chunk cf st) []) with (@nil (list label * list tp)) in P1, P2.
      destruct (bops _ _ i_put [] cf _ ops) as [d' rs]. cbn [fst snd] in *. split; [rewrite P1, <- app_assoc; reflexivity|]. rewrite P2. reflexivity.
Qed.
Definition done (y : Z * life) : list (res unit) := outcomes (lf_cf (snd y)) (fst y) (lf_ops (snd y)).
Lemma i_blives clock L : forall tick n g, Forall2 (fun b y => bparts _ _ i_view (fst b) = parts (lf_cf (snd y)) (fst y) (lf_ops (snd y)) /\ snd b = done y)
  (blives _ _ i_put [] clock tick n g L) (begun clock tick n L).
Proof.
  induction L as [|x L IH]; intros tick n g; [constructor|]. cbn [blives begun]. constructor; [|apply IH]. cbn [fst snd]. unfold done. cbn [fst snd].
  exact (i_bops (lf_cf x) (lf_ops x) [] (clock (tick + n)%nat) [] g).
Qed.
Lemma mlives_ops st ix clock L : forall tick n last, mlives_ok st ix clock tick n last L -> Forall (fun y => ops_ok (lf_cf (snd y)) (fst y) (lf_ops (snd y))) (begun clock tick n L).
Proof. induction L as [|x L IH]; intros tick n last H; [constructor|]. cbn [mlives_ok begun] in *. destruct H as (_ & _ & _ & _ & H & H'). constructor; [exact H|]. eapply IH. exact H'. Qed.
Lemma i_first f s : env_ok f -> empty_dir f -> new_uuids f s -> i_disk f s 0 (-1) tt.
Proof.
  intros He [_ Hd] [N1 N2]. constructor; try assumption; [intros; apply N2|intros; apply N2|now rewrite Hd|rewrite Hd; constructor].
Qed.
Theorem index_lives f s L : env_ok f -> empty_dir f -> new_uuids f s -> mlives_ok Sled TiKvDry (f_clock f) (f_ticks f) 0 (-1) L -> L <> [] ->
  exists l y t, begun (f_clock f) (f_ticks f) 0 L = l ++ [y] /\ x_live L f s = Some (map done (l ++ [y]), t) /\
    let P := parts (lf_cf (snd y)) (fst y) (lf_ops (snd y)) in
    forall hs bs o q a b, timely (written (lf_ops (snd y))) -> hasher_ok hs -> bs_contract bs -> Forall lab_ok q -> unmixed hs P q a b ->
      exists r, xrun (t_query hs bs o q a b) t = Some (r, t) /\ comes_to P q a b r.
Proof.
  intros He Hd Hu OK NE.
  destruct (x_lives Sled TiKvDry _ _ i_put [] (@length _) i_view i_disk i_cur i_old (fun _ => True)) with (L := L) (f := f) (s := s) (n := 0%nat) (last := -1) (g := tt)
    as (t & l & b & cf & start & m & E & EB & R & HL).
  all: try (first [exact i_names|exact i_tick|exact i_meta|exact i_stop|exact i_free|exact i_insert|exact i_create|exact i_read|exact i_read_cur|exact i_read_old]).
  all: try assumption; try reflexivity.
  - intros ? ? ? ? ? D. exact (id_env _ _ _ _ _ D).
  - intros ? ? ? ? ? D. exact (id_len _ _ _ _ _ D).
  - intros c [A []] ls p H. unfold i_put, ins. cbn [fst snd]. now rewrite H.
  - now apply i_first.
  - intros cf _ _. left. apply Hd.
  - pose proof (i_blives (f_clock f) L (f_ticks f) 0 tt) as F. rewrite EB in F. apply Forall2_app_inv_l in F as (l' & r' & F1 & F2 & EG).
    inversion F2 as [|b' y r1 r2 [Y1 Y2] F3]; subst. inversion F3; subst. exists l', y, t. split; [exact EG|]. split.
    { rewrite E. do 2 f_equal. rewrite !map_app. cbn [map]. rewrite Y2. f_equal. clear - F1. induction F1 as [|b y l l' [_ H] F IH]; [reflexivity|]. cbn [map]. now rewrite IH, H. }
    cbv zeta. intros hs bs o q a c TM Hh Hbs Hq Hp. rewrite <- Y1 in Hp |- *.
    eapply (x_answer Sled TiKvDry _ _ (@length _) i_view i_disk i_cur i_old); try eassumption.
    + exact i_free.
    + exact i_read_cur.
    + exact i_read_old.
    + change (Forall part_ok (bparts content unit i_view (fst b))). rewrite Y1. apply parts_ok; [|exact TM]. pose proof (mlives_ops _ _ _ _ _ _ _ OK) as MO. rewrite EG in MO. apply Forall_app in MO as [_ MO]. now inversion MO.
Qed.

Theorem index_forgotten f s L cf : env_ok f -> empty_dir f -> new_uuids f s -> mlives_ok Sled TiKvDry (f_clock f) (f_ticks f) 0 (-1) (L ++ [mkLife cf []]) ->
  exists rss t, x_live (L ++ [mkLife cf []]) f s = Some (rss, t) /\
    forall hs bs o q a b, hasher_ok hs -> bs_contract bs -> Forall lab_ok q -> xrun (t_query hs bs o q a b) t = Some (Ok [], t).
Proof.
  intros He Hd Hu OK. destruct (index_lives f s (L ++ [mkLife cf []]) He Hd Hu OK) as (l & y & t & E & R & A); [now destruct L|].
  eexists _, t. split; [exact R|]. intros hs bs o q a b Hh Hb Hq.
  assert (exists l' st, begun (f_clock f) (f_ticks f) 0 (L ++ [mkLife cf []]) = l' ++ [(st, mkLife cf [])]) as (l' & st & EB).
  { generalize (f_ticks f) at 1. generalize 0%nat. induction L as [|x L IH]; intros n k; cbn [app begun]; [eexists [], _; reflexivity|].
    assert (IH': forall n k, exists l' st, begun (f_clock f) k n (L ++ [mkLife cf []]) = l' ++ [(st, mkLife cf [])]).
    { clear. induction L as [|x L IH]; intros n k; cbn [app begun]; [eexists [], _; reflexivity|]. destruct (IH (n + S (swaps (lf_ops x)))%nat (S (k + n))) as (l' & st & ->). eexists (_ :: l'), st. reflexivity. }
    destruct (IH' (n + S (swaps (lf_ops x)))%nat (S (k + n))) as (l' & st & ->). eexists (_ :: l'), st. reflexivity. }
  rewrite E in EB. apply app_inj_tail in EB as [_ ->].
  destruct (A hs bs o q a b) as (r & Q & W); cbn [fst snd lf_ops lf_cf] in *; try assumption; [intros m; constructor|apply nothing_prefix|].
  apply nothing_comes in W. now subst.
Qed.
