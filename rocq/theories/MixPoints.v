(* Proofs: points in TiKV, index in sled. *)
From Coq Require Import ZifyBool ZifyNat Permutation Sorted.
From Verif Require Import Rust StringProofs BitsProofs Prog Gorilla GorillaSpec Storage StorageSpec StorageProofs Labels IndexSpec Indexer
  LabelProofs IndexProofs Chunk ChunkSpec ChunkProofs ChunkFacts Conc Utils DirSpec DirProofs TiKvInit TiKvShared TiKvSpec TiKvProofs
  Db DbSpec MapProofs DbProofs DbHist DbFacts SwapProofs ReopenSpec ReopenProofs RangeSpec RangeProofs TiKvDb TiKvDbSpec TiKvDbRun TiKvDbChunk TiKvDbProofs TiKvDbMain
  MixDb MixSpec MixRun MixEngine.

(** ** the files and the store *)
Definition kept_ix (si : kv) : Prop := exists ks, distinct ks /\ Z.of_nat (length ks) < 2 ^ 64 /\ rep SledIndexer si (kregs ks).
Definition p_entry (f : fworld) (s : kv) (last : Z) (e : list Z * cdir) : Prop :=
  exists a b o k m si, fst e = encode_chunk_dir a b /\ u64 a /\ u64 b /\ a <= last /\ snd e = mkCdir (Some (Written o)) None (Some si) /\
    o_ident o = f_uuid f k /\ (k < f_drawn f)%nat /\ kv_get s (f_uuid f k) = Some (nil_uuid ++ f_uuid f m) /\ kept_ix si.
Record p_disk (f : fworld) (s : kv) (n : nat) (last : Z) (T : table) : Prop := mkPDisk {
  pd_env : env_ok f;
  pd_inj : forall i j, f_uuid f i = f_uuid f j -> i = j;
  pd_new : forall m, (f_drawn f <= m)%nat -> kv_get s (f_uuid f m) = None;
  pd_kind : forall m x r, kv_get s (f_uuid f m ++ x :: r) = None;
  pd_len : length (f_dirs f) = n;
  pd_dirs : Forall (p_entry f s last) (f_dirs f);
  pd_st : holds_series (TiKvStorage []) s T;
  pd_inc : forall i, increasing (T i) }.
Definition p_cur (u : nat -> list Z) (n : nat) (s : kv) (m : nat) (d : dchunk) (c : chunk) (ks : list (list label)) (T : table) : Prop :=
  (exists lo hi, dc_chunk d = mkChunk (TiKvStorage []) SledIndexer lo hi) /\ like (dc_chunk d) c /\ w_st (dc_world d) = [] /\
  trepi SledIndexer (set_st (dc_world d) s (w_faults (dc_world d))) ks T.
Definition p_old (u : nat -> list Z) (n : nat) (s : kv) (m : nat) (d : dchunk) (c : chunk) (v : table -> content) : Prop :=
  exists si lo hi ks, dc_chunk d = mkChunk (TiKvStorage si) SledIndexer lo hi /\ like (dc_chunk d) c /\
    w_st (dc_world d) = [] /\ w_faults (dc_world d) = [] /\ w_locked (dc_world d) = false /\ w_poisoned (dc_world d) = false /\
    distinct ks /\ Z.of_nat (length ks) < 2 ^ 64 /\ rep SledIndexer (w_ix (dc_world d)) (kregs ks) /\
    (si = [] /\ (forall T, v T = seen 1 ks T) \/ (exists j, si = u j) /\ (forall T, v T = seen 1 ks no_table)).
Definition p_keep (d : dchunk) : Prop := kept_ix (w_ix (dc_world d)).

Lemma p_names f s n last T : p_disk f s n last T -> Forall (fun e => fst e <> metadata_name) (f_dirs f).
Proof.
  intros D. eapply Forall_impl; [|exact (pd_dirs _ _ _ _ _ D)]. intros e (a & b & o & k & m & si & E1 & E2 & E3 & _) Q.
  pose proof (metadata_suffix 0) as (x & M). cbn [skipn] in M. rewrite <- Q, E1, decode_encode in M by assumption. discriminate.
Qed.
Lemma p_meta f s n last T m : p_disk f s n last T -> p_disk (set_fmeta f m) s n last T.
Proof. intros []. constructor; assumption. Qed.
Lemma p_tick f s n last T : p_disk f s n last T -> p_disk (tick f) s n last T.
Proof. intros []. constructor; assumption. Qed.
Lemma p_stop f s n last T h : p_disk f s n last T -> Forall p_keep h -> p_disk (left_behind TiKvDry Sled h f) s n last T.
Proof.
  intros [D1 D2 D3 D4 D5 D6 D7 D8] H. constructor; try assumption.
  - unfold left_behind. cbn [set_dirs f_dirs]. now rewrite map_length.
  - unfold left_behind. cbn [set_dirs f_dirs]. rewrite Forall_forall in *. intros e He. apply in_map_iff in He as (e0 & <- & He).
    destruct (D6 e0 He) as (a & b & o & k & m & si & E1 & E2 & E3 & E4 & E5 & E6 & E7 & E8 & E9).
    destruct (find _ h) as [d|] eqn:F.
    + apply find_some in F as [F _]. exists a, b, o, k, m, (w_ix (dc_world d)). cbn [fst snd]. rewrite E5. cbn [cd_meta cd_st]. do 8 (split; [assumption || reflexivity|]). exact (H d F).
    + exists a, b, o, k, m, si. do 8 (split; [assumption|]). exact E9.
Qed.
Lemma p_agree f s s' n last T T' : p_disk f s n last T -> (forall k, length k <> 8%nat -> kv_get s' k = kv_get s k) ->
  holds_series (TiKvStorage []) s' T' -> (forall i, increasing (T' i)) -> p_disk f s' n last T'.
Proof.
  intros [D1 D2 D3 D4 D5 D6 D7 D8] K H1 H2. pose proof D1 as (_ & L & _). constructor; try assumption.
  - intros m Hm. rewrite K; [now apply D3|rewrite L; lia].
  - intros m x r. rewrite K; [now apply D4|rewrite app_length, L; lia].
  - eapply Forall_impl; [|exact D6]. intros e (a & b & o & k & m & si & E1 & E2 & E3 & E4 & E5 & E6 & E7 & E8 & E9).
    exists a, b, o, k, m, si. do 7 (split; [assumption|]). split; [|exact E9]. rewrite K; [assumption|rewrite L; lia].
Qed.

(** ** chunks *)
Lemma p_still d lo hi si : dc_chunk d = mkChunk (TiKvStorage si) SledIndexer lo hi -> w_st (dc_world d) = [] -> w_faults (dc_world d) = [] -> still d.
Proof. intros E1 E2 E3. split; [|exact E3]. unfold hollowx. rewrite E1. exact E2. Qed.
Lemma p_free u n s m d c k T : p_cur u n s m d c k T -> like (dc_chunk d) c /\ still d /\ w_locked (dc_world d) = false /\ w_poisoned (dc_world d) = false.
Proof.
  intros ((lo & hi & E) & L & W & [_ _ _ _ T1 T2 T3 _]). split; [exact L|]. split; [|split; [exact T1|exact T2]]. eapply p_still; [exact E|exact W|exact T3].
Qed.
Lemma p_insert f s n last T m d c ks ls p : p_disk f s n last T -> p_cur (f_uuid f) (f_drawn f) s m d c ks T -> set_ok ls -> tp_ok p -> Z.of_nat (length ks) + 1 < 2 ^ 64 ->
  exists k' g' ok w' s', put c (ks, T) ls p = ((k', g'), ok) /\
    run (xchandler (dc_chunk d)) (chunk_insert (dc_chunk d) ls p) (dc_world d, s) = Some (put_res (dc_chunk d) p ok, (w', s')) /\
    p_disk f s' n last g' /\ p_cur (f_uuid f) (f_drawn f) s' m (mkDc (dc_chunk d) w' (dc_name d)) c k' g' /\
    (forall x c v, p_old (f_uuid f) (f_drawn f) s m x c v -> p_old (f_uuid f) (f_drawn f) s' m x c v) /\ (length k' <= S (length ks))%nat.
Proof.
  intros D C Hls Hp HL. destruct (p_free _ _ _ _ _ _ _ _ C) as (LK & [Hh Hf] & _ & _). destruct C as ((lo & hi & E) & _ & W & R).
  assert (Hm: hollow_at (dc_chunk d) (dc_world d)) by (unfold hollow_at, hollowx in *; cbn [dc_chunk dc_world]; exact Hh).
  destruct (insert_trepi SledIndexer lo hi _ ks T ls p R Hls Hp HL) as (k' & g' & ok & w1 & P & E1 & R' & CC & LE).
  rewrite <- E in P, E1. rewrite (put_like _ _ _ _ _ LK) in P.
  assert (XE: xenter (dc_chunk d) s (dc_world d) = set_st (dc_world d) s (w_faults (dc_world d))) by (rewrite E; reflexivity).
  exists k', g', ok, (set_st w1 [] (w_faults w1)), (w_st w1). split; [exact P|]. split.
  { rewrite xchandler_run by assumption. rewrite XE. unfold crun in E1. rewrite E1. unfold xleave. rewrite E. reflexivity. }
  assert (KK: forall k, length k <> 8%nat -> kv_get (w_st w1) k = kv_get s k).
  { intros k Hk. destruct (run_uses_st (pkey []) (fun _ => True) (dc_chunk d) (chunk_insert (dc_chunk d) ls p) ltac:(rewrite E; apply insert_uses_st) _ _ _ E1) as [Q _].
    rewrite Q; [destruct (dc_world d); reflexivity|]. intros (id & ->). apply Hk. cbn [app]. apply length_be_bytes. }
  assert (EW: set_st (set_st w1 [] (w_faults w1)) (w_st w1) (w_faults (set_st w1 [] (w_faults w1))) = w1) by (now destruct w1).
  split; [eapply p_agree; [exact D|exact KK|apply R'|apply R']|]. split; [|split; [auto|exact LE]].
  split; [exists lo, hi; exact E|]. split; [exact LK|]. split; [reflexivity|]. cbn [dc_world]. rewrite EW. exact R'.
Qed.

(** ** new chunks *)
Definition p_store (f : fworld) (s : kv) : kv := kv_set s (f_uuid f (f_drawn f)) (nil_uuid ++ f_uuid f (S (f_drawn f))).
Definition p_files (f : fworld) (start en : Z) : fworld :=
  set_dirs (draw (draw f)) (f_dirs f ++ [(encode_chunk_dir start en, mkCdir (Some (Written (mkOpts start en (f_uuid f (f_drawn f))))) None (Some []))]).
Lemma p_build cf start t : let f := d_fs (t_db t) in cf_st cf = TiKvDry -> cf_ix cf = Sled ->
  f_faults f = [] -> 0 <= start -> 0 <= cf_size cf -> start + cf_size cf < 2 ^ 64 ->
  ~ In (encode_chunk_dir start (start + cf_size cf)) (map fst (f_dirs f)) -> kv_get (t_kv t) (f_uuid f (f_drawn f)) = None ->
  run xhandler (x_create_chunk cf start) t =
    Some (Ok (mkDc (mkChunk (TiKvStorage []) SledIndexer start (start + cf_size cf)) (new_world [] []) (encode_chunk_dir start (start + cf_size cf))),
          mkT (set_fs (t_db t) (p_files f start (start + cf_size cf))) (p_store f (t_kv t))).
Proof.
  intros f T1 T2 Hf H0 Hsz He Hn G. unfold x_create_chunk. rewrite T1, T2. cbn [x_build_storage x_build_indexer]. rewrite run_bind, run_call. cbn [xhandler ff xdhandler dhandler fhandler]. fold f.
  unfold arith_u, in_u. replace ((0 <=? start + cf_size cf) && (start + cf_size cf <? 2 ^ 64)) with true by lia. cbv zeta.
  set (name := encode_chunk_dir start (start + cf_size cf)) in *. set (o := mkOpts start (start + cf_size cf) (f_uuid f (f_drawn f))).
  rewrite run_bind, xrun_ff. cbn [t_db t_kv set_fs d_fs]. rewrite config_run by assumption.
  set (cd := mkCdir (Some (Written o)) None None).
  set (f1 := set_dirs (draw f) _). assert (L1: last_dir f1 (f_dirs f) name cd) by (repeat split; assumption).
  rewrite run_qbind. unfold t_build_storage. rewrite run_qbind, run_qbind, run_call. cbn [xhandler ff xdhandler]. cbn [dhandler]. cbn [t_db t_kv set_fs d_fs]. rewrite (fh_mkdir _ _ _ _ L1).
  rewrite run_bind, run_call. cbn [xhandler ff xdhandler dhandler fhandler]. cbn [t_db t_kv set_fs d_fs].
  rewrite run_qbind, xrun_TK. cbn [t_db t_kv o_ident o]. rewrite init_st by exact G. cbn [fst snd run].
  rewrite run_qbind, xrun_ff. cbn [t_db t_kv set_fs d_fs]. cbn [build_indexer]. rewrite run_qbind, run_call.
  assert (L2: last_dir (draw (set_dirs f1 (f_dirs f ++ [(name, cd)]))) (f_dirs f) name cd) by (repeat split; assumption). rewrite (fh_openix _ _ _ _ L2).
  cbn [run fst snd]. reflexivity.
Qed.
Lemma p_store_get f s key : key <> f_uuid f (f_drawn f) -> kv_get (p_store f s) key = kv_get s key.
Proof. intros H. unfold p_store. cbn [kv_get kv_set]. rewrite bytes_eqb_neq; [reflexivity|congruence]. Qed.
Lemma p_store_own f s : kv_get (p_store f s) (f_uuid f (f_drawn f)) = Some (nil_uuid ++ f_uuid f (S (f_drawn f))).
Proof. unfold p_store. cbn [kv_get kv_set]. now rewrite bytes_eqb_refl. Qed.
Lemma p_points f s T : env_ok f -> holds_series (TiKvStorage []) s T -> holds_series (TiKvStorage []) (p_store f s) T.
Proof.
  intros (_ & L & _) H. eapply holds_agree; [|exact H]. intros id _. apply p_store_get. cbn [app]. intros E. apply (f_equal (@length Z)) in E. rewrite length_be_bytes, L in E. lia.
Qed.
Lemma kept_nil : kept_ix [].
Proof. exists []. split; [apply distinct_nil|]. split; [cbn; lia|]. apply rep_empty. Qed.
Lemma p_new f s n last T start en : p_disk f s n last T -> last < start -> u64 start -> u64 en -> p_disk (p_files f start en) (p_store f s) (S n) start T.
Proof.
  intros [D1 D2 D3 D4 D5 D6 D7 D8] Hl Us Ue. pose proof D1 as (_ & L & _).
  constructor; cbn [p_files set_dirs draw f_uuid f_drawn f_dirs]; try assumption.
  - intros m Hm. rewrite p_store_get; [apply D3; lia|]. intros E. apply D2 in E. lia.
  - intros m x r. rewrite p_store_get; [now apply D4|]. intros E. apply (f_equal (@length Z)) in E. rewrite app_length, !L in E. cbn [length] in E. lia.
  - rewrite app_length. cbn [length]. lia.
  - apply Forall_app. split.
    + eapply Forall_impl; [|exact D6]. intros e (a & b & o & k & m & si & E1 & E2 & E3 & E4 & E5 & E6 & E7 & E8 & E9).
      exists a, b, o, k, m, si. cbn [p_files set_dirs draw f_uuid f_drawn]. do 3 (split; [assumption|]). split; [lia|]. do 2 (split; [assumption|]). split; [lia|]. split; [|exact E9].
      rewrite p_store_get; [exact E8|]. intros E. apply D2 in E. lia.
    + constructor; [|constructor]. eexists start, en, _, (f_drawn f), (S (f_drawn f)), []. cbn [fst snd o_ident p_files set_dirs draw f_uuid f_drawn].
      do 3 (split; [assumption || reflexivity|]). split; [lia|]. do 2 (split; [reflexivity|]). split; [lia|]. split; [apply p_store_own|apply kept_nil].
  - now apply p_points.
Qed.
Lemma p_fresh f s last start en : Forall (p_entry f s last) (f_dirs f) -> last < start -> u64 start -> u64 en -> ~ In (encode_chunk_dir start en) (map fst (f_dirs f)).
Proof.
  intros F Hl Us Ue K. apply in_map_iff in K as (e & E & Hin). rewrite Forall_forall in F. destruct (F e Hin) as (a & b & o & k & m & si & E1 & E2 & E3 & E4 & _).
  rewrite E1 in E. apply encode_inj in E as [E _]; try assumption. lia.
Qed.
Lemma p_create cf start db s n last T : let f := d_fs db in p_disk f s n last T -> last < start -> u64 start -> u64 (start + cf_size cf) -> 0 <= cf_size cf ->
  cf_st cf = TiKvDry -> cf_ix cf = Sled ->
  exists d f' s' m', run xhandler (x_create_chunk cf start) (mkT db s) = Some (Ok d, mkT (set_fs db f') s') /\
    p_disk f' s' (S n) start T /\ p_cur (f_uuid f') (f_drawn f') s' m' d (the_chunk cf start) [] T /\
    (forall m x c v, p_old (f_uuid f) (f_drawn f) s m x c v -> p_old (f_uuid f') (f_drawn f') s' m' x c v) /\
    (forall m x c k, p_cur (f_uuid f) (f_drawn f) s m x c k T -> Z.of_nat (length k) < 2 ^ 64 -> p_old (f_uuid f') (f_drawn f') s' m' (shut x) c (seen 1 k)) /\
    f_ticks f' = f_ticks f /\ same_env f f' /\ f_meta f' = f_meta f.
Proof.
  intros f D Hl Us Ue Hsz T1 T2. pose proof (pd_env _ _ _ _ _ D) as He. pose proof He as (_ & L & _ & Hf).
  eexists _, _, _, 0%nat. split.
  { apply (p_build cf start (mkT db s)); cbn [t_db t_kv]; try assumption; try (unfold u64 in *; lia).
    - eapply p_fresh; [exact (pd_dirs _ _ _ _ _ D)|assumption|assumption|assumption].
    - apply (pd_new _ _ _ _ _ D). apply Nat.le_refl. }
  cbn [t_db t_kv]. fold f. split; [apply (p_new f s n last); assumption|]. split; [|split; [|split; [|repeat split]]].
  - split; [eexists _, _; reflexivity|]. split; [unfold like, the_chunk; rewrite T1; repeat split|]. split; [reflexivity|].
    constructor; cbn [dc_world set_st new_world w_st w_ix w_next w_locked w_poisoned w_faults]; try reflexivity.
    + apply rep_empty.
    + apply p_points; [assumption|apply D].
    + apply D.
    + apply distinct_nil.
  - intros m x c v H. exact H.
  - intros m x c k C Hk. destruct (p_free _ _ _ _ _ _ _ _ C) as (LK & [_ Hff] & W1 & W2). destruct C as ((lo & hi & E) & _ & W & [R1 R2 R3 R4 R5 R6 R7 R8]).
    exists [], lo, hi, k. unfold shut. cbn [dc_chunk dc_world]. split; [exact E|]. split; [exact LK|].
    assert (EW: w_st (set_closed (dc_world x) true) = w_st (dc_world x) /\ w_ix (set_closed (dc_world x) true) = w_ix (dc_world x) /\ w_faults (set_closed (dc_world x) true) = w_faults (dc_world x) /\
      w_locked (set_closed (dc_world x) true) = w_locked (dc_world x) /\ w_poisoned (set_closed (dc_world x) true) = w_poisoned (dc_world x)) by (destruct (dc_world x); repeat split).
    destruct EW as (-> & -> & -> & -> & ->). do 4 (split; [assumption|]). split; [exact R8|]. split; [exact Hk|].
    split; [destruct (dc_world x); exact R1|]. left. split; reflexivity.
Qed.

(** ** chunks of earlier processes *)
Lemma p_read cf db s n last T name : let f := d_fs db in p_disk f s n last T -> cf_st cf = TiKvDry -> cf_ix cf = Sled ->
  cf_base cf <> [] -> ascii (cf_base cf) -> In name (map fst (f_dirs f)) ->
  exists d A, run xhandler (x_read_entry cf name) (mkT db s) = Some (Ok (Some d), mkT (set_fs db (tick f)) s) /\ blank A /\
    p_old (f_uuid f) (f_drawn f) s (f_drawn f) d (dc_chunk d) (fun _ => A).
Proof.
  intros f D T1 T2 Hb Ha Hin. pose proof (pd_env _ _ _ _ _ D) as He. pose proof He as (_ & L & _ & Hf).
  destruct (find_dir_some _ _ Hin) as (cd & F & I). pose proof (pd_dirs _ _ _ _ _ D) as DD. rewrite Forall_forall in DD.
  destruct (DD _ I) as (a & b & o & k & m & si & E1 & E2 & E3 & E4 & E5 & E6 & E7 & E8 & (ks & K1 & K2 & K3)). cbn [fst snd] in E1, E5.
  eexists _, (seen 1 ks no_table). split; [|split].
  - unfold x_read_entry. rewrite T1, T2. cbn [x_read_storage x_read_indexer]. rewrite extract_exact; [|assumption|rewrite E1; unfold u64 in *; apply hex_plain; lia].
    rewrite surplus_ascii by assumption. change (skipn (Z.to_nat 0) name) with name. rewrite E1 at 1. rewrite decode_encode by assumption.
    rewrite run_qbind, xrun_ff. cbn [t_db t_kv]. fold f. unfold read_config_from_dir. rewrite run_bind, run_call, (fh_readopts f name cd Hf F). rewrite E5 at 1. cbn [cd_meta run].
    rewrite run_bind, run_call. cbn [xhandler ff xdhandler dhandler fhandler t_db t_kv set_fs d_fs].
    rewrite run_qbind, run_qbind, xrun_TK. cbn [t_db t_kv]. unfold tikv_storage_read at 1. rewrite (krun_qbind _ _ _ _ _ (krun_get _ _)), E6, E8. cbn [krun fst snd].
    rewrite high16_app by reflexivity. cbn [rmap rbind].
    unfold tikv_storage_read. rewrite (krun_qbind _ _ _ _ _ (krun_get _ _)), E8. cbn [krun fst snd run option_map].
    rewrite run_qbind, xrun_ff. cbn [t_db t_kv set_fs d_fs]. cbn [read_indexer]. rewrite run_qbind, run_call.
    rewrite (fh_openix_old (tick f) name cd si); [|exact Hf|exact F|rewrite E5; reflexivity]. cbn [run fst snd]. reflexivity.
  - split; [|].
    + constructor; cbn [snd]; [exact K1| |rewrite seen_length; exact K2]. apply seen_increasing. intros i. constructor.
    + clear. generalize 1. induction ks as [|x ks IH]; intros z; cbn [seen]; constructor; [reflexivity|apply IH].
  - eexists _, _, _, ks. cbn [dc_chunk dc_world]. split; [reflexivity|]. split; [repeat split|]. do 4 (split; [reflexivity|]).
    split; [exact K1|]. split; [exact K2|]. split; [exact K3|]. right. split; [exists m; reflexivity|reflexivity].
Qed.

(** ** reading *)
Lemma p_crq si lo hi s w ks T : rep SledIndexer (w_ix w) (kregs ks) -> (forall id, 1 <= id <= Z.of_nat (length ks) -> holds_at (TiKvStorage si) s id (T id)) ->
  distinct ks -> Z.of_nat (length ks) < 2 ^ 64 -> w_locked w = false -> w_poisoned w = false -> w_faults w = [] ->
  crq (mkChunk (TiKvStorage si) SledIndexer lo hi) (xenter (mkChunk (TiKvStorage si) SledIndexer lo hi) s w) (seen 1 ks T).
Proof.
  intros H1 H2 H3 H4 H5 H6 H7. unfold xenter. cbn [c_storage]. constructor; destruct w as [xs xx xn xc xl xp xf]; cbn [set_st w_st w_ix w_locked w_poisoned w_faults c_storage c_indexer] in *; try assumption.
  - now rewrite kregs_any.
  - intros id Hid. rewrite seen_length in Hid. rewrite seen_pts by assumption. now apply H2.
  - apply distinct_wfc; [assumption|]. intros id Hid. now apply H2.
Qed.
Lemma p_read_cur f s n last T m d c k : p_disk f s n last T -> p_cur (f_uuid f) (f_drawn f) s m d c k T -> Z.of_nat (length k) < 2 ^ 64 ->
  crq (dc_chunk d) (xenter (dc_chunk d) s (dc_world d)) (seen 1 k T).
Proof.
  intros D C Hk. destruct (p_free _ _ _ _ _ _ _ _ C) as (LK & [_ Hff] & W1 & W2). destruct C as ((lo & hi & E) & _ & W & [R1 R2 R3 R4 R5 R6 R7 R8]).
  rewrite E. apply p_crq; try assumption. intros id Hid. apply (pd_st _ _ _ _ _ D). lia.
Qed.
Lemma p_read_old f s n last T m d c v : p_disk f s n last T -> p_old (f_uuid f) (f_drawn f) s m d c v ->
  like (dc_chunk d) c /\ still d /\ crq (dc_chunk d) (xenter (dc_chunk d) s (dc_world d)) (v T).
Proof.
  intros D (si & lo & hi & ks & E1 & E2 & E3 & E4 & E5 & E6 & E7 & E8 & E9 & E10). split; [exact E2|]. split; [eapply p_still; eassumption|].
  destruct E10 as [[-> V]|[(j & ->) V]]; rewrite V, E1; apply p_crq; try assumption.
  - intros id Hid. apply (pd_st _ _ _ _ _ D). lia.
  - intros id Hid. split; [constructor|]. unfold no_table. cbn [series_key]. unfold tikv_series_key.
    pose proof (length_be_bytes 8 id) as LB. destruct (be_bytes 8 id) as [|x r]; [discriminate|]. apply (pd_kind _ _ _ _ _ D).
Qed.

(** ** what it amounts to *)
Definition shelf_of (b : bins (list (list label)) table) : shelf := mkShelf (bn_old _ _ b) (bn_cur _ _ b) (bn_k _ _ b) (bn_g _ _ b).
Lemma gputs_puts c ls pts : forall x, gputs _ _ put c x ls pts = puts c x ls pts.
Proof. induction pts as [|p pts IH]; intros x; [reflexivity|]. cbn [gputs puts]. destruct (put c x ls p) as [x' b]. now rewrite IH. Qed.
Lemma shelf_bop cf b o : shelf_op cf (shelf_of b) o = (shelf_of (fst (bop _ _ put [] cf b o)), snd (bop _ _ put [] cf b o)).
Proof.
  destruct b as [bo bc bk bg]. destruct o as [ls p|ls pts|start]; unfold shelf_of; cbn [shelf_op bop sh_old sh_cur sh_sets sh_tab bn_old bn_cur bn_k bn_g].
  - destruct (put bc (bk, bg) ls p) as [[k g] ok]. reflexivity.
  - change (gputs _ _ put bc (bk, bg) ls pts) with (puts bc (bk, bg) ls pts). destruct (puts bc (bk, bg) ls pts) as [[k g] ok]. reflexivity.
  - reflexivity.
Qed.
Lemma shelf_bops cf ops : forall b, shelf_ops cf (shelf_of b) ops = (shelf_of (fst (bops _ _ put [] cf b ops)), snd (bops _ _ put [] cf b ops)).
Proof.
  induction ops as [|o ops IH]; intros b; [reflexivity|]. cbn [shelf_ops bops]. rewrite shelf_bop. destruct (bop _ _ put [] cf b o) as [b' r]. cbn [fst snd].
  rewrite IH. destruct (bops _ _ put [] cf b' ops) as [b'' rs]. reflexivity.
Qed.
Definition both (y : bins (list (list label)) table * list (res unit)) : shelf * list (res unit) := (shelf_of (fst y), snd y).
Lemma shelf_blives clock L : forall tick n T, shelf_lives clock tick n T L = map both (blives _ _ put [] clock tick n T L).
Proof.
  induction L as [|x L IH]; intros tick n T; [reflexivity|]. cbn [shelf_lives blives map].
  change (open_shelf (lf_cf x) (clock (tick + n)%nat) T) with (shelf_of (open_bins _ _ [] (lf_cf x) (clock (tick + n)%nat) T)). rewrite shelf_bops.
  cbn [fst]. rewrite IH. reflexivity.
Qed.
Lemma shelf_bparts b : shelf_parts (shelf_of b) = bparts _ _ (fun ks T => seen 1 ks T) b.
Proof. reflexivity. Qed.

Definition p_running := xrunning TiKvDry Sled (list (list label)) table (fun ks T => seen 1 ks T) p_disk p_cur p_old.
Lemma p_parts_ok cf t b start n : p_running cf t b start n -> Z.of_nat (length (bn_k _ _ b)) < 2 ^ 64 -> Forall part_ok (shelf_parts (shelf_of b)).
Proof.
  intros (h0 & dc & m & re & O) HL. destruct O as [H1 H2 H3 H4 H5 H6 H7 H8 H9 H10 H11 H12 H13].
  assert (G: forall c : chunk * list (list label), distinct (snd c) -> Z.of_nat (length (snd c)) < 2 ^ 64 -> part_ok (pt (bn_g _ _ b) c)).
  { intros x W Lx. constructor; unfold pt; cbn [snd].
    - apply distinct_wfc; [assumption|]. intros id Hid. apply (pd_st _ _ _ _ _ H7). lia.
    - apply seen_increasing, H7.
    - now rewrite seen_length. }
  unfold shelf_parts, shelf_of. cbn [sh_old sh_cur sh_sets sh_tab]. rewrite map_app. apply Forall_app. split.
  - apply Forall2_app_inv_r in H9 as (l1 & l2 & _ & F & _). clear - F G H7.
    set (T := bn_g _ _ b) in *. clearbody T. remember (map (viewed _ _ _) (bn_old _ _ b)) as z eqn:EZ. revert EZ. generalize (bn_old _ _ b).
    induction F as [|x v l2 z H F IH]; intros l EZ; destruct l as [|c l]; try discriminate; [constructor|]. cbn [map] in EZ. injection EZ as EV EZ. cbn [map]. constructor; [|now apply IH].
    destruct H as (si & lo & hi & ks & E1 & E2 & E3 & E4 & E5 & E6 & E7 & E8 & E9 & E10). subst v. unfold viewed in E10. cbn [fst snd] in E10.
    assert (ES: exists T', seen 1 (snd c) no_table = seen 1 ks T').
    { destruct E10 as [[_ V]|[_ V]]; eexists; apply V. }
    destruct ES as (T' & ES). assert (snd c = ks) as EK by (rewrite <- (seen_fst (snd c) no_table 1), ES; apply seen_fst). apply G; rewrite EK; assumption.
  - constructor; [|constructor]. apply (G (bn_cur _ _ b, bn_k _ _ b)); cbn [snd]; [|exact HL]. destruct H12 as (_ & _ & _ & R). apply R.
Qed.
Lemma p_first f s T : env_ok f -> empty_dir f -> new_uuids f s -> holds_series (TiKvStorage []) s T -> (forall i, increasing (T i)) -> p_disk f s 0 (-1) T.
Proof.
  intros He [_ Hd] [N1 N2] HT HI. constructor; try assumption; [intros m _; rewrite <- (app_nil_r (f_uuid f m)); apply N2|intros; apply N2|now rewrite Hd|rewrite Hd; constructor].
Qed.
Theorem points_lives f s T L : env_ok f -> empty_dir f -> new_uuids f s -> holds_series (TiKvStorage []) s T -> (forall i, increasing (T i)) ->
  mlives_ok TiKvDry Sled (f_clock f) (f_ticks f) 0 (-1) L -> L <> [] ->
  exists l d t, shelf_lives (f_clock f) (f_ticks f) 0 T L = l ++ [d] /\ x_live L f s = Some (map snd (l ++ [d]), t) /\
    forall hs bs o q a b, hasher_ok hs -> bs_contract bs -> Forall lab_ok q -> unmixed hs (shelf_parts (fst d)) q a b ->
      exists r, xrun (t_query hs bs o q a b) t = Some (r, t) /\ comes_to (shelf_parts (fst d)) q a b r.
Proof.
  intros He Hd Hu HT HI OK NE.
  destruct (x_lives TiKvDry Sled _ _ put [] (@length _) (fun ks T => seen 1 ks T) p_disk p_cur p_old p_keep) with (L := L) (f := f) (s := s) (n := 0%nat) (last := -1) (g := T)
    as (t & l & b & cf & start & m & E & EB & R & HL).
  all: try (first [exact p_names|exact p_tick|exact p_meta|exact p_stop|exact p_free|exact p_insert|exact p_create|exact p_read|exact p_read_cur|exact p_read_old]).
  all: try assumption; try reflexivity.
  - intros ? ? ? ? ? D. exact (pd_env _ _ _ _ _ D).
  - intros ? ? ? ? ? D. exact (pd_len _ _ _ _ _ D).
  - intros ? ? ? ? d c k g C Hk. destruct C as (_ & _ & _ & R). exists k. split; [apply R|]. split; [exact Hk|]. destruct R as [R1 _ _ _ _ _ _ _]. destruct (dc_world d). exact R1.
  - intros ? ? ? ? d c v (si & lo & hi & ks & E1 & E2 & E3 & E4 & E5 & E6 & E7 & E8 & E9 & _). exists ks. auto.
  - intros c x ls p H. unfold put. destruct x. now rewrite H.
  - now apply p_first.
  - intros cf _ _. left. apply Hd.
  - exists (map both l), (both b), t. rewrite shelf_blives, EB, map_app. split; [reflexivity|]. split.
    { rewrite E. do 2 f_equal. rewrite !map_app, !map_map. reflexivity. }
    intros hs bs o q x y Hh Hbs Hq Hp. cbn [both fst] in *.
    eapply (x_answer TiKvDry Sled _ _ (@length _) (fun ks T => seen 1 ks T) p_disk p_cur p_old); try eassumption.
    + exact p_free.
    + exact p_read_cur.
    + exact p_read_old.
    + rewrite <- shelf_bparts. eapply p_parts_ok; eassumption.
Qed.
Theorem points_forgotten f s L cf : env_ok f -> empty_dir f -> new_uuids f s -> no_points s ->
  mlives_ok TiKvDry Sled (f_clock f) (f_ticks f) 0 (-1) (L ++ [mkLife cf []]) ->
  exists rss t, x_live (L ++ [mkLife cf []]) f s = Some (rss, t) /\
    forall hs bs o q a b, hasher_ok hs -> bs_contract bs -> Forall lab_ok q -> xrun (t_query hs bs o q a b) t = Some (Ok [], t).
Proof.
  intros He Hd Hu Hn OK.
  destruct (points_lives f s no_table (L ++ [mkLife cf []]) He Hd Hu (no_points_series s Hn)) as (l & d & t & E & R & A); [intros i; constructor|exact OK|now destruct L|].
  exists (map snd (l ++ [d])), t. split; [exact R|]. intros hs bs o q a b Hh Hb Hq.
  destruct (shelf_lives_app (f_clock f) (mkLife cf []) L (f_ticks f) 0 no_table) as (T' & k & m & EA). rewrite E in EA.
  cbn [shelf_lives lf_cf lf_ops shelf_ops] in EA. apply app_inj_tail in EA as [_ ->].
  destruct (A hs bs o q a b Hh Hb Hq) as (r & Q & W); cbn [fst open_shelf] in *; unfold shelf_parts in *; cbn [sh_old sh_cur sh_sets sh_tab app map fst snd seen] in *; [apply nothing_prefix|].
  apply nothing_comes in W. now subst.
Qed.
