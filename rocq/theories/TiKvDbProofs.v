(* Proofs: a database over one shared store. *)
From Coq Require Import ZifyBool ZifyNat Permutation Sorted.
From Verif Require Import Rust StringProofs BitsProofs Prog Gorilla GorillaSpec Storage StorageSpec StorageProofs Labels IndexSpec Indexer
  LabelProofs IndexProofs Chunk ChunkSpec ChunkProofs ChunkFacts Conc Utils DirSpec DirProofs TiKvInit TiKvShared TiKvSpec TiKvProofs
  Db DbSpec MapProofs DbProofs DbHist DbFacts SwapProofs ReopenSpec ReopenProofs TiKvDb TiKvDbSpec TiKvDbRun TiKvDbChunk.

(** ** the files and the store *)
Definition entry_ok (f : fworld) (s : kv) (last : Z) (e : list Z * cdir) : Prop :=
  exists a b o k m, fst e = encode_chunk_dir a b /\ u64 a /\ u64 b /\ a <= last /\ snd e = mkCdir (Some (Written o)) None None /\
    o_ident o = f_uuid f k /\ (k < f_drawn f)%nat /\ kv_get s (f_uuid f k) = Some (f_uuid f m ++ nil_uuid) /\ (m < f_drawn f)%nat.
Record disk (f : fworld) (s : kv) (n : nat) (last : Z) (T : table) : Prop := mkDisk {
  dk_env : env_ok f;
  dk_inj : forall i j, f_uuid f i = f_uuid f j -> i = j;
  dk_new : forall m r, (f_drawn f <= m)%nat -> kv_get s (f_uuid f m ++ r) = None;
  dk_kind : forall m x r, x <> 0 -> kv_get s (f_uuid f m ++ x :: r) = None;
  dk_len : length (f_dirs f) = n;
  dk_dirs : Forall (entry_ok f s last) (f_dirs f);
  dk_st : holds_series (TiKvStorage []) s T;
  dk_inc : forall i, increasing (T i) }.

Lemma uuid_first f i j a b : env_ok f -> (forall i j, f_uuid f i = f_uuid f j -> i = j) -> f_uuid f i ++ a = f_uuid f j ++ b -> i = j /\ a = b.
Proof.
  intros (_ & L & _) H E. assert (i = j); [|subst; split; [reflexivity|now apply app_inv_head in E]]. apply H. eapply first_eq; [|exact E]. now rewrite !L.
Qed.
(* points and index entries of one chunk may change *)
Lemma disk_agree f s s' n last T T' mc : disk f s n last T -> (mc < f_drawn f)%nat ->
  (forall k, length k <> 8%nat -> ~ xkey (f_uuid f mc ++ nil_uuid) k -> kv_get s' k = kv_get s k) ->
  holds_series (TiKvStorage []) s' T' -> (forall i, increasing (T' i)) -> disk f s' n last T'.
Proof.
  intros [D1 D2 D3 D4 D5 D6 D7 D8] Hm K H1 H2. pose proof D1 as (_ & L & _). constructor; try assumption.
  - intros m r Hd. rewrite K; [now apply D3|rewrite app_length, L; lia|]. intros (r' & E). rewrite <- app_assoc in E. apply (uuid_first f) in E as [E _]; [lia|assumption|assumption].
  - intros m x r Hx. rewrite K; [now apply D4|rewrite app_length, L; lia|]. intros (r' & E). rewrite <- app_assoc in E. apply (uuid_first f) in E as [_ E]; [|assumption|assumption].
    cbn in E. congruence.
  - eapply Forall_impl; [|exact D6]. intros e (a & b & o & k & m & E1 & E2 & E3 & E4 & E5 & E6 & E7 & E8 & E9).
    exists a, b, o, k, m. do 7 (split; [assumption|]). split; [|assumption]. rewrite K; [assumption|rewrite L; lia|].
    intros (r' & E). apply (f_equal (@length Z)) in E. rewrite !app_length, !L, nil_len in E. lia.
Qed.

(** ** chunks no longer current *)
Definition oldrel (f : fworld) (s : kv) (mc : nat) (x : dchunk) (c : chunk * list (list label)) : Prop :=
  exists si j tail lo hi, dc_chunk x = mkChunk (TiKvStorage si) (TiKvIndexer (f_uuid f j ++ tail)) lo hi /\ like (dc_chunk x) (fst c) /\
    (j < f_drawn f)%nat /\ j <> mc /\ (snd c <> [] -> si = []) /\ rep (TiKvIndexer (f_uuid f j ++ tail)) s (kregs (snd c)) /\
    w_st (dc_world x) = [] /\ w_locked (dc_world x) = false /\ w_poisoned (dc_world x) = false /\ w_faults (dc_world x) = [] /\
    distinct (snd c) /\ Z.of_nat (length (snd c)) < 2 ^ 64.
Lemma oldrel_agree f s s' mc x c : env_ok f -> (forall i j, f_uuid f i = f_uuid f j -> i = j) ->
  (forall k, length k <> 8%nat -> ~ xkey (f_uuid f mc ++ nil_uuid) k -> kv_get s' k = kv_get s k) ->
  oldrel f s mc x c -> oldrel f s' mc x c.
Proof.
  intros He Hi K (si & j & tail & lo & hi & E1 & E2 & E3 & E4 & E5 & E6 & E7). pose proof He as (_ & L & _).
  exists si, j, tail, lo, hi. do 5 (split; [assumption|]). split; [|assumption].
  eapply rep_agree; [|exact E6]. intros r. rewrite <- app_assoc. apply K; [rewrite app_length, L; lia|].
  intros (r' & E). rewrite <- app_assoc in E. apply (uuid_first f) in E as [E _]; [congruence|assumption|assumption].
Qed.

(* only points, and keys that start with a uuid of its own, change *)
Definition own_only (f : fworld) (s s' : kv) : Prop :=
  forall k, length k <> 8%nat -> (forall m r, k <> f_uuid f m ++ r) -> kv_get s' k = kv_get s k.
Lemma own_refl f s : own_only f s s.
Proof. intros k _ _. reflexivity. Qed.
Lemma own_trans f f' s s' s'' : f_uuid f' = f_uuid f -> own_only f s s' -> own_only f' s' s'' -> own_only f s s''.
Proof. intros E H H' k K1 K2. rewrite (H' k K1), (H k K1 K2); [reflexivity|]. rewrite E. exact K2. Qed.
Lemma own_chunk f mc s s' : (forall k, length k <> 8%nat -> ~ xkey (f_uuid f mc ++ nil_uuid) k -> kv_get s' k = kv_get s k) -> own_only f s s'.
Proof. intros K k K1 K2. apply K; [exact K1|]. intros (r & E). apply (K2 mc (nil_uuid ++ r)). now rewrite E, <- app_assoc. Qed.

(** ** a running database *)
Record openrep (cf : config) (t : tworld) (d : shelf) (start : Z) (n : nat) (h0 : list dchunk) (dc : dchunk) (mc : nat) (re : list (chunk * list (list label))) : Prop := mkOr {
  or_heap : d_heap (t_db t) = h0 ++ [dc];
  or_cur : d_cur (t_db t) = length h0;
  or_sec : d_sec (t_db t) = seq 0 (length h0);
  or_curl : d_curl (t_db t) = free_lock;
  or_secl : d_secl (t_db t) = free_lock;
  or_meta : f_meta (d_fs (t_db t)) = Some (Written (own_meta cf));
  or_disk : disk (d_fs (t_db t)) (t_kv t) n start (sh_tab d);
  or_mc : (mc < f_drawn (d_fs (t_db t)))%nat;
  or_re : Forall (fun c => snd c = []) re;
  or_old : Forall2 (oldrel (d_fs (t_db t)) (t_kv t) mc) h0 (re ++ sh_old d);
  or_win : sh_cur d = the_chunk cf start;
  or_pos : 0 <= start /\ 0 <= cf_size cf /\ start + cf_size cf < 2 ^ 64;
  or_chunk : dc_chunk dc = mkChunk (TiKvStorage []) (TiKvIndexer (f_uuid (d_fs (t_db t)) mc ++ nil_uuid)) start (start + cf_size cf);
  or_st : w_st (dc_world dc) = [];
  or_trep : trep (f_uuid (d_fs (t_db t)) mc ++ nil_uuid) (twice (enter (t_kv t) (dc_world dc))) (sh_sets d) (sh_tab d);
  or_types : cf_st cf = TiKvDry /\ cf_ix cf = TiKvDry }.
Definition running (cf : config) (t : tworld) (d : shelf) (start : Z) (n : nat) : Prop := exists h0 dc mc re, openrep cf t d start n h0 dc mc re.

Lemma or_write cf t d start n h0 dc mc re cw s' ks' T' : openrep cf t d start n h0 dc mc re ->
  w_st cw = [] -> trep (f_uuid (d_fs (t_db t)) mc ++ nil_uuid) (twice (enter s' cw)) ks' T' ->
  (forall k, length k <> 8%nat -> ~ xkey (f_uuid (d_fs (t_db t)) mc ++ nil_uuid) k -> kv_get s' k = kv_get (t_kv t) k) ->
  openrep cf (mkT (set_heap (t_db t) (h0 ++ [mkDc (dc_chunk dc) cw (dc_name dc)])) s') (mkShelf (sh_old d) (sh_cur d) ks' T') start n
    h0 (mkDc (dc_chunk dc) cw (dc_name dc)) mc re.
Proof.
  intros [H1 H2 H3 H4 H5 H6 H7 H8 H9 H10 H11 H12 H13 H14 H15 H16] W R K.
  constructor; cbn [t_db t_kv set_heap d_heap d_cur d_sec d_curl d_secl d_fs sh_old sh_cur sh_sets sh_tab dc_chunk dc_world dc_name]; try assumption.
  - reflexivity.
  - eapply disk_agree; [exact H7|exact H8|exact K|apply R|apply R].
  - eapply F2_impl; [|exact H10]. intros a b. apply oldrel_agree; [apply H7|apply H7|exact K].
Qed.

(** ** writing *)
Lemma put_like a b x ls p : like a b -> put a x ls p = put b x ls p.
Proof. intros H. unfold put. destruct x. now rewrite (like_window a b H). Qed.
Lemma puts_like a b ls pts : like a b -> forall x, puts a x ls pts = puts b x ls pts.
Proof. intros H. induction pts as [|p pts IH]; intros x; [reflexivity|]. cbn [puts]. rewrite (put_like a b) by assumption. destruct (put b x ls p) as [x' ?]. now rewrite IH. Qed.
Lemma enter_leave w : enter (w_st w) (leave w) = w.
Proof. now destruct w. Qed.

Lemma t_write_all ii lo hi i ls pts : (8 < length ii)%nat -> set_ok ls -> Forall tp_ok pts -> 0 <= lo -> forall t d ks T,
  let ch := mkChunk (TiKvStorage []) (TiKvIndexer ii) lo hi in
  nth_error (d_heap (t_db t)) i = Some d -> dc_chunk d = ch -> w_st (dc_world d) = [] ->
  trep ii (twice (enter (t_kv t) (dc_world d))) ks T -> Z.of_nat (length ks + length pts) < 2 ^ 64 ->
  exists cw s' ks' T' ok, puts ch (ks, T) ls pts = ((ks', T'), ok) /\
    run tdhandler (write_all i ch ls pts) t = Some (Ok (existsb (refused ch) pts || negb ok), mkT (set_heap (t_db t) (upd (d_heap (t_db t)) i (mkDc ch cw (dc_name d)))) s') /\
    w_st cw = [] /\ trep ii (twice (enter s' cw)) ks' T' /\
    (forall k, length k <> 8%nat -> ~ xkey ii k -> kv_get s' k = kv_get (t_kv t) k) /\ (length ks' <= length ks + length pts)%nat.
Proof.
  intros Li Hls Hp H0. induction Hp as [|p pts Hp _ IH]; intros t d ks T ch Hn Ec Es R HL.
  - exists (dc_world d), (t_kv t), ks, T, true. split; [reflexivity|]. split; [|split; [exact Es|split; [exact R|split; [reflexivity|cbn; lia]]]].
    cbn [write_all run existsb negb orb]. assert (mkDc ch (dc_world d) (dc_name d) = d) as -> by (rewrite <- Ec; now destruct d). rewrite upd_self by assumption. now destruct t as [[] ?].
  - cbn [length] in HL. cbn [write_all existsb puts].
    destruct (insert_shared ii lo hi (enter (t_kv t) (dc_world d)) ks T ls p Li R Hls Hp ltac:(lia)) as (ks1 & T1 & ok1 & v1 & P1 & E1 & R1 & C1 & K1 & L1).
    fold ch in P1, E1. rewrite P1.
    assert (Hi: (i < length (d_heap (t_db t)))%nat) by (apply nth_error_Some; congruence).
    set (t1 := mkT (set_heap (t_db t) (upd (d_heap (t_db t)) i (mkDc ch (leave v1) (dc_name d)))) (w_st v1)).
    assert (Q: forall x, run tdhandler (lift (fun X c => @DC X i c) (chunk_insert ch ls p)) t = x ->
      x = Some (put_res ch p ok1, t1)).
    { intros x <-. rewrite (run_SC i _ t d Hn Es), Ec, E1. reflexivity. }
    assert (NT: nth_error (d_heap (t_db t1)) i = Some (mkDc ch (leave v1) (dc_name d))).
    { cbn [t1 t_db set_heap d_heap]. rewrite nth_upd by assumption. now rewrite Nat.eqb_refl. }
    destruct (IH t1 (mkDc ch (leave v1) (dc_name d)) ks1 T1 NT eq_refl eq_refl) as (cw & s' & ks' & T' & ok & P2 & E2 & W2 & R2 & K2 & L2).
    { cbn [t1 t_kv dc_world]. now rewrite enter_leave. }
    { lia. }
    fold ch in P2, E2. cbn [t1 t_db t_kv set_heap d_heap dc_name] in E2, K2. rewrite upd_upd in E2 by assumption. fold t1 in E2.
    assert (KK: forall k, length k <> 8%nat -> ~ xkey ii k -> kv_get s' k = kv_get (t_kv t) k).
    { intros k N1 N2. rewrite K2, K1 by assumption. reflexivity. }
    rewrite P2. unfold refused at 1. destruct (batch_passes ch p) eqn:B.
    + exists cw, s', ks', T', (ok1 && ok). split; [reflexivity|]. split; [|split; [exact W2|split; [exact R2|split; [exact KK|cbn [length]; lia]]]].
      rewrite run_bind, (Q _ eq_refl). unfold put_res. change (mkT _ _) with (mkT (set_heap (t_db t) (upd (d_heap (t_db t)) i (mkDc ch cw (dc_name d)))) s') in E2.
      destruct (in_windowb ch (tp_ts p)) eqn:W; cbn [andb negb orb].
      * destruct ok1; cbn [andb negb]; [exact E2|]. rewrite run_qbind, E2. cbn [run]. now rewrite Bool.orb_true_r.
      * rewrite run_qbind, E2. reflexivity.
    + assert (W: in_windowb ch (tp_ts p) = false) by (unfold batch_passes in B; unfold in_windowb in *; cbn [ch c_start c_end] in *; lia).
      assert (EP: ks1 = ks /\ T1 = T /\ ok1 = true) by (unfold put in P1; rewrite W in P1; injection P1 as <- <- <-; auto). destruct EP as (-> & -> & ->).
      destruct (IH t d ks T Hn Ec Es R ltac:(lia)) as (cw' & s'' & ks'' & T'' & ok' & P3 & E3 & W3 & R3 & K3 & L3). fold ch in P3, E3.
      exists cw', s'', ks'', T'', ok'. rewrite P2 in P3. injection P3 as <- <- <-. cbn [andb].
      split; [reflexivity|]. split; [exact E3|]. split; [exact W3|]. split; [exact R3|]. split; [exact K3|]. cbn [length]; lia.
Qed.

Lemma uuid_nil_long f mc : env_ok f -> (8 < length (f_uuid f mc ++ nil_uuid))%nat.
Proof. intros _. rewrite app_length, nil_len. lia. Qed.
Lemma or_like cf t d start n h0 dc mc re : openrep cf t d start n h0 dc mc re -> like (dc_chunk dc) (sh_cur d).
Proof. intros O. rewrite (or_chunk _ _ _ _ _ _ _ _ _ O), (or_win _ _ _ _ _ _ _ _ _ O). unfold like, the_chunk. destruct (or_types _ _ _ _ _ _ _ _ _ O) as [-> _]. repeat split. Qed.

Lemma t_point cf t d start n ls p : running cf t d start n -> set_ok ls -> tp_ok p -> Z.of_nat (length (sh_sets d)) + 1 < 2 ^ 64 ->
  exists t', trun (top_prog cf (OpPoint ls p)) t = Some (snd (shelf_op cf d (OpPoint ls p)), t') /\
    running cf t' (fst (shelf_op cf d (OpPoint ls p))) start n /\ d_fs (t_db t') = d_fs (t_db t) /\
    (length (sh_sets (fst (shelf_op cf d (OpPoint ls p)))) <= S (length (sh_sets d)))%nat /\ own_only (d_fs (t_db t)) (t_kv t) (t_kv t').
Proof.
  intros (h0 & dc & mc & re & O) Hls Hp HL. pose proof (or_like _ _ _ _ _ _ _ _ _ O) as LK. pose proof O as [H1 H2 H3 H4 H5 H6 H7 H8 H9 H10 H11 H12 H13 H14 H15 H16].
  assert (N: nth_error (d_heap (t_db t)) (d_cur (t_db t)) = Some dc) by (rewrite H1, H2; apply nth_last).
  unfold trun, top_prog. rewrite run_TD. unfold db_write_point. rewrite (t_with_current _ t dc H4 N).
  rewrite (run_SC _ _ _ dc) by (cbn [t_db set_curl d_heap]; assumption). cbn [t_db t_kv set_curl d_heap].
  destruct (insert_shared _ start (start + cf_size cf) _ _ _ ls p (uuid_nil_long _ mc (dk_env _ _ _ _ _ H7)) H15 Hls Hp HL) as (ks' & T' & ok & v' & P & E & R & C & K & L).
  rewrite <- H13 in P, E. rewrite E. cbn [t_db t_kv set_heap set_curl d_curl rw_unread rw_readers rw_writer rw_poisoned pred].
  rewrite (put_like _ _ _ _ _ LK) in P. cbn [shelf_op]. rewrite P. cbn [fst snd sh_sets].
  eexists. split; [|split; [|split; [|split; [exact L|]]]].
  - do 2 f_equal. unfold put_res. rewrite (like_window _ _ LK). destruct LK as (_ & -> & ->). reflexivity.
  - exists h0, (mkDc (dc_chunk dc) (leave v') (dc_name dc)), mc, re.
    pose proof (or_write _ _ _ _ _ _ _ _ _ (leave v') (w_st v') ks' T' O eq_refl ltac:(rewrite enter_leave; exact R) K) as O'.
    replace (set_curl _ _) with (set_heap (t_db t) (h0 ++ [mkDc (dc_chunk dc) (leave v') (dc_name dc)])); [exact O'|].
    rewrite H1, H2, upd_last. clear - H4. destruct t as [[] ?]; cbn in *. subst. reflexivity.
  - reflexivity.
  - apply own_chunk with (mc := mc). exact K.
Qed.
Lemma t_batch cf t d start n ls pts : running cf t d start n -> set_ok ls -> Forall tp_ok pts -> Z.of_nat (length (sh_sets d) + length pts) < 2 ^ 64 ->
  exists t', trun (top_prog cf (OpBatch ls pts)) t = Some (snd (shelf_op cf d (OpBatch ls pts)), t') /\
    running cf t' (fst (shelf_op cf d (OpBatch ls pts))) start n /\ d_fs (t_db t') = d_fs (t_db t) /\
    (length (sh_sets (fst (shelf_op cf d (OpBatch ls pts)))) <= length (sh_sets d) + length pts)%nat /\ own_only (d_fs (t_db t)) (t_kv t) (t_kv t').
Proof.
  intros (h0 & dc & mc & re & O) Hls Hp HL. pose proof (or_like _ _ _ _ _ _ _ _ _ O) as LK. pose proof O as [H1 H2 H3 H4 H5 H6 H7 H8 H9 H10 H11 H12 H13 H14 H15 H16].
  assert (N: nth_error (d_heap (t_db t)) (d_cur (t_db t)) = Some dc) by (rewrite H1, H2; apply nth_last).
  unfold trun, top_prog. rewrite run_TD. unfold db_write_points. rewrite (t_with_current _ t dc H4 N). rewrite run_qbind.
  destruct (t_write_all _ start (start + cf_size cf) (d_cur (t_db t)) ls pts (uuid_nil_long _ mc (dk_env _ _ _ _ _ H7)) Hls Hp (proj1 H12)
    (mkT (set_curl (t_db t) (mkRw 1 false false)) (t_kv t)) dc (sh_sets d) (sh_tab d) N H13 H14 H15 HL) as (cw & s' & ks' & T' & ok & P & E & W & R & K & L).
  rewrite <- H13 in P, E. rewrite E. cbn [run t_db t_kv set_heap set_curl d_curl d_heap rw_unread rw_readers rw_writer rw_poisoned pred].
  rewrite (puts_like _ _ _ _ LK) in P. cbn [shelf_op]. rewrite P. cbn [fst snd sh_sets].
  eexists. split; [|split; [|split; [|split; [exact L|]]]].
  - do 2 f_equal. assert (existsb (refused (dc_chunk dc)) pts = existsb (on_edge (sh_cur d)) pts) as ->; [|reflexivity].
    clear - LK H11 H12. induction pts as [|p pts IH]; [reflexivity|]. cbn [existsb]. rewrite IH, (like_refused _ _ LK). f_equal.
    apply refused_edge. rewrite H11. cbn [the_chunk c_start c_end]. lia.
  - exists h0, (mkDc (dc_chunk dc) cw (dc_name dc)), mc, re.
    pose proof (or_write _ _ _ _ _ _ _ _ _ cw s' ks' T' O W R K) as O'.
    replace (set_curl _ _) with (set_heap (t_db t) (h0 ++ [mkDc (dc_chunk dc) cw (dc_name dc)])); [exact O'|].
    rewrite H1, H2, upd_last. clear - H4. destruct t as [[] ?]; cbn in *. subst. reflexivity.
  - reflexivity.
  - apply own_chunk with (mc := mc). exact K.
Qed.

(** ** new chunks *)
Lemma init_st s cid u : kv_get s cid = None -> krun (init_component cid false u) s = (Ok [], kv_set s cid (nil_uuid ++ u)).
Proof.
  intros G. unfold init_component. rewrite (krun_qbind _ _ s _ s (krun_get _ _)), G. cbn beta iota zeta.
  assert (high16 (nil_uuid ++ nil_uuid) = Ok nil_uuid) as -> by reflexivity. reflexivity.
Qed.
Lemma init_ix s cid u1 u2 : krun (init_component cid true u2) (kv_set s cid (nil_uuid ++ u1)) =
  (Ok (u2 ++ nil_uuid), kv_set (kv_set s cid (nil_uuid ++ u1)) cid (u2 ++ nil_uuid)).
Proof.
  unfold init_component. rewrite (krun_qbind _ _ _ _ _ (krun_get _ _)). cbn [kv_get kv_set]. rewrite bytes_eqb_refl. cbn beta iota zeta.
  rewrite low16_app by reflexivity. reflexivity.
Qed.
Definition new_store (f : fworld) (s : kv) : kv :=
  let k := f_drawn f in
  kv_set (kv_set s (f_uuid f k) (nil_uuid ++ f_uuid f (S k))) (f_uuid f k) (f_uuid f (S (S k)) ++ nil_uuid).
Definition new_files (f : fworld) (start en : Z) : fworld :=
  set_dirs (draw (draw (draw f))) (f_dirs f ++ [(encode_chunk_dir start en, mkCdir (Some (Written (mkOpts start en (f_uuid f (f_drawn f))))) None None)]).
Lemma t_create cf start t : let f := d_fs (t_db t) in
  f_faults f = [] -> 0 <= start -> 0 <= cf_size cf -> start + cf_size cf < 2 ^ 64 ->
  ~ In (encode_chunk_dir start (start + cf_size cf)) (map fst (f_dirs f)) -> kv_get (t_kv t) (f_uuid f (f_drawn f)) = None ->
  run thandler (t_create_chunk cf start) t =
    Some (Ok (mkDc (mkChunk (TiKvStorage []) (TiKvIndexer (f_uuid f (S (S (f_drawn f))) ++ nil_uuid)) start (start + cf_size cf)) (new_world [] [])
                   (encode_chunk_dir start (start + cf_size cf))),
          mkT (set_fs (t_db t) (new_files f start (start + cf_size cf))) (new_store f (t_kv t))).
Proof.
  intros f Hf H0 Hsz He Hn G. unfold t_create_chunk. rewrite run_bind, run_call. cbn [thandler ff tdhandler dhandler fhandler]. fold f.
  unfold arith_u, in_u. replace ((0 <=? start + cf_size cf) && (start + cf_size cf <? 2 ^ 64)) with true by lia. cbv zeta.
  set (name := encode_chunk_dir start (start + cf_size cf)) in *. set (o := mkOpts start (start + cf_size cf) (f_uuid f (f_drawn f))).
  rewrite run_bind, run_ff. cbn [t_db t_kv set_fs d_fs]. rewrite config_run by assumption.
  set (cd := mkCdir (Some (Written o)) None None).
  set (f1 := set_dirs (draw f) _). assert (L1: last_dir f1 (f_dirs f) name cd) by (repeat split; assumption).
  rewrite run_qbind. unfold t_build_storage. rewrite run_qbind, run_call. cbn [thandler ff tdhandler]. cbn [dhandler]. cbn [t_db t_kv set_fs d_fs]. rewrite (fh_mkdir _ _ _ _ L1).
  rewrite run_bind, run_call. cbn [thandler ff tdhandler dhandler fhandler]. cbn [t_db t_kv set_fs d_fs].
  rewrite run_qbind, run_TK. cbn [t_db t_kv o_ident o]. rewrite init_st by exact G. cbn [fst snd run].
  rewrite run_qbind. unfold t_build_indexer. rewrite run_qbind, run_call. cbn [thandler ff tdhandler]. cbn [dhandler]. cbn [t_db t_kv set_fs d_fs].
  assert (L2: last_dir (draw (set_dirs f1 (f_dirs f ++ [(name, cd)]))) (f_dirs f) name cd) by (repeat split; assumption). rewrite (fh_mkdir _ _ _ _ L2).
  rewrite run_bind, run_call. cbn [thandler ff tdhandler dhandler fhandler]. cbn [t_db t_kv set_fs d_fs].
  rewrite run_qbind, run_TK. cbn [t_db t_kv o_ident o]. rewrite init_ix. cbn [fst snd run]. reflexivity.
Qed.

Lemma kv_set2 s k a b key : kv_get (kv_set (kv_set s k a) k b) key = if bytes_eqb k key then Some b else kv_get s key.
Proof. cbn [kv_get kv_set]. destruct (bytes_eqb k key); reflexivity. Qed.
Lemma new_store_get f s key : key <> f_uuid f (f_drawn f) -> kv_get (new_store f s) key = kv_get s key.
Proof. intros H. unfold new_store. rewrite kv_set2, bytes_eqb_neq; [reflexivity|congruence]. Qed.
Lemma new_store_own f s : kv_get (new_store f s) (f_uuid f (f_drawn f)) = Some (f_uuid f (S (S (f_drawn f))) ++ nil_uuid).
Proof. unfold new_store. rewrite kv_set2, bytes_eqb_refl. reflexivity. Qed.
Lemma own_new f s : own_only f s (new_store f s).
Proof. intros k _ K. apply new_store_get. intros E. apply (K (f_drawn f) []). now rewrite app_nil_r. Qed.
Lemma new_disk f s n last T start en : disk f s n last T -> last < start -> u64 start -> u64 en ->
  disk (new_files f start en) (new_store f s) (S n) start T.
Proof.
  intros [D1 D2 D3 D4 D5 D6 D7 D8] Hl Us Ue. pose proof D1 as (_ & L & _).
  assert (NE: forall m r, (m <> f_drawn f \/ r <> []) -> f_uuid f m ++ r <> f_uuid f (f_drawn f)).
  { intros m r H E. rewrite <- (app_nil_r (f_uuid f (f_drawn f))) in E. apply (uuid_first f) in E as [E1 E2]; [|assumption|assumption]. tauto. }
  assert (ND: forall k, (k < f_drawn f)%nat -> f_uuid f k <> f_uuid f (f_drawn f)).
  { intros k Hk E. apply D2 in E. lia. }
  constructor; cbn [new_files set_dirs draw f_uuid f_drawn f_dirs]; try assumption.
  - intros m r Hm. rewrite new_store_get; [apply D3; lia|]. apply NE. left. lia.
  - intros m x r Hx. rewrite new_store_get; [now apply D4|]. apply NE. right. discriminate.
  - rewrite app_length. cbn [length]. lia.
  - apply Forall_app. split.
    + eapply Forall_impl; [|exact D6]. intros e (a & b & o & k & m & E1 & E2 & E3 & E4 & E5 & E6 & E7 & E8 & E9).
      exists a, b, o, k, m. cbn [new_files set_dirs draw f_uuid f_drawn]. do 3 (split; [assumption|]). split; [lia|]. do 2 (split; [assumption|]). split; [lia|]. split; [|lia].
      rewrite new_store_get by (now apply ND). exact E8.
    + constructor; [|constructor]. eexists start, en, _, (f_drawn f), (S (S (f_drawn f))). cbn [fst snd o_ident new_files set_dirs draw f_uuid f_drawn].
      do 3 (split; [assumption || reflexivity|]). split; [lia|]. do 2 (split; [reflexivity|]). split; [lia|]. split; [apply new_store_own|lia].
  - eapply holds_agree; [|exact D7]. intros id _. apply new_store_get. cbn [app]. intros E. apply (f_equal (@length Z)) in E. rewrite length_be_bytes, L in E. lia.
Qed.
Lemma new_trep f s n last T : disk f s n last T -> trep (f_uuid f (S (S (f_drawn f))) ++ nil_uuid) (twice (enter (new_store f s) (new_world [] []))) [] T.
Proof.
  intros [D1 D2 D3 D4 D5 D6 D7 D8]. pose proof D1 as (_ & L & _). constructor; cbn [twice enter set_st set_ix new_world w_st w_ix w_next w_locked w_poisoned w_faults]; try assumption; try reflexivity.
  - apply rep_fresh. intros r. rewrite <- app_assoc. rewrite new_store_get; [apply D3; lia|]. intros E. rewrite <- (app_nil_r (f_uuid f (f_drawn f))) in E.
    apply (uuid_first f) in E as [E1 E2]; [lia|assumption|assumption].
  - eapply holds_agree; [|exact D7]. intros id _. apply new_store_get. cbn [app]. intros E. apply (f_equal (@length Z)) in E. rewrite length_be_bytes, L in E. lia.
  - apply distinct_nil.
Qed.
Lemma oldrel_new f s start en mc x c : env_ok f -> (forall i j, f_uuid f i = f_uuid f j -> i = j) ->
  oldrel f s mc x c -> oldrel (new_files f start en) (new_store f s) (S (S (f_drawn f))) x c.
Proof.
  intros He Hi (si & j & tail & lo & hi & E1 & E2 & E3 & E4 & E5 & E6 & E7). exists si, j, tail, lo, hi. cbn [new_files set_dirs draw f_uuid f_drawn].
  do 2 (split; [assumption|]). do 2 (split; [lia|]). split; [assumption|]. split; [|assumption].
  eapply rep_agree; [|exact E6]. intros r. rewrite <- app_assoc. apply new_store_get. intros E. rewrite <- (app_nil_r (f_uuid f (f_drawn f))) in E.
  apply (uuid_first f) in E as [Ej _]; [lia|assumption|assumption].
Qed.
Lemma fresh_entry f s last start en : Forall (entry_ok f s last) (f_dirs f) -> last < start -> u64 start -> u64 en ->
  ~ In (encode_chunk_dir start en) (map fst (f_dirs f)).
Proof.
  intros F Hl Us Ue K. apply in_map_iff in K as (e & E & Hin). rewrite Forall_forall in F. destruct (F e Hin) as (a & b & o & k & m & E1 & E2 & E3 & E4 & _).
  rewrite E1 in E. apply encode_inj in E as [E _]; try assumption. lia.
Qed.

(** ** swapping *)
Ltac tnorm :=
  cbn [tdhandler dhandler t_db t_kv]; cbv [set_heap set_fs set_curl set_secl set_cur set_sec free_lock rw_read rw_write rw_unread rw_unwrite];
  cbn [d_heap d_cur d_sec d_curl d_secl d_fs t_db t_kv rw_readers rw_writer rw_poisoned pred Nat.eqb negb orb].
Lemma close_shared ch v : w_locked v = false -> w_poisoned v = false ->
  run (shandler ch) chunk_close v = Some (Ok tt, set_lock (set_closed (set_lock v true false) true) false false).
Proof. intros H1 H2. destruct v as [vs vx vn vc vl vp vf]. cbn in H1, H2. subst. reflexivity. Qed.
Lemma t_swap_run cf t d start n start' : running cf t d start n -> start < start' -> start' + cf_size cf < 2 ^ 64 -> Z.of_nat (length (sh_sets d)) < 2 ^ 64 ->
  exists t', trun (top_prog cf (OpSwap start')) t = Some (snd (shelf_op cf d (OpSwap start')), t') /\
    running cf t' (fst (shelf_op cf d (OpSwap start'))) start' (S n) /\
    f_ticks (d_fs (t_db t')) = f_ticks (d_fs (t_db t)) /\ same_env (d_fs (t_db t)) (d_fs (t_db t')) /\ own_only (d_fs (t_db t)) (t_kv t) (t_kv t').
Proof.
  intros (h0 & dc & mc & re & O) Hst Hend HL. pose proof (or_like _ _ _ _ _ _ _ _ _ O) as LK. pose proof O as [H1 H2 H3 H4 H5 H6 H7 H8 H9 H10 H11 H12 H13 H14 H15 H16].
  pose proof (dk_env _ _ _ _ _ H7) as He. pose proof He as (_ & _ & _ & Hflt).
  assert (Us: u64 start') by (unfold u64; lia). assert (Ue: u64 (start' + cf_size cf)) by (unfold u64; lia).
  unfold trun, top_prog, t_swap. rewrite run_qbind, t_create; [|assumption|lia|lia|assumption| |].
  2:{ eapply fresh_entry; [apply (dk_dirs _ _ _ _ _ H7)|assumption|assumption|assumption]. }
  2:{ rewrite <- (app_nil_r (f_uuid _ _)). apply (dk_new _ _ _ _ _ H7). lia. }
  set (f := d_fs (t_db t)) in *. set (s := t_kv t) in *.
  set (nd := mkDc _ (new_world [] []) _). rewrite run_TD. unfold swap_in.
  assert (Et: t_db t = mkD (h0 ++ [dc]) (length h0) (seq 0 (length h0)) free_lock free_lock f).
  { unfold f. destruct (t_db t). cbn in *. now subst. }
  rewrite Et. rewrite run_bind, run_call. tnorm. rewrite run_qbind.
  set (heap := (h0 ++ [dc]) ++ [nd]).
  assert (NT: nth_error heap (length h0) = Some dc).
  { unfold heap. rewrite nth_error_app1 by (rewrite app_length; cbn; lia). apply nth_last. }
  rewrite (t_with_current _ _ dc) by (try exact NT; reflexivity). tnorm.
  do 3 (rewrite run_bind, run_call; tnorm). cbn [run]. tnorm.
  rewrite run_bind, run_call. tnorm. rewrite NT.
  rewrite run_bind. rewrite (run_SC _ _ _ dc) by (try exact NT; exact H14). tnorm.
  pose proof (tr_locked _ _ _ _ H15) as K1. pose proof (tr_poison _ _ _ _ H15) as K2. pose proof (tr_faults _ _ _ _ H15) as K3.
  assert (EW: dc_world dc = mkW [] (w_ix (dc_world dc)) (w_next (dc_world dc)) (w_closed (dc_world dc)) false false []).
  { clear - H14 K1 K2 K3. destruct (dc_world dc). cbn in *. now subst. }
  rewrite EW. cbn [enter set_st w_st w_ix w_next w_closed w_locked w_poisoned w_faults]. rewrite close_shared by reflexivity.
  cbn [set_lock set_closed w_st w_ix w_next w_closed w_locked w_poisoned w_faults].
  do 2 (rewrite run_bind, run_call; tnorm). cbn [run].
  cbn [leave set_st w_st w_ix w_next w_closed w_locked w_poisoned w_faults].
  set (d' := mkDc (dc_chunk dc) _ (dc_name dc)).
  assert (HU: upd heap (length h0) d' = (h0 ++ [d']) ++ [nd]).
  { unfold heap. rewrite <- !app_assoc. cbn [app]. clear. induction h0 as [|x h0 IH]; [reflexivity|]. cbn [app length]. rewrite upd_cons. now rewrite IH. }
  eexists. split; [reflexivity|]. cbn [t_db d_fs]. split; [|split; [reflexivity|split; [repeat split|exact (own_new f s)]]].
  cbn [shelf_op fst]. exists (h0 ++ [d']), nd, (S (S (f_drawn f))), re.
  constructor; cbn [t_db t_kv d_heap d_cur d_sec d_curl d_secl d_fs sh_old sh_cur sh_sets sh_tab]; try assumption; try reflexivity.
  - rewrite !app_length. reflexivity.
  - rewrite app_length. cbn [length]. rewrite seq_app. reflexivity.
  - apply (new_disk f s n start); assumption.
  - cbn [new_files set_dirs draw f_drawn]. lia.
  - rewrite app_assoc. apply Forall2_app.
    + eapply F2_impl; [|exact H10]. intros a b. apply oldrel_new; [assumption|apply H7].
    + constructor; [|constructor]. exists [], mc, nil_uuid, start, (start + cf_size cf). cbn [fst snd d' dc_chunk dc_world w_st w_locked w_poisoned w_faults new_files set_dirs draw f_uuid f_drawn].
      split; [exact H13|]. split; [exact LK|]. split; [lia|]. split; [lia|]. split; [reflexivity|]. split.
      { eapply rep_agree; [|exact (tr_ix _ _ _ _ H15)]. intros r. rewrite <- app_assoc. etransitivity; [apply (new_store_get f s)|destruct (dc_world dc); reflexivity].
        intros E. apply (f_equal (@length Z)) in E. destruct He as (_ & L & _). rewrite !app_length, !L, nil_len in E. lia. }
      do 4 (split; [reflexivity|]). split; [exact (tr_wf _ _ _ _ H15)|exact HL].
  - lia.
  - exact (new_trep f s n start _ H7).
Qed.

(** ** histories *)
Lemma t_ops cf ops : forall t d start n, running cf t d start n -> starts_ok cf start ops -> Forall ireq_ok (written ops) ->
  Z.of_nat (length (sh_sets d) + length (written ops)) < 2 ^ 64 - 1 ->
  exists t', t_after_from cf ops t = Some (snd (shelf_ops cf d ops), t') /\
    running cf t' (fst (shelf_ops cf d ops)) (last_start start ops) (n + swaps ops) /\
    f_ticks (d_fs (t_db t')) = f_ticks (d_fs (t_db t)) /\ same_env (d_fs (t_db t)) (d_fs (t_db t')) /\
    Z.of_nat (length (sh_sets (fst (shelf_ops cf d ops)))) < 2 ^ 64 - 1 /\ own_only (d_fs (t_db t)) (t_kv t) (t_kv t').
Proof.
  induction ops as [|o ops IH]; intros t d start n R Hs Hw HL.
  - exists t. cbn [t_after_from shelf_ops fst snd last_start swaps]. rewrite Nat.add_0_r. split; [reflexivity|]. split; [exact R|]. split; [reflexivity|]. split; [apply same_env_refl|]. cbn in HL. split; [lia|apply own_refl].
  - cbn [t_after_from shelf_ops].
    assert (STEP: exists t1, trun (top_prog cf o) t = Some (snd (shelf_op cf d o), t1) /\
      running cf t1 (fst (shelf_op cf d o)) (match o with OpSwap s' => s' | _ => start end) (match o with OpSwap _ => S n | _ => n end) /\
      f_ticks (d_fs (t_db t1)) = f_ticks (d_fs (t_db t)) /\ same_env (d_fs (t_db t)) (d_fs (t_db t1)) /\
      Forall ireq_ok (written ops) /\ starts_ok cf (match o with OpSwap s' => s' | _ => start end) ops /\
      Z.of_nat (length (sh_sets (fst (shelf_op cf d o))) + length (written ops)) < 2 ^ 64 - 1 /\ own_only (d_fs (t_db t)) (t_kv t) (t_kv t1)).
    { destruct o as [ls p|ls pts|start'].
      - cbn [written length starts_ok] in *. inversion Hw as [|? ? [W1 W2] W3]; subst. cbn [fst snd] in *.
        destruct (t_point cf t d start n ls p R W1 W2 ltac:(lia)) as (t1 & E & R1 & F & L & OW). exists t1. rewrite F. split; [exact E|]. split; [exact R1|].
        split; [reflexivity|]. split; [apply same_env_refl|]. split; [exact W3|]. split; [exact Hs|]. split; [lia|exact OW].
      - cbn [written starts_ok] in *. apply Forall_app in Hw as [W1 W3]. rewrite app_length, map_length in HL.
        assert (HL': Z.of_nat (length (sh_sets d) + (length pts + @length ireq (written ops))) < 2 ^ 64 - 1) by exact HL. clear HL. rename HL' into HL.
        destruct pts as [|p0 pts0].
        + exists t. assert (E0: forall ls, trun (top_prog cf (OpBatch ls [])) t = Some (Ok tt, t)).
          { clear - R. intros ls0. destruct R as (h0 & dc & mc & re & O). unfold trun, top_prog. rewrite run_TD. unfold db_write_points.
            rewrite (t_with_current _ t dc); [|apply O|rewrite (or_heap _ _ _ _ _ _ _ _ _ O), (or_cur _ _ _ _ _ _ _ _ _ O); apply nth_last].
            cbn. do 2 f_equal. pose proof (or_curl _ _ _ _ _ _ _ _ _ O) as H4. destruct t as [[] ?]; cbn in *. subst. reflexivity. }
          rewrite E0. cbn [shelf_op puts existsb negb orb fst snd]. destruct d as [d1 d2 d3 d4]. cbn [sh_old sh_cur sh_sets sh_tab] in *.
          split; [reflexivity|]. split; [exact R|]. split; [reflexivity|]. split; [apply same_env_refl|]. split; [exact W3|]. split; [exact Hs|]. split; [exact HL|apply own_refl].
        + set (pts := p0 :: pts0) in *. assert (W: set_ok ls /\ Forall tp_ok pts).
          { rewrite Forall_forall in W1. split; [apply (W1 (ls, p0)); cbn; now left|]. rewrite Forall_forall. intros p Hp. apply (W1 (ls, p)). now apply in_map. }
          destruct W as [W0 W2].
          destruct (t_batch cf t d start n ls pts R W0 W2 ltac:(lia)) as (t1 & E & R1 & F & L & OW). exists t1. rewrite F. split; [exact E|]. split; [exact R1|].
          split; [reflexivity|]. split; [apply same_env_refl|]. split; [exact W3|]. split; [exact Hs|]. split; [lia|exact OW].
      - cbn [written starts_ok] in *. destruct Hs as (S1 & S2 & S3).
        destruct (t_swap_run cf t d start n start' R S1 S2 ltac:(lia)) as (t1 & E & R1 & F1 & F2 & OW). exists t1. split; [exact E|]. split; [exact R1|].
        split; [exact F1|]. split; [exact F2|]. split; [exact Hw|]. split; [exact S3|]. cbn [shelf_op fst sh_sets length]. split; [lia|exact OW]. }
    destruct STEP as (t1 & E & R1 & F1 & F2 & W & S1 & L1 & OW). rewrite E. destruct (shelf_op cf d o) as [d1 r] eqn:ED. cbn [fst snd] in *.
    destruct (IH t1 d1 _ _ R1 S1 W L1) as (t' & E' & R' & F1' & F2' & L' & OW'). rewrite E'. destruct (shelf_ops cf d1 ops) as [d2 rs]. cbn [fst snd] in *.
    exists t'. split; [reflexivity|]. split.
    { destruct o; cbn [last_start swaps]; try exact R'. now rewrite Nat.add_succ_r. }
    split; [congruence|]. split; [eapply same_env_trans; eassumption|]. split; [exact L'|]. eapply own_trans; [|exact OW|exact OW']. destruct F2 as (_ & _ & F2). apply F2.
Qed.
