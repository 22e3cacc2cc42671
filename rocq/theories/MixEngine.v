(* Proofs: a database over one TiKV store and sled stores, whatever its chunks look like there. *)
From Coq Require Import ZifyBool ZifyNat Permutation Sorted.
From Verif Require Import Rust StringProofs BitsProofs Prog Gorilla GorillaSpec Storage StorageSpec StorageProofs Labels IndexSpec Indexer
  LabelProofs IndexProofs Chunk ChunkSpec ChunkProofs ChunkFacts Conc Utils DirSpec DirProofs TiKvInit TiKvShared TiKvSpec TiKvProofs
  Db DbSpec MapProofs DbProofs DbHist DbFacts SwapProofs ReopenSpec ReopenProofs RangeSpec RangeProofs TiKvDb TiKvDbSpec TiKvDbRun TiKvDbChunk TiKvDbProofs TiKvDbMain
  MixDb MixSpec MixRun.

(* the current chunk after [close] *)
Definition shut (d : dchunk) : dchunk := mkDc (dc_chunk d) (set_closed (dc_world d) true) (dc_name d).
(* a chunk of which queries see nothing *)
Definition blank (A : content) : Prop := part_ok (mkChunk SledStorage SledIndexer 0 0, A) /\ Forall (fun x => snd x = []) A.
Lemma blank_piece ch A q s e m : blank A -> piece (ch, A) q s e m = [].
Proof.
  intros [_ H]. unfold piece. destruct (answers _ _ _ _); [|reflexivity]. cbn [snd]. destruct (find _ A) as [x|] eqn:E; [|reflexivity].
  apply find_some in E as [E _]. rewrite Forall_forall in H. now rewrite (H x E).
Qed.
Lemma part_ok_any a b A : part_ok (a, A) -> part_ok (b, A).
Proof. intros [H1 H2 H3]. constructor; assumption. Qed.

Section Engine.
Variables (st ix : backend) (K G : Type).
(* what the chunk makes of a point *)
Variable gput : chunk -> K * G -> list label -> tp -> (K * G) * bool.
Variable k0 : K.
Variable size : K -> nat.
Variable gview : K -> G -> content.
(* the files and the store; the current chunk; a chunk no longer current *)
Variable Disk : fworld -> kv -> nat -> Z -> G -> Prop.
Variable Cur : (nat -> list Z) -> nat -> kv -> nat -> dchunk -> chunk -> K -> G -> Prop.
Variable Old : (nat -> list Z) -> nat -> kv -> nat -> dchunk -> chunk -> (G -> content) -> Prop.
Variable Keep : dchunk -> Prop.

Hypothesis disk_env : forall f s n last g, Disk f s n last g -> env_ok f.
Hypothesis disk_len : forall f s n last g, Disk f s n last g -> length (f_dirs f) = n.
Hypothesis disk_names : forall f s n last g, Disk f s n last g -> Forall (fun e => fst e <> metadata_name) (f_dirs f).
Hypothesis disk_tick1 : forall f s n last g, Disk f s n last g -> Disk (tick f) s n last g.
Hypothesis disk_meta1 : forall f s n last g m, Disk f s n last g -> Disk (set_fmeta f m) s n last g.
Hypothesis disk_stop : forall f s n last g h, Disk f s n last g -> Forall Keep h -> Disk (left_behind st ix h f) s n last g.
Hypothesis cur_keep : forall u n s m d c k g, Cur u n s m d c k g -> Z.of_nat (size k) < 2 ^ 64 -> Keep d.
Hypothesis old_keep : forall u n s m d c v, Old u n s m d c v -> Keep d.
Hypothesis cur_free : forall u n s m d c k g, Cur u n s m d c k g -> like (dc_chunk d) c /\ still d /\ w_locked (dc_world d) = false /\ w_poisoned (dc_world d) = false.
Hypothesis size0 : size k0 = 0%nat.
Hypothesis gput_out : forall c x ls p, in_windowb c (tp_ts p) = false -> gput c x ls p = (x, true).
Hypothesis h_insert : forall f s n last g m d c k ls p, Disk f s n last g -> Cur (f_uuid f) (f_drawn f) s m d c k g -> set_ok ls -> tp_ok p -> Z.of_nat (size k) + 1 < 2 ^ 64 ->
  exists k' g' ok w' s', gput c (k, g) ls p = ((k', g'), ok) /\
    run (xchandler (dc_chunk d)) (chunk_insert (dc_chunk d) ls p) (dc_world d, s) = Some (put_res (dc_chunk d) p ok, (w', s')) /\
    Disk f s' n last g' /\ Cur (f_uuid f) (f_drawn f) s' m (mkDc (dc_chunk d) w' (dc_name d)) c k' g' /\
    (forall x c v, Old (f_uuid f) (f_drawn f) s m x c v -> Old (f_uuid f) (f_drawn f) s' m x c v) /\ (size k' <= S (size k))%nat.
Hypothesis h_create : forall cf start db s n last g, let f := d_fs db in Disk f s n last g -> last < start -> u64 start -> u64 (start + cf_size cf) -> 0 <= cf_size cf ->
  cf_st cf = st -> cf_ix cf = ix ->
  exists d f' s' m', run xhandler (x_create_chunk cf start) (mkT db s) = Some (Ok d, mkT (set_fs db f') s') /\
    Disk f' s' (S n) start g /\ Cur (f_uuid f') (f_drawn f') s' m' d (the_chunk cf start) k0 g /\
    (forall m x c v, Old (f_uuid f) (f_drawn f) s m x c v -> Old (f_uuid f') (f_drawn f') s' m' x c v) /\
    (forall m x c k, Cur (f_uuid f) (f_drawn f) s m x c k g -> Z.of_nat (size k) < 2 ^ 64 -> Old (f_uuid f') (f_drawn f') s' m' (shut x) c (gview k)) /\
    f_ticks f' = f_ticks f /\ same_env f f' /\ f_meta f' = f_meta f.
Hypothesis h_entry : forall cf db s n last g name, let f := d_fs db in Disk f s n last g -> cf_st cf = st -> cf_ix cf = ix ->
  cf_base cf <> [] -> ascii (cf_base cf) -> In name (map fst (f_dirs f)) ->
  exists d A, run xhandler (x_read_entry cf name) (mkT db s) = Some (Ok (Some d), mkT (set_fs db (tick f)) s) /\ blank A /\
    Old (f_uuid f) (f_drawn f) s (f_drawn f) d (dc_chunk d) (fun _ => A).
Hypothesis read_cur : forall f s n last g m d c k, Disk f s n last g -> Cur (f_uuid f) (f_drawn f) s m d c k g -> Z.of_nat (size k) < 2 ^ 64 ->
  crq (dc_chunk d) (xenter (dc_chunk d) s (dc_world d)) (gview k g).
Hypothesis read_old : forall f s n last g m d c v, Disk f s n last g -> Old (f_uuid f) (f_drawn f) s m d c v ->
  like (dc_chunk d) c /\ still d /\ crq (dc_chunk d) (xenter (dc_chunk d) s (dc_world d)) (v g).

(** ** what it amounts to *)
Fixpoint gputs (c : chunk) (x : K * G) (ls : list label) (pts : list tp) : (K * G) * bool :=
  match pts with
  | [] => (x, true)
  | p :: pts' => let '(x', b) := gput c x ls p in let '(x'', b') := gputs c x' ls pts' in (x'', b && b')
  end.
Record bins := mkBins { bn_old : list (chunk * K); bn_cur : chunk; bn_k : K; bn_g : G }.
Definition bop (cf : config) (d : bins) (o : dop) : bins * res unit :=
  let c := bn_cur d in
  match o with
  | OpPoint ls p =>
      let '((k, g), ok) := gput c (bn_k d, bn_g d) ls p in
      (mkBins (bn_old d) c k g,
       if in_windowb c (tp_ts p) then (if ok then Ok tt else Err InternalErr) else Err (OutOfRangeErr (c_start c) (c_end c)))
  | OpBatch ls pts =>
      let '((k, g), ok) := gputs c (bn_k d, bn_g d) ls pts in
      (mkBins (bn_old d) c k g, if existsb (on_edge c) pts || negb ok then Err InternalErr else Ok tt)
  | OpSwap start => (mkBins (bn_old d ++ [(c, bn_k d)]) (the_chunk cf start) k0 (bn_g d), Ok tt)
  end.
Fixpoint bops (cf : config) (d : bins) (ops : list dop) : bins * list (res unit) :=
  match ops with
  | [] => (d, [])
  | o :: ops' => let '(d', r) := bop cf d o in let '(d'', rs) := bops cf d' ops' in (d'', r :: rs)
  end.
Definition open_bins (cf : config) (start : Z) (g : G) : bins := mkBins [] (the_chunk cf start) k0 g.
Fixpoint blives (clock : nat -> Z) (tick n : nat) (g : G) (L : list life) : list (bins * list (res unit)) :=
  match L with
  | [] => []
  | x :: L' =>
      let y := bops (lf_cf x) (open_bins (lf_cf x) (clock (tick + n)%nat) g) (lf_ops x) in
      y :: blives clock (S (tick + n)) (n + S (swaps (lf_ops x))) (bn_g (fst y)) L'
  end.
Definition bparts (d : bins) : list part := map (fun c => (fst c, gview (snd c) (bn_g d))) (bn_old d ++ [(bn_cur d, bn_k d)]).

(** ** a running database *)
Definition oldpair (u : nat -> list Z) (n : nat) (s : kv) (m : nat) (x : dchunk) (c : chunk * (G -> content)) : Prop := Old u n s m x (fst c) (snd c).
Definition viewed (c : chunk * K) : chunk * (G -> content) := (fst c, gview (snd c)).
Record openrep (cf : config) (t : tworld) (d : bins) (start : Z) (n : nat) (h0 : list dchunk) (dc : dchunk) (m : nat) (re : list part) : Prop := mkXor {
  xr_heap : d_heap (t_db t) = h0 ++ [dc];
  xr_cur : d_cur (t_db t) = length h0;
  xr_sec : d_sec (t_db t) = seq 0 (length h0);
  xr_curl : d_curl (t_db t) = free_lock;
  xr_secl : d_secl (t_db t) = free_lock;
  xr_meta : f_meta (d_fs (t_db t)) = Some (Written (own_meta cf));
  xr_disk : Disk (d_fs (t_db t)) (t_kv t) n start (bn_g d);
  xr_re : Forall (fun c => blank (snd c)) re;
  xr_old : Forall2 (oldpair (f_uuid (d_fs (t_db t))) (f_drawn (d_fs (t_db t))) (t_kv t) m) h0 (map (fun c => (fst c, fun _ => snd c)) re ++ map viewed (bn_old d));
  xr_win : bn_cur d = the_chunk cf start;
  xr_pos : 0 <= start /\ 0 <= cf_size cf /\ start + cf_size cf < 2 ^ 64;
  xr_this : Cur (f_uuid (d_fs (t_db t))) (f_drawn (d_fs (t_db t))) (t_kv t) m dc (bn_cur d) (bn_k d) (bn_g d);
  xr_types : cf_st cf = st /\ cf_ix cf = ix }.
Definition xrunning (cf : config) (t : tworld) (d : bins) (start : Z) (n : nat) : Prop := exists h0 dc m re, openrep cf t d start n h0 dc m re.

Lemma xr_write cf t d start n h0 dc m re cw s' k' g' : openrep cf t d start n h0 dc m re ->
  Disk (d_fs (t_db t)) s' n start g' -> Cur (f_uuid (d_fs (t_db t))) (f_drawn (d_fs (t_db t))) s' m (mkDc (dc_chunk dc) cw (dc_name dc)) (bn_cur d) k' g' ->
  (forall x c v, Old (f_uuid (d_fs (t_db t))) (f_drawn (d_fs (t_db t))) (t_kv t) m x c v -> Old (f_uuid (d_fs (t_db t))) (f_drawn (d_fs (t_db t))) s' m x c v) ->
  openrep cf (mkT (set_heap (t_db t) (h0 ++ [mkDc (dc_chunk dc) cw (dc_name dc)])) s') (mkBins (bn_old d) (bn_cur d) k' g') start n
    h0 (mkDc (dc_chunk dc) cw (dc_name dc)) m re.
Proof.
  intros [H1 H2 H3 H4 H5 H6 H7 H8 H9 H10 H11 H12 H13] D C O.
  constructor; cbn [t_db t_kv set_heap d_heap d_cur d_sec d_curl d_secl d_fs bn_old bn_cur bn_k bn_g dc_chunk dc_world dc_name]; try assumption.
  - reflexivity.
  - eapply F2_impl; [|exact H9]. intros a b. unfold oldpair. apply O.
Qed.

(** ** writing *)
Lemma x_write_all n last i ls pts : set_ok ls -> Forall tp_ok pts -> forall t d c k g m,
  let f := d_fs (t_db t) in
  nth_error (d_heap (t_db t)) i = Some d -> Disk f (t_kv t) n last g -> Cur (f_uuid f) (f_drawn f) (t_kv t) m d c k g -> 0 <= c_start c ->
  Z.of_nat (size k + length pts) < 2 ^ 64 ->
  exists cw s' k' g' ok, gputs c (k, g) ls pts = ((k', g'), ok) /\
    run xdhandler (write_all i (dc_chunk d) ls pts) t = Some (Ok (existsb (refused (dc_chunk d)) pts || negb ok), mkT (set_heap (t_db t) (upd (d_heap (t_db t)) i (mkDc (dc_chunk d) cw (dc_name d)))) s') /\
    Disk f s' n last g' /\ Cur (f_uuid f) (f_drawn f) s' m (mkDc (dc_chunk d) cw (dc_name d)) c k' g' /\
    (forall x c v, Old (f_uuid f) (f_drawn f) (t_kv t) m x c v -> Old (f_uuid f) (f_drawn f) s' m x c v) /\ (size k' <= size k + length pts)%nat.
Proof.
  intros Hls Hp. induction Hp as [|p pts Hp _ IH]; intros t d c k g m f Hn D C H0 HL.
  - exists (dc_world d), (t_kv t), k, g, true. split; [reflexivity|]. assert (ED: mkDc (dc_chunk d) (dc_world d) (dc_name d) = d) by (now destruct d). rewrite ED.
    split; [|split; [exact D|split; [exact C|split; [auto|cbn [length]; lia]]]].
    cbn [write_all run existsb negb orb]. rewrite upd_self by assumption. now destruct t as [[] ?].
  - cbn [length] in HL. cbn [write_all existsb gputs]. set (ch := dc_chunk d).
    destruct (cur_free _ _ _ _ _ _ _ _ C) as (LK & _ & _ & _).
    destruct (h_insert f (t_kv t) n last g m d c k ls p D C Hls Hp ltac:(lia)) as (k1 & g1 & ok1 & w1 & s1 & P1 & E1 & D1 & C1 & O1 & L1).
    fold ch in E1, C1. rewrite P1.
    assert (Hi: (i < length (d_heap (t_db t)))%nat) by (apply nth_error_Some; congruence).
    set (t1 := mkT (set_heap (t_db t) (upd (d_heap (t_db t)) i (mkDc ch w1 (dc_name d)))) s1).
    assert (Q: forall x, run xdhandler (lift (fun X c => @DC X i c) (chunk_insert ch ls p)) t = x -> x = Some (put_res ch p ok1, t1)).
    { intros x <-. rewrite (xrun_C i _ t d Hn). fold ch. rewrite E1. reflexivity. }
    assert (NT: nth_error (d_heap (t_db t1)) i = Some (mkDc ch w1 (dc_name d))).
    { cbn [t1 t_db set_heap d_heap]. rewrite nth_upd by assumption. now rewrite Nat.eqb_refl. }
    destruct (IH t1 (mkDc ch w1 (dc_name d)) c k1 g1 m NT D1 C1 H0 ltac:(lia)) as (cw & s' & k' & g' & ok & P2 & E2 & D2 & C2 & O2 & L2).
    cbn [t1 t_db t_kv set_heap d_heap dc_name dc_chunk d_fs] in E2, D2, C2, O2. rewrite upd_upd in E2 by assumption. fold t1 in E2.
    rewrite P2. unfold refused at 1. destruct (batch_passes ch p) eqn:B.
    + exists cw, s', k', g', (ok1 && ok). split; [reflexivity|]. split; [|split; [exact D2|split; [exact C2|split; [auto|cbn [length]; lia]]]].
      rewrite run_bind, (Q _ eq_refl). unfold put_res. change (mkT _ _) with (mkT (set_heap (t_db t) (upd (d_heap (t_db t)) i (mkDc ch cw (dc_name d)))) s') in E2.
      destruct (in_windowb ch (tp_ts p)) eqn:W; cbn [andb negb orb].
      * destruct ok1; cbn [andb negb]; [exact E2|]. rewrite run_qbind, E2. cbn [run]. now rewrite Bool.orb_true_r.
      * rewrite run_qbind, E2. reflexivity.
    + assert (W: in_windowb c (tp_ts p) = false).
      { rewrite <- (like_window _ _ LK). destruct LK as (_ & S1 & _). fold ch in S1. fold ch. unfold batch_passes in B. unfold in_windowb in *. lia. }
      rewrite (gput_out c (k, g) ls p W) in P1. assert (EP: k1 = k /\ g1 = g /\ ok1 = true) by (repeat split; congruence). destruct EP as (-> & -> & ->).
      destruct (IH t d c k g m Hn D C H0 ltac:(lia)) as (cw' & s'' & k'' & g'' & ok' & P3 & E3 & D3 & C3 & O3 & L3). fold ch in E3, C3.
      rewrite P2 in P3. assert (EP: k'' = k' /\ g'' = g' /\ ok' = ok) by (repeat split; congruence). destruct EP as (-> & -> & ->).
      exists cw', s'', k', g', ok. cbn [andb].
      split; [reflexivity|]. split; [exact E3|]. split; [exact D3|]. split; [exact C3|]. split; [exact O3|]. cbn [length]; lia.
Qed.

Lemma x_point cf t d start n ls p : xrunning cf t d start n -> set_ok ls -> tp_ok p -> Z.of_nat (size (bn_k d)) + 1 < 2 ^ 64 ->
  exists t', xrun (xop_prog cf (OpPoint ls p)) t = Some (snd (bop cf d (OpPoint ls p)), t') /\
    xrunning cf t' (fst (bop cf d (OpPoint ls p))) start n /\ d_fs (t_db t') = d_fs (t_db t) /\
    (size (bn_k (fst (bop cf d (OpPoint ls p)))) <= S (size (bn_k d)))%nat.
Proof.
  intros (h0 & dc & m & re & O) Hls Hp HL. pose proof O as [H1 H2 H3 H4 H5 H6 H7 H8 H9 H10 H11 H12 H13].
  destruct (cur_free _ _ _ _ _ _ _ _ H12) as (LK & _ & _ & _).
  assert (N: nth_error (d_heap (t_db t)) (d_cur (t_db t)) = Some dc) by (rewrite H1, H2; apply nth_last).
  unfold xrun, xop_prog. rewrite xrun_TD. unfold db_write_point. rewrite (x_with_current _ t dc H4 N).
  rewrite (xrun_C _ _ _ dc) by (cbn [t_db set_curl d_heap]; assumption). cbn [t_db t_kv set_curl d_heap].
  destruct (h_insert _ _ _ _ _ _ _ _ _ ls p H7 H12 Hls Hp HL) as (k' & g' & ok & w' & s' & P & E & D' & C' & O' & L).
  rewrite E. cbn [fst snd t_db t_kv set_heap set_curl d_curl rw_unread rw_readers rw_writer rw_poisoned pred].
  cbn [bop]. rewrite P. cbn [fst snd bn_k].
  eexists. split; [|split; [|split; [|exact L]]].
  - do 2 f_equal. unfold put_res. rewrite (like_window _ _ LK). destruct LK as (_ & -> & ->). reflexivity.
  - exists h0, (mkDc (dc_chunk dc) w' (dc_name dc)), m, re.
    pose proof (xr_write _ _ _ _ _ _ _ _ _ w' s' k' g' O D' C' O') as OO.
    replace (set_curl _ _) with (set_heap (t_db t) (h0 ++ [mkDc (dc_chunk dc) w' (dc_name dc)])); [exact OO|].
    rewrite H1, H2, upd_last. clear - H4. destruct t as [[] ?]; cbn in *. subst. reflexivity.
  - reflexivity.
Qed.
Lemma x_batch cf t d start n ls pts : xrunning cf t d start n -> set_ok ls -> Forall tp_ok pts -> Z.of_nat (size (bn_k d) + length pts) < 2 ^ 64 ->
  exists t', xrun (xop_prog cf (OpBatch ls pts)) t = Some (snd (bop cf d (OpBatch ls pts)), t') /\
    xrunning cf t' (fst (bop cf d (OpBatch ls pts))) start n /\ d_fs (t_db t') = d_fs (t_db t) /\
    (size (bn_k (fst (bop cf d (OpBatch ls pts)))) <= size (bn_k d) + length pts)%nat.
Proof.
  intros (h0 & dc & m & re & O) Hls Hp HL. pose proof O as [H1 H2 H3 H4 H5 H6 H7 H8 H9 H10 H11 H12 H13].
  destruct (cur_free _ _ _ _ _ _ _ _ H12) as (LK & _ & _ & _).
  assert (N: nth_error (d_heap (t_db t)) (d_cur (t_db t)) = Some dc) by (rewrite H1, H2; apply nth_last).
  unfold xrun, xop_prog. rewrite xrun_TD. unfold db_write_points. rewrite (x_with_current _ t dc H4 N). rewrite run_qbind.
  assert (P0: 0 <= c_start (bn_cur d)) by (rewrite H10; cbn [the_chunk c_start]; lia).
  destruct (x_write_all n start (d_cur (t_db t)) ls pts Hls Hp
    (mkT (set_curl (t_db t) (mkRw 1 false false)) (t_kv t)) dc (bn_cur d) (bn_k d) (bn_g d) m N H7 H12 P0 HL) as (cw & s' & k' & g' & ok & P & E & D' & C' & O' & L).
  rewrite E. cbn [run t_db t_kv set_heap set_curl d_curl d_heap rw_unread rw_readers rw_writer rw_poisoned pred].
  cbn [bop]. rewrite P. cbn [fst snd bn_k].
  eexists. split; [|split; [|split; [|exact L]]].
  - do 2 f_equal. assert (existsb (refused (dc_chunk dc)) pts = existsb (on_edge (bn_cur d)) pts) as ->; [|reflexivity].
    clear - LK H10 H11. induction pts as [|p pts IH]; [reflexivity|]. cbn [existsb]. rewrite IH, (like_refused _ _ LK). f_equal.
    apply refused_edge. rewrite H10. cbn [the_chunk c_start c_end]. lia.
  - exists h0, (mkDc (dc_chunk dc) cw (dc_name dc)), m, re.
    pose proof (xr_write _ _ _ _ _ _ _ _ _ cw s' k' g' O D' C' O') as OO.
    replace (set_curl _ _) with (set_heap (t_db t) (h0 ++ [mkDc (dc_chunk dc) cw (dc_name dc)])); [exact OO|].
    rewrite H1, H2, upd_last. clear - H4. destruct t as [[] ?]; cbn in *. subst. reflexivity.
  - reflexivity.
Qed.

(** ** swapping *)
Ltac xnorm :=
  cbn [xdhandler dhandler t_db t_kv]; cbv [set_heap set_fs set_curl set_secl set_cur set_sec free_lock rw_read rw_write rw_unread rw_unwrite];
  cbn [d_heap d_cur d_sec d_curl d_secl d_fs t_db t_kv rw_readers rw_writer rw_poisoned pred Nat.eqb negb orb].
Lemma close_mixed ch w s : w_locked w = false -> w_poisoned w = false ->
  run (xchandler ch) chunk_close (w, s) = Some (Ok tt, (set_closed w true, s)).
Proof. intros H1 H2. destruct w as [vs vx vn vc vl vp vf]. cbn in H1, H2. subst. reflexivity. Qed.
Lemma x_swap_run cf t d start n start' : xrunning cf t d start n -> start < start' -> start' + cf_size cf < 2 ^ 64 -> Z.of_nat (size (bn_k d)) < 2 ^ 64 ->
  exists t', xrun (xop_prog cf (OpSwap start')) t = Some (snd (bop cf d (OpSwap start')), t') /\
    xrunning cf t' (fst (bop cf d (OpSwap start'))) start' (S n) /\
    f_ticks (d_fs (t_db t')) = f_ticks (d_fs (t_db t)) /\ same_env (d_fs (t_db t)) (d_fs (t_db t')).
Proof.
  intros (h0 & dc & m & re & O) Hst Hend HL. pose proof O as [H1 H2 H3 H4 H5 H6 H7 H8 H9 H10 H11 H12 H13]. destruct H13 as [T1 T2].
  destruct (cur_free _ _ _ _ _ _ _ _ H12) as (LK & _ & W1 & W2).
  assert (Us: u64 start') by (unfold u64; lia). assert (Ue: u64 (start' + cf_size cf)) by (unfold u64; lia).
  destruct (h_create cf start' (t_db t) (t_kv t) n start (bn_g d) H7 Hst Us Ue (proj1 (proj2 H11)) T1 T2) as (nd & f' & s' & m' & E & D' & C' & O1 & O2 & F1 & F2 & F3).
  unfold xrun, xop_prog, x_swap. assert (E': run xhandler (x_create_chunk cf start') t = Some (Ok nd, mkT (set_fs (t_db t) f') s')) by (destruct t; exact E). rewrite run_qbind, E'. clear E E'.
  set (f := d_fs (t_db t)) in *. rewrite xrun_TD. unfold swap_in.
  assert (Et: t_db t = mkD (h0 ++ [dc]) (length h0) (seq 0 (length h0)) free_lock free_lock f).
  { unfold f. destruct (t_db t). cbn in *. now subst. }
  rewrite Et. rewrite run_bind, run_call. xnorm. rewrite run_qbind.
  set (heap := (h0 ++ [dc]) ++ [nd]).
  assert (NT: nth_error heap (length h0) = Some dc).
  { unfold heap. rewrite nth_error_app1 by (rewrite app_length; cbn; lia). apply nth_last. }
  rewrite (x_with_current _ _ dc) by (try exact NT; reflexivity). xnorm.
  do 3 (rewrite run_bind, run_call; xnorm). cbn [run]. xnorm.
  rewrite run_bind, run_call. xnorm. rewrite NT.
  rewrite run_bind. rewrite (xrun_C _ _ _ dc) by exact NT. xnorm. rewrite close_mixed by assumption. cbn [fst snd].
  do 2 (rewrite run_bind, run_call; xnorm). cbn [run]. fold (shut dc).
  assert (HU: upd heap (length h0) (shut dc) = (h0 ++ [shut dc]) ++ [nd]).
  { unfold heap. rewrite <- !app_assoc. cbn [app]. clear. induction h0 as [|x h0 IH]; [reflexivity|]. cbn [app length]. rewrite upd_cons. now rewrite IH. }
  eexists. split; [reflexivity|]. cbn [t_db d_fs]. split; [|split; [exact F1|exact F2]].
  cbn [bop fst]. exists (h0 ++ [shut dc]), nd, m', re.
  constructor; cbn [t_db t_kv d_heap d_cur d_sec d_curl d_secl d_fs bn_old bn_cur bn_k bn_g]; try assumption; try reflexivity.
  - rewrite !app_length. reflexivity.
  - rewrite app_length. cbn [length]. rewrite seq_app. reflexivity.
  - rewrite F3. exact H6.
  - rewrite map_app, app_assoc. apply Forall2_app.
    + eapply F2_impl; [|exact H9]. intros a b. unfold oldpair. apply O1.
    + constructor; [|constructor]. unfold oldpair, viewed. cbn [fst snd]. eapply O2; [exact H12|exact HL].
  - lia.
  - auto.
Qed.

(** ** histories *)
Lemma x_ops cf ops : forall t d start n, xrunning cf t d start n -> starts_ok cf start ops -> Forall ireq_ok (written ops) ->
  Z.of_nat (size (bn_k d) + length (written ops)) < 2 ^ 64 - 1 ->
  exists t', x_after_from cf ops t = Some (snd (bops cf d ops), t') /\
    xrunning cf t' (fst (bops cf d ops)) (last_start start ops) (n + swaps ops) /\
    f_ticks (d_fs (t_db t')) = f_ticks (d_fs (t_db t)) /\ same_env (d_fs (t_db t)) (d_fs (t_db t')) /\
    Z.of_nat (size (bn_k (fst (bops cf d ops)))) < 2 ^ 64 - 1.
Proof.
  induction ops as [|o ops IH]; intros t d start n R Hs Hw HL.
  - exists t. cbn [x_after_from bops fst snd last_start swaps]. rewrite Nat.add_0_r. split; [reflexivity|]. split; [exact R|]. split; [reflexivity|]. split; [apply same_env_refl|]. cbn in HL. lia.
  - cbn [x_after_from bops].
    assert (STEP: exists t1, xrun (xop_prog cf o) t = Some (snd (bop cf d o), t1) /\
      xrunning cf t1 (fst (bop cf d o)) (match o with OpSwap s' => s' | _ => start end) (match o with OpSwap _ => S n | _ => n end) /\
      f_ticks (d_fs (t_db t1)) = f_ticks (d_fs (t_db t)) /\ same_env (d_fs (t_db t)) (d_fs (t_db t1)) /\
      Forall ireq_ok (written ops) /\ starts_ok cf (match o with OpSwap s' => s' | _ => start end) ops /\
      Z.of_nat (size (bn_k (fst (bop cf d o))) + length (written ops)) < 2 ^ 64 - 1).
    { destruct o as [ls p|ls pts|start'].
      - cbn [written length starts_ok] in *. inversion Hw as [|? ? [W1 W2] W3]; subst. cbn [fst snd] in *.
        destruct (x_point cf t d start n ls p R W1 W2 ltac:(lia)) as (t1 & E & R1 & F & L). exists t1. rewrite F. split; [exact E|]. split; [exact R1|].
        split; [reflexivity|]. split; [apply same_env_refl|]. split; [exact W3|]. split; [exact Hs|]. lia.
      - cbn [written starts_ok] in *. apply Forall_app in Hw as [W1 W3]. rewrite app_length, map_length in HL.
        assert (HL': Z.of_nat (size (bn_k d) + (length pts + @length ireq (written ops))) < 2 ^ 64 - 1) by exact HL. clear HL. rename HL' into HL.
        destruct pts as [|p0 pts0].
        + exists t. assert (E0: forall ls, xrun (xop_prog cf (OpBatch ls [])) t = Some (Ok tt, t)).
          { clear - R. intros ls0. destruct R as (h0 & dc & mc & re & O). unfold xrun, xop_prog. rewrite xrun_TD. unfold db_write_points.
            rewrite (x_with_current _ t dc); [|apply O|rewrite (xr_heap _ _ _ _ _ _ _ _ _ O), (xr_cur _ _ _ _ _ _ _ _ _ O); apply nth_last].
            cbn. do 2 f_equal. pose proof (xr_curl _ _ _ _ _ _ _ _ _ O) as H4. destruct t as [[] ?]; cbn in *. subst. reflexivity. }
          rewrite E0. cbn [bop gputs existsb negb orb fst snd]. destruct d as [d1 d2 d3 d4]. cbn [bn_old bn_cur bn_k bn_g] in *.
          split; [reflexivity|]. split; [exact R|]. split; [reflexivity|]. split; [apply same_env_refl|]. split; [exact W3|]. split; [exact Hs|]. exact HL.
        + set (pts := p0 :: pts0) in *. assert (W: set_ok ls /\ Forall tp_ok pts).
          { rewrite Forall_forall in W1. split; [apply (W1 (ls, p0)); cbn; now left|]. rewrite Forall_forall. intros p Hp. apply (W1 (ls, p)). now apply in_map. }
          destruct W as [W0 W2].
          destruct (x_batch cf t d start n ls pts R W0 W2 ltac:(lia)) as (t1 & E & R1 & F & L). exists t1. rewrite F. split; [exact E|]. split; [exact R1|].
          split; [reflexivity|]. split; [apply same_env_refl|]. split; [exact W3|]. split; [exact Hs|]. lia.
      - cbn [written starts_ok] in *. destruct Hs as (S1 & S2 & S3).
        destruct (x_swap_run cf t d start n start' R S1 S2 ltac:(lia)) as (t1 & E & R1 & F1 & F2). exists t1. split; [exact E|]. split; [exact R1|].
        split; [exact F1|]. split; [exact F2|]. split; [exact Hw|]. split; [exact S3|]. cbn [bop fst bn_k]. rewrite size0. lia. }
    destruct STEP as (t1 & E & R1 & F1 & F2 & W & S1 & L1). rewrite E. destruct (bop cf d o) as [d1 r] eqn:ED. cbn [fst snd] in *.
    destruct (IH t1 d1 _ _ R1 S1 W L1) as (t' & E' & R' & F1' & F2' & L'). rewrite E'. destruct (bops cf d1 ops) as [d2 rs]. cbn [fst snd] in *.
    exists t'. split; [reflexivity|]. split.
    { destruct o; cbn [last_start swaps]; try exact R'. now rewrite Nat.add_succ_r. }
    split; [congruence|]. split; [eapply same_env_trans; eassumption|exact L'].
Qed.

(** ** opening *)
Lemma x_meta_entry cf t : cf_base cf <> [] -> run xhandler (x_read_entry cf metadata_name) t = Some (Ok None, t).
Proof.
  intros H. unfold x_read_entry. rewrite extract_exact by (try assumption; apply metadata_plain).
  destruct (metadata_suffix (Z.to_nat (surplus (cf_base cf)))) as (e & ->). reflexivity.
Qed.
Lemma disk_ticks k : forall f s n last g, Disk f s n last g -> Disk (ticked k f) s n last g.
Proof.
  induction k as [|k IH]; intros f s n last g D; [now rewrite ticked_0|]. rewrite <- ticked_tick. apply IH. now apply disk_tick1.
Qed.
Definition found (u : nat -> list Z) (n : nat) (s : kv) (d : dchunk) : Prop := exists A, blank A /\ Old u n s n d (dc_chunk d) (fun _ => A).
Lemma x_entries cf n last g s names : cf_st cf = st -> cf_ix cf = ix -> cf_base cf <> [] -> ascii (cf_base cf) -> forall db, let f := d_fs db in Disk f s n last g ->
  Forall (fun x => x = metadata_name \/ x <> metadata_name /\ In x (map fst (f_dirs f))) names ->
  exists l, run xhandler (forM (x_read_entry cf) names) (mkT db s) = Some (Ok l, mkT (set_fs db (ticked (length (filter is_dir names)) f)) s) /\
    Forall (found (f_uuid f) (f_drawn f) s) (somes l).
Proof.
  intros T1 T2 Hb Ha. induction names as [|x names IH]; intros db f D F; cbn [forM].
  - exists []. split; [|constructor]. cbn [run filter length]. rewrite ticked_0. unfold f. now destruct db.
  - inversion F as [|? ? F1 F2]; subst. rewrite run_qbind. destruct F1 as [->|[NE F1]].
    + rewrite x_meta_entry by assumption. rewrite run_qbind. destruct (IH db D F2) as (l & E & H). rewrite E. cbn [run].
      exists (None :: l). split; [|exact H]. cbn [filter]. unfold is_dir at 2. rewrite bytes_eqb_refl. reflexivity.
    + destruct (h_entry cf db s n last g x D eq_refl eq_refl Hb Ha F1) as (d & A & E & B & H). fold f in E, H. rewrite E. rewrite run_qbind.
      destruct (IH (set_fs db (tick f)) (disk_tick1 _ _ _ _ _ D) F2) as (l & E' & H'). rewrite E'. cbn [run].
      exists (Some d :: l). split; [|rewrite somes_some; constructor; [exists A; split; [exact B|exact H]|exact H']]. cbn [filter]. unfold is_dir at 2. rewrite bytes_eqb_neq by assumption. cbn [negb length].
      cbn [set_fs d_fs]. rewrite ticked_tick. reflexivity.
Qed.
Theorem x_open_run cf f s n last g : Disk f s n last g -> f_meta f = None \/ f_meta f = Some (Written (own_meta cf)) ->
  cf_base cf <> [] -> ascii (cf_base cf) -> cf_st cf = st -> cf_ix cf = ix -> 0 <= cf_size cf ->
  let start := f_clock f (f_ticks f + n)%nat in last < start -> start + cf_size cf < 2 ^ 64 ->
  exists t, x_open cf f s = Some (Ok tt, t) /\ xrunning cf t (open_bins cf start g) start (S n) /\
    f_ticks (d_fs (t_db t)) = S (f_ticks f + n) /\ same_env f (d_fs (t_db t)).
Proof.
  intros D M Hb Ha H1 H2 Hsz start Hst Hend. pose proof (disk_env _ _ _ _ _ D) as (Hord & Huid & Hclk & Hflt).
  unfold x_open, xrun, x_db_new. rewrite run_qbind, xrun_ff. cbn [t_db closed_db d_fs t_kv]. rewrite t_meta by assumption.
  set (f1 := set_fmeta f _). pose proof (disk_meta1 _ _ _ _ _ (Some (Written (own_meta cf))) D) as D1. fold f1 in D1.
  rewrite run_qbind. unfold x_read_existing_chunk. rewrite run_qbind, run_call. cbn [xhandler ff xdhandler dhandler]. cbn [t_db t_kv set_fs d_fs]. cbn [fhandler].
  assert (FF: f_faults f1 = []) by assumption. rewrite FF. cbn [hd]. rewrite no_fault by assumption.
  set (names := f_order f1 (entries f1)).
  assert (P: Permutation names (metadata_name :: map fst (f_dirs f))) by apply Hord.
  assert (NM: forall x, In x (map fst (f_dirs f)) -> x <> metadata_name).
  { intros x Hx. apply in_map_iff in Hx as (e & <- & He). pose proof (disk_names _ _ _ _ _ D) as N. rewrite Forall_forall in N. exact (N e He). }
  assert (FN: Forall (fun x => x = metadata_name \/ x <> metadata_name /\ In x (map fst (f_dirs f1))) names).
  { rewrite Forall_forall. intros x Hx. apply (Permutation_in _ P) in Hx as [<-|Hx]; [now left|right]. split; [now apply NM|exact Hx]. }
  assert (LN: length (filter is_dir names) = n).
  { rewrite (perm_filter is_dir _ _ P). cbn [filter]. unfold is_dir at 1. rewrite bytes_eqb_refl. cbn [negb].
    rewrite <- (disk_len _ _ _ _ _ D), <- (map_length fst (f_dirs f)).
    assert (Q: forall l, (forall x, In x l -> is_dir x = true) -> filter is_dir l = l).
    { clear. induction l as [|x l IH]; intros H; [reflexivity|]. cbn [filter]. rewrite (H x ltac:(now left)). f_equal. apply IH. intros; apply H; now right. }
    rewrite Q; [reflexivity|]. intros x Hx. unfold is_dir. rewrite bytes_eqb_neq by (now apply NM). reflexivity. }
  rewrite run_qbind. cbn [set_fs d_heap d_cur d_sec d_curl d_secl].
  destruct (x_entries cf n last g s names H1 H2 Hb Ha (mkD [] 0 [] free_lock free_lock f1) D1 FN) as (l & E & H). cbn [d_fs] in E, H.
  change (set_fs (set_fs (closed_db f) f1) f1) with (mkD [] 0 [] free_lock free_lock f1). rewrite E, LN. cbn [run set_fs d_heap d_cur d_sec d_curl d_secl].
  rewrite run_bind, run_call. cbn [xhandler ff xdhandler dhandler]. cbn [t_db t_kv set_fs d_fs]. cbn [fhandler].
  assert (EC: f_clock (ticked n f1) (f_ticks (ticked n f1)) = start) by (unfold start; cbn; f_equal; lia). rewrite EC.
  set (f2 := tick (ticked n f1)). assert (D2: Disk f2 s n last g) by (apply disk_tick1, disk_ticks; exact D1).
  assert (U: u64 start) by apply Hclk. unfold u64 in U. assert (Ue: u64 (start + cf_size cf)) by (unfold u64; lia).
  rewrite run_qbind. cbn [set_fs d_heap d_cur d_sec d_curl d_secl].
  destruct (h_create cf start (mkD [] 0 [] free_lock free_lock f2) s n last g D2 Hst U Ue Hsz H1 H2) as (nd & f' & s' & m' & E' & D' & C' & O1 & _ & F1 & F2 & F3).
  cbn [d_fs] in O1, F1, F2, F3.
  match goal with |- context [run xhandler (x_create_chunk cf start) ?z] => change z with (mkT (mkD [] 0 [] free_lock free_lock f2) s) end. rewrite E'. cbn [run set_fs d_heap d_cur d_sec d_curl d_secl]. unfold opened. cbn [fst snd t_db t_kv d_fs].
  eexists. split; [reflexivity|]. cbn [t_db d_fs]. split; [|split; [etransitivity; [exact F1|cbn; lia]|]].
  2:{ eapply same_env_trans; [|exact F2]. repeat split. }
  set (h0 := sort_chunks (somes l)).
  assert (HO: Forall (found (f_uuid f2) (f_drawn f2) s) h0).
  { rewrite Forall_forall in *. intros d Hd. apply (Permutation_in _ (sort_chunks_perm _)) in Hd. exact (H d Hd). }
  assert (RE: exists re : list part, Forall (fun c => blank (snd c)) re /\ Forall2 (oldpair (f_uuid f') (f_drawn f') s' m') h0 (map (fun c => (fst c, fun _ => snd c)) re)).
  { clear - HO O1. induction HO as [|d h (A & B & H1) H2 (re & I1 & I2)]; [exists []; split; constructor|].
    exists ((dc_chunk d, A) :: re). split; [constructor; assumption|]. cbn [map fst snd]. constructor; [|exact I2]. unfold oldpair. cbn [fst snd]. eapply O1, H1. }
  destruct RE as (re & RE1 & RE2). exists h0, nd, m', re.
  constructor; cbn [t_db t_kv d_heap d_cur d_sec d_curl d_secl d_fs open_bins bn_old bn_cur bn_k bn_g]; try reflexivity; try assumption.
  - cbn [map]. rewrite app_nil_r. exact RE2.
  - lia.
  - auto.
Qed.

(** ** asking *)
Theorem x_answer cf t d start n hs bs o q s e : xrunning cf t d start n -> Z.of_nat (size (bn_k d)) < 2 ^ 64 -> Forall part_ok (bparts d) -> hasher_ok hs -> bs_contract bs ->
  Forall lab_ok q -> unmixed hs (bparts d) q s e ->
  exists r, xrun (t_query hs bs o q s e) t = Some (r, t) /\ comes_to (bparts d) q s e r.
Proof.
  intros (h0 & dc & m & re & O) HL HP Hh Hbs Hq Hp. pose proof O as [H1 H2 H3 H4 H5 H6 H7 H8 H9 H10 H11 H12 H13].
  destruct (cur_free _ _ _ _ _ _ _ _ H12) as (LK & ST & _ & _). set (g := bn_g d) in *.
  set (l := re ++ bparts d).
  assert (LL: map (fun c : chunk * (G -> content) => (fst c, snd c g)) (map (fun c => (fst c, fun _ => snd c)) re ++ map viewed (bn_old d)) ++ [(bn_cur d, gview (bn_k d) g)] = l).
  { unfold l, bparts. rewrite !map_app, !map_map. fold g. rewrite <- app_assoc. f_equal.
    - etransitivity; [|apply map_id]. apply map_ext. now intros [? ?]. }
  assert (QQ: quietq (xproj t) l).
  { constructor; unfold xproj; cbn [set_heap d_heap d_cur d_sec d_curl d_secl]; try assumption.
    - rewrite <- LL, H1, map_app. apply Forall2_app.
      + clear - H9 H7 read_old. match type of H9 with Forall2 _ _ ?y => set (z := y) in * end. clearbody z. induction H9 as [|x c h z H F IH]; [constructor|]. cbn [map]. constructor; [|exact IH].
        destruct (read_old _ _ _ _ _ _ _ _ _ H7 H) as (A1 & _ & A2). unfold xpj. cbn [dc_chunk dc_world fst snd]. split; [exact A1|exact A2].
      + constructor; [|constructor]. unfold xpj. cbn [dc_chunk dc_world fst snd]. split; [exact LK|]. eapply read_cur; eassumption.
    - rewrite H2, <- LL. rewrite app_length, map_length. pose proof (Forall2_len _ _ _ H9) as Q. cbn [length]. rewrite <- Q. symmetry. apply Nat.add_1_r.
    - now rewrite H3, H2. }
  assert (HH: Forall still (d_heap (t_db t))).
  { rewrite H1. apply Forall_app. split; [|constructor; [exact ST|constructor]].
    clear - H9 H7 read_old. induction H9 as [|x c h z H F IH]; [constructor|]. constructor; [|exact IH].
    now destruct (read_old _ _ _ _ _ _ _ _ _ H7 H) as (_ & A1 & _). }
  assert (PO: Forall part_ok l).
  { unfold l. apply Forall_app. split; [|exact HP]. eapply Forall_impl; [|exact H8]. intros [c A] [B _]. eapply part_ok_any. exact B. }
  destruct (x_query_run hs bs o q s e t l QQ HH PO Hh Hbs Hq) as (r & E & A).
  { revert Hp. apply unmixed_less. intros c mm Hc N1. unfold l in Hc. apply in_app_or in Hc as [Hc|Hc]; [|eauto].
    exfalso. apply N1. rewrite Forall_forall in H8. destruct c as [c A]. apply blank_piece. exact (H8 _ Hc). }
  exists r. split; [exact E|]. unfold l in A. revert A. apply comes_to_app. rewrite Forall_forall in H8. intros [c A] Hc. specialize (H8 _ Hc). cbn [snd] in *.
  split; [intros mm; now apply blank_piece|]. intros ls pts Hin. destruct H8 as [_ B]. rewrite Forall_forall in B. exact (B _ Hin).
Qed.

(** ** process after process *)
Lemma types_same cf cf' : cf_st cf = st -> cf_ix cf = ix -> cf_st cf' = st -> cf_ix cf' = ix -> own_meta cf = own_meta cf'.
Proof. intros H1 H2 H3 H4. unfold own_meta. now rewrite H1, H2, H3, H4. Qed.
Lemma running_stop cf t d start n : xrunning cf t d start n -> Z.of_nat (size (bn_k d)) < 2 ^ 64 -> Disk (stopped cf (t_db t)) (t_kv t) n start (bn_g d).
Proof.
  intros (h0 & dc & m & re & O) HL. pose proof O as [H1 H2 H3 H4 H5 H6 H7 H8 H9 H10 H11 H12 H13]. destruct H13 as [T1 T2].
  unfold stopped. rewrite T1, T2. apply disk_stop; [exact H7|]. rewrite H1. apply Forall_app. split.
  - clear - H9 old_keep. induction H9 as [|x c h z H F IH]; [constructor|]. constructor; [|exact IH]. eapply old_keep. exact H.
  - constructor; [|constructor]. eapply cur_keep; eassumption.
Qed.
Lemma x_lives L : forall f s n last g, L <> [] -> Disk f s n last g ->
  (forall cf, cf_st cf = st -> cf_ix cf = ix -> f_meta f = None \/ f_meta f = Some (Written (own_meta cf))) ->
  mlives_ok st ix (f_clock f) (f_ticks f) n last L ->
  exists t l d cf start m, x_live L f s = Some (map snd (l ++ [d]), t) /\ blives (f_clock f) (f_ticks f) n g L = l ++ [d] /\
    xrunning cf t (fst d) start m /\ Z.of_nat (size (bn_k (fst d))) < 2 ^ 64.
Proof.
  induction L as [|x L IH]; intros f s n last g NE D M OK; [contradiction|]. clear NE.
  cbn [mlives_ok] in OK. destruct OK as (T1 & T2 & Ha & Hst & (Hb & P1 & P2 & P3 & P4 & P5 & P6) & OK).
  set (start := f_clock f (f_ticks f + n)%nat) in *. set (cf := lf_cf x) in *.
  destruct (x_open_run cf f s n last g D (M cf T1 T2) Hb Ha T1 T2 P2 Hst P3) as (t0 & E0 & R0 & K0 & S0). fold start in R0.
  destruct (x_ops cf (lf_ops x) t0 _ start (S n) R0 P4 P5) as (t1 & E1 & R1 & K1 & S1 & L1); [cbn [open_bins bn_k]; rewrite size0; lia|].
  cbn [x_live blives]. unfold x_after. fold cf start. rewrite E0, E1. set (y := bops cf _ (lf_ops x)) in *.
  destruct L as [|x' L].
  - exists t1, [], y, cf, (last_start start (lf_ops x)), (S n + swaps (lf_ops x))%nat. split; [reflexivity|]. split; [reflexivity|]. split; [exact R1|lia].
  - pose proof (running_stop _ _ _ _ _ R1 ltac:(lia)) as D1.
    assert (M1: f_meta (d_fs (t_db t1)) = Some (Written (own_meta cf))) by (destruct R1 as (? & ? & ? & ? & O); apply O).
    pose proof (same_env_trans _ _ _ S0 S1) as (_ & EC & _).
    assert (KK: f_ticks (d_fs (t_db t1)) = S (f_ticks f + n)) by congruence.
    set (fs := stopped cf (t_db t1)) in *.
    assert (EC': f_clock fs = f_clock f) by exact EC. assert (KK': f_ticks fs = S (f_ticks f + n)) by exact KK. assert (MM: f_meta fs = Some (Written (own_meta cf))) by exact M1.
    destruct (IH fs (t_kv t1) (S n + swaps (lf_ops x))%nat (last_start start (lf_ops x)) (bn_g (fst y))) as (t2 & l & d2 & cf2 & st2 & m2 & E2 & LE & R2 & L2).
    + discriminate.
    + exact D1.
    + intros cf' Q1 Q2. right. rewrite MM. do 2 f_equal. now apply types_same.
    + rewrite EC', KK'. replace (S n + swaps (lf_ops x))%nat with (n + S (swaps (lf_ops x)))%nat by lia. exact OK.
    + rewrite EC', KK' in LE. replace (S n + swaps (lf_ops x))%nat with (n + S (swaps (lf_ops x)))%nat in LE by lia.
      rewrite E2. exists t2, (y :: l), d2, cf2, st2, m2. split; [reflexivity|]. split; [rewrite LE; reflexivity|]. split; [exact R2|exact L2].
Qed.
End Engine.
