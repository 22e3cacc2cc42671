(* Proofs: how programs run over a TiKV store next to sled stores. *)
From Coq Require Import ZifyBool ZifyNat Permutation Sorted.
From Verif Require Import Rust StringProofs BitsProofs Prog Gorilla GorillaSpec Storage StorageSpec StorageProofs Labels IndexSpec Indexer
  LabelProofs IndexProofs Chunk ChunkSpec ChunkProofs ChunkFacts Conc Utils DirSpec DirProofs TiKvInit TiKvShared TiKvSpec TiKvProofs
  Db DbSpec MapProofs DbProofs DbHist SwapProofs ReopenSpec ReopenProofs RangeSpec RangeProofs TiKvDb TiKvDbSpec TiKvDbRun MixDb MixSpec.

(** ** running *)
Lemma xrun_TD {A} (p : prog dcmd A) t : run xhandler (lift (@TD) p) t = run xdhandler p t.
Proof. revert t. induction p as [a|X c k IH]; intros t; [reflexivity|]. cbn [lift run xhandler]. destruct (xdhandler X c t) as [[x t']|]; [apply IH|reflexivity]. Qed.
Lemma xrun_ff {A} (p : prog fcmd A) t : run xhandler (lift ff p) t =
  match run fhandler p (d_fs (t_db t)) with Some (a, f) => Some (a, mkT (set_fs (t_db t) f) (t_kv t)) | None => None end.
Proof.
  revert t. induction p as [a|X c k IH]; intros t.
  - cbn [lift run]. destruct t as [[] ?]. reflexivity.
  - cbn [lift run]. cbn [ff xhandler xdhandler dhandler]. destruct (fhandler X c (d_fs (t_db t))) as [[x f]|]; [|reflexivity].
    rewrite IH. cbn [t_db t_kv set_fs d_fs]. destruct (run fhandler (k x) f) as [[a f']|]; reflexivity.
Qed.
Lemma xrun_TK {A} (p : prog kcmd A) t : run xhandler (lift (@TK) p) t = Some (fst (krun p (t_kv t)), mkT (t_db t) (snd (krun p (t_kv t)))).
Proof.
  revert t. induction p as [a|X c k IH]; intros t; [now destruct t|]. cbn [lift run xhandler].
  destruct c as [key|key v]; cbn [kv_handler krun]; rewrite IH; reflexivity.
Qed.
Lemma xrun_C {A} i (p : prog ccmd A) t d : nth_error (d_heap (t_db t)) i = Some d ->
  run xdhandler (lift (fun X c => @DC X i c) p) t =
  match run (xchandler (dc_chunk d)) p (dc_world d, t_kv t) with
  | Some (a, v) => Some (a, mkT (set_heap (t_db t) (upd (d_heap (t_db t)) i (mkDc (dc_chunk d) (fst v) (dc_name d)))) (snd v))
  | None => None
  end.
Proof.
  revert t d. induction p as [a|X c k IH]; intros t d N.
  - cbn [lift run fst snd]. assert (mkDc (dc_chunk d) (dc_world d) (dc_name d) = d) as -> by (now destruct d).
    rewrite upd_self by assumption. destruct t as [[] s]; reflexivity.
  - cbn [lift run]. cbn [xdhandler]. rewrite N. destruct (xchandler (dc_chunk d) X c (dc_world d, t_kv t)) as [[x [w s]]|]; [|reflexivity].
    assert (Hi: (i < length (d_heap (t_db t)))%nat) by (apply nth_error_Some; congruence).
    rewrite (IH x _ (mkDc (dc_chunk d) w (dc_name d))).
    + cbn [t_db t_kv set_heap d_heap dc_chunk dc_world dc_name].
      destruct (run (xchandler (dc_chunk d)) (k x) (w, s)) as [[a w']|]; [|reflexivity]. rewrite upd_upd by assumption. reflexivity.
    + cbn [t_db set_heap d_heap]. rewrite nth_upd by assumption. now rewrite Nat.eqb_refl.
Qed.
Lemma x_with_current {T} (body : nat -> chunk -> prog dcmd (res T)) t d :
  d_curl (t_db t) = free_lock -> nth_error (d_heap (t_db t)) (d_cur (t_db t)) = Some d ->
  run xdhandler (with_current body) t =
  match run xdhandler (body (d_cur (t_db t)) (dc_chunk d)) (mkT (set_curl (t_db t) (mkRw 1 false false)) (t_kv t)) with
  | Some (r, t') => Some (r, mkT (set_curl (t_db t') (rw_unread (d_curl (t_db t')))) (t_kv t'))
  | None => None
  end.
Proof.
  intros H1 H2. unfold with_current. rewrite run_bind, run_call. cbn [xdhandler dhandler]. rewrite H1, H2. cbn [rw_read free_lock rw_writer rw_poisoned rw_readers].
  rewrite run_bind. destruct (run xdhandler (body _ _) _) as [[r t']|]; reflexivity.
Qed.

(** ** a chunk with the store in the place of its TiKV component *)
Definition xenter (ch : chunk) (s : kv) (w : cworld) : cworld :=
  match c_storage ch with TiKvStorage _ => set_st w s (w_faults w) | SledStorage => set_ix w s (w_faults w) end.
Definition xleave (ch : chunk) (w : cworld) : cworld * kv :=
  match c_storage ch with TiKvStorage _ => (set_st w [] (w_faults w), w_st w) | SledStorage => (set_ix w [] (w_faults w), w_ix w) end.
(* one component is TiKV and the other one sled; the TiKV component has no store of its own *)
Definition hollowx (d : dchunk) : Prop :=
  match c_storage (dc_chunk d), c_indexer (dc_chunk d) with
  | TiKvStorage _, SledIndexer => w_st (dc_world d) = []
  | SledStorage, TiKvIndexer _ => w_ix (dc_world d) = []
  | _, _ => False
  end.
Definition hollow_at (ch : chunk) (w : cworld) : Prop := hollowx (mkDc ch w []).
Lemma xleave_enter ch s w : hollow_at ch w -> xleave ch (xenter ch s w) = (w, s).
Proof.
  unfold hollow_at, hollowx, xleave, xenter. cbn [dc_chunk dc_world]. destruct (c_storage ch), (c_indexer ch); intros H; try contradiction; destruct w; cbn in *; now subst.
Qed.
Lemma xchandler_mixed ch X (c : ccmd X) w s : hollow_at ch w -> w_faults w = [] ->
  xchandler ch X c (w, s) = match chandler ch X c (xenter ch s w) with Some (x, w') => Some (x, xleave ch w') | None => None end /\
  forall x w', chandler ch X c (xenter ch s w) = Some (x, w') -> hollow_at ch (fst (xleave ch w')) /\ w_faults w' = [].
Proof.
  unfold hollow_at, hollowx, xleave, xenter. cbn [dc_chunk dc_world]. destruct ch as [st ix lo hi]. cbn [c_storage c_indexer].
  destruct w as [ws wx wn wc wl wp wf]. cbn [w_st w_ix w_faults]. destruct st, ix; intros H; try contradiction; intros ->; cbn in H; subst.
  all: destruct c as [X [k|k v]|X [k|k v]| | |u| | |]; cbn; split; try reflexivity.
  all: try (intros x w' E; injection E as <- <-; split; reflexivity).
  all: destruct wl; try reflexivity; intros x w' E; first [discriminate E|injection E as <- <-; split; reflexivity].
Qed.
Lemma xchandler_run {A} ch (p : prog ccmd A) : forall w s, hollow_at ch w -> w_faults w = [] ->
  run (xchandler ch) p (w, s) = match run (chandler ch) p (xenter ch s w) with Some (x, w') => Some (x, xleave ch w') | None => None end.
Proof.
  induction p as [a|X c k IH]; intros w s H F; cbn [run]; [now rewrite xleave_enter|].
  destruct (xchandler_mixed ch X c w s H F) as [E1 E2]. rewrite E1. destruct (chandler ch X c (xenter ch s w)) as [[x w']|]; [|reflexivity].
  destruct (E2 x w' eq_refl) as [H' F']. destruct (xleave ch w') as [w1 s1] eqn:EL.
  assert (EE: xenter ch s1 w1 = w'). { clear - EL H'. unfold xleave in EL. unfold xenter. destruct (c_storage ch); injection EL as <- <-; now destruct w'. }
  rewrite IH; [|exact H'|]. { now rewrite EE. } clear - EL F'. unfold xleave in EL. destruct (c_storage ch); injection EL as <- <-; exact F'.
Qed.

(** ** queries: as over separate copies of the store *)
Definition xpj (s : kv) (d : dchunk) : dchunk := mkDc (dc_chunk d) (xenter (dc_chunk d) s (dc_world d)) (dc_name d).
Definition xproj (t : tworld) : dworld := set_heap (t_db t) (map (xpj (t_kv t)) (d_heap (t_db t))).
Lemma lookups_xpj s h l : lookups (map (xpj s) h) l = lookups h l.
Proof. induction l as [|i l IH]; [reflexivity|]. cbn [lookups]. rewrite nth_error_map, IH. destruct (nth_error h i) as [d|]; reflexivity. Qed.
Definition still (d : dchunk) : Prop := hollowx d /\ w_faults (dc_world d) = [].
Lemma xread_same ch X (c : ccmd X) w x w' : readc _ c -> w_faults w = [] -> chandler ch X c w = Some (x, w') -> w' = w.
Proof.
  intros R F. destruct w as [ws wx wn wc wl wp wf]. cbn in F. subst. destruct c as [X [k|k v]|X [k|k v]| | |u| | |]; try contradiction R; cbn; intros E.
  all: try (injection E as _ <-; reflexivity). all: destruct wl; [discriminate|injection E as _ <-; reflexivity].
Qed.
Lemma xread_sim X (c : dcmd X) t x w' : readd X c -> Forall still (d_heap (t_db t)) -> dhandler X c (xproj t) = Some (x, w') ->
  exists t', xdhandler X c t = Some (x, t') /\ xproj t' = w' /\ t_kv t' = t_kv t /\ d_heap (t_db t') = d_heap (t_db t).
Proof.
  destruct t as [w s]. cbn [t_db t_kv]. intros R H E.
  destruct c as [X i c|X c|c| | | |i|u| | | |i|u]; try contradiction R; cbn [xdhandler t_db t_kv].
  - cbn [dhandler xproj set_heap d_heap t_db t_kv] in E. rewrite nth_error_map in E.
    destruct (nth_error (d_heap w) i) as [d|] eqn:N; [|discriminate]. cbn [option_map] in E.
    assert (Hd: still d) by (rewrite Forall_forall in H; apply H; eapply nth_error_In; exact N). destruct Hd as [Hh Hf].
    cbn [xpj dc_chunk dc_world dc_name] in E. destruct (xchandler_mixed (dc_chunk d) X c (dc_world d) s Hh Hf) as [E1 _]. rewrite E1.
    destruct (chandler (dc_chunk d) X c (xenter (dc_chunk d) s (dc_world d))) as [[y cw]|] eqn:EC; [|discriminate].
    assert (cw = xenter (dc_chunk d) s (dc_world d)) as ->.
    { eapply xread_same; [exact R| |exact EC]. unfold xenter. destruct (c_storage (dc_chunk d)); exact Hf. }
    rewrite xleave_enter by exact Hh. injection E as <- <-.
    assert (UP: upd (d_heap w) i (mkDc (dc_chunk d) (dc_world d) (dc_name d)) = d_heap w) by (apply upd_self; rewrite N; now destruct d).
    eexists. split; [reflexivity|]. cbn [t_kv t_db d_heap set_heap]. rewrite UP. split; [|split; reflexivity].
    pose proof (map_upd (xpj s) (d_heap w) i (mkDc (dc_chunk d) (dc_world d) (dc_name d))) as M. rewrite UP in M. exact (f_equal (set_heap w) M).
  - cbn [dhandler xproj set_heap d_heap d_cur d_curl t_db t_kv] in E |- *. rewrite nth_error_map in E.
    destruct (rw_read (d_curl w)) as [l|]; [|discriminate]. destruct (nth_error (d_heap w) (d_cur w)) as [d|]; [|discriminate].
    cbn [option_map] in E. injection E as <- <-. eexists. split; [reflexivity|]. split; [reflexivity|split; reflexivity].
  - cbn [dhandler xproj set_heap d_curl t_db t_kv] in E |- *. injection E as <- <-. eexists. split; [reflexivity|]. split; [reflexivity|split; reflexivity].
  - cbn [dhandler xproj set_heap d_heap d_sec d_secl t_db t_kv] in E |- *. rewrite lookups_xpj in E.
    destruct (rw_read (d_secl w)) as [l|]; [|discriminate]. destruct (lookups (d_heap w) (d_sec w)) as [cs|]; [|discriminate].
    injection E as <- <-. eexists. split; [reflexivity|]. split; [reflexivity|split; reflexivity].
  - cbn [dhandler xproj set_heap d_secl t_db t_kv] in E |- *. injection E as <- <-. eexists. split; [reflexivity|]. split; [reflexivity|split; reflexivity].
Qed.
Lemma xreads_sim {A} (p : prog dcmd A) : only readd p -> forall t x w', Forall still (d_heap (t_db t)) -> run dhandler p (xproj t) = Some (x, w') ->
  exists t', run xdhandler p t = Some (x, t') /\ xproj t' = w' /\ t_kv t' = t_kv t /\ d_heap (t_db t') = d_heap (t_db t).
Proof.
  induction p as [a|X c k IH]; intros U t x w' H E.
  - cbn [run] in *. injection E as <- <-. exists t. auto.
  - destruct U as [U1 U2]. cbn [run] in E. destruct (dhandler X c (xproj t)) as [[y w1]|] eqn:EC; [|discriminate].
    destruct (xread_sim X c t y w1 U1 H EC) as (t1 & E1 & P1 & K1 & H1). subst w1.
    destruct (IH y (U2 y) t1 x w') as (t' & E' & P' & K' & H'); [now rewrite H1|exact E|].
    exists t'. cbn [run]. rewrite E1. split; [exact E'|]. split; [exact P'|]. split; congruence.
Qed.
Lemma xproj_inj a b : xproj a = xproj b -> t_kv a = t_kv b -> d_heap (t_db a) = d_heap (t_db b) -> a = b.
Proof. destruct a as [[h c s l1 l2 f] k], b as [[h' c' s' l1' l2' f'] k']. unfold xproj, set_heap. cbn. intros E -> ->. congruence. Qed.
Theorem x_query_run hs bs o q s e t l : quietq (xproj t) l -> Forall still (d_heap (t_db t)) -> Forall part_ok l -> hasher_ok hs -> bs_contract bs ->
  Forall lab_ok q -> unmixed hs l q s e ->
  exists r, xrun (t_query hs bs o q s e) t = Some (r, t) /\ comes_to l q s e r.
Proof.
  intros Q Hh P H1 H2 H3 H4. destruct (query_anyq hs bs o q s e (xproj t) l Q P H1 H2 H3 H4) as (r & E & A). exists r. split; [|exact A].
  unfold xrun, t_query. rewrite xrun_TD. unfold drun in E.
  destruct (xreads_sim _ (db_query_only hs bs o q s e) t _ _ Hh E) as (t' & E' & P' & K' & H'). rewrite E'. do 2 f_equal. now apply xproj_inj.
Qed.

(** ** which keys are written *)
Lemma run_uses_st (P Q : bytes -> Prop) ch {A} (p : prog ccmd A) : uses P Q p -> forall w a w', run (chandler ch) p w = Some (a, w') ->
  (forall k, ~ P k -> kv_get (w_st w') k = kv_get (w_st w) k) /\ (forall k, ~ Q k -> kv_get (w_ix w') k = kv_get (w_ix w) k).
Proof.
  induction p as [a0|X c k IH]; intros U w a w' E; cbn [run] in E; [injection E as _ <-; split; reflexivity|].
  destruct U as [U1 U2]. destruct (chandler ch X c w) as [[x w1]|] eqn:EC; [|discriminate]. destruct (IH x (U2 x) w1 a w' E) as [I1 I2].
  assert (S1: (forall k, ~ P k -> kv_get (w_st w1) k = kv_get (w_st w) k) /\ (forall k, ~ Q k -> kv_get (w_ix w1) k = kv_get (w_ix w) k)).
  { clear - U1 EC. destruct w as [ws wx wn wc wl wp wf]. destruct c as [X [key|key v]|X [key|key v]| | |u| | |]; cbn in EC, U1.
    all: try (injection EC as _ <-; split; reflexivity).
    all: try (destruct wl; [discriminate|]; injection EC as _ <-; split; reflexivity).
    all: destruct wf as [|[] wf]; cbn in EC; injection EC as _ <-; split; try reflexivity.
    all: intros k Hk; cbn [w_st w_ix set_st set_ix kv_get kv_set]; destruct (bytes_eqb key k) eqn:B; [apply bytes_eqb_spec in B; congruence|reflexivity]. }
  destruct S1 as [S1 S2]. split; intros k0 Hk; [rewrite I1, S1|rewrite I2, S2]; auto.
Qed.
Lemma kuses_any {A} (p : prog kcmd A) : kuses (fun _ => True) p.
Proof. induction p as [a|X c k IH]; cbn [kuses]; [exact I|]. split; [exact I|exact IH]. Qed.
Lemma insert_uses_any (P Q : bytes -> Prop) ch ls p : (forall id, kuses P (write_time_point (c_storage ch) id (tp_ts p) (tp_val p))) ->
  kuses Q (series_id_by_labels (c_indexer ch) ls) -> (forall id, kuses Q (create_index (c_indexer ch) ls id)) -> uses P Q (chunk_insert ch ls p).
Proof.
  intros W X Y. unfold chunk_insert, with_write_lock. apply uses_bind; [apply uses_call; exact I|]. intros [|].
  { apply uses_bind; [apply uses_call; exact I|]. intros; exact I. }
  apply uses_bind; [|intros r; apply uses_bind; [apply uses_call; exact I|intros; exact I]].
  unfold insert_body. destruct (negb _); [exact I|]. apply uses_qbind; [apply uses_ix, X|]. intros [id|].
  - apply uses_bind; [apply uses_st, W|]. intros; exact I.
  - apply uses_bind; [apply uses_call; exact I|]. intros id. apply uses_qbind; [apply uses_ix, Y|]. intros _. apply uses_qbind; [apply uses_st, W|]. intros; exact I.
Qed.
Lemma insert_uses_st si ixr lo hi ls p : uses (pkey si) (fun _ => True) (chunk_insert (mkChunk (TiKvStorage si) ixr lo hi) ls p).
Proof.
  apply insert_uses_any; [|apply kuses_any|intros; apply kuses_any]. intros id. cbn [c_storage write_time_point]. unfold tikv_write.
  apply kuses_qbind; [apply kuses_call; eexists; reflexivity|]. intros [b|].
  - destruct (_ <? 16)%nat; [exact I|]. destruct (decode_time_point _); try exact I. destruct (_ <=? _); [exact I|].
    apply kuses_qbind; [apply kuses_call; eexists; reflexivity|]. intros; exact I.
  - apply kuses_qbind; [apply kuses_call; eexists; reflexivity|]. intros; exact I.
Qed.
Lemma insert_uses_ix str ii lo hi ls p : uses (fun _ => True) (xkey ii) (chunk_insert (mkChunk str (TiKvIndexer ii) lo hi) ls p).
Proof.
  apply insert_uses_any; [intros; apply kuses_any| |]; cbn [c_indexer].
  - cbn [series_id_by_labels]. unfold tikv_by_labels. apply kuses_qbind; [apply kuses_call; eexists; reflexivity|]. intros; exact I.
  - intros id. cbn [create_index]. unfold tikv_create. apply kuses_bind; [apply kuses_call; eexists; reflexivity|]. intros _.
    apply kuses_bind; [apply kuses_call; eexists; reflexivity|]. intros _. apply kuses_bind; [|intros; exact I].
    induction ls as [|l ls IH]; [exact I|]. cbn [tikv_add_reverse]. apply kuses_bind; [apply kuses_call; eexists; reflexivity|].
    intros [v|e|]; (apply kuses_bind; [|intros; apply IH]); try exact I. apply kuses_bind; [apply kuses_call; eexists; reflexivity|]. intros; exact I.
Qed.
