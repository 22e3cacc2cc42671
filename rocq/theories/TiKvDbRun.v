(* Proofs: how programs of the database run over one shared store. *)
From Coq Require Import ZifyBool ZifyNat Permutation Sorted.
From Verif Require Import Rust StringProofs BitsProofs Prog Gorilla GorillaSpec Storage StorageSpec StorageProofs Labels IndexSpec Indexer
  LabelProofs IndexProofs Chunk ChunkSpec ChunkProofs ChunkFacts Conc Utils DirSpec DirProofs TiKvInit TiKvShared TiKvSpec TiKvProofs
  Db DbSpec MapProofs DbProofs DbHist SwapProofs ReopenSpec ReopenProofs RangeSpec RangeProofs TiKvDb TiKvDbSpec.

(** ** running *)
Lemma run_TD {A} (p : prog dcmd A) t : run thandler (lift (@TD) p) t = run tdhandler p t.
Proof. revert t. induction p as [a|X c k IH]; intros t; [reflexivity|]. cbn [lift run thandler]. destruct (tdhandler X c t) as [[x t']|]; [apply IH|reflexivity]. Qed.
Lemma run_ff {A} (p : prog fcmd A) t : run thandler (lift ff p) t =
  match run fhandler p (d_fs (t_db t)) with Some (a, f) => Some (a, mkT (set_fs (t_db t) f) (t_kv t)) | None => None end.
Proof.
  revert t. induction p as [a|X c k IH]; intros t.
  - cbn [lift run]. destruct t as [[] ?]. reflexivity.
  - cbn [lift run]. cbn [ff thandler tdhandler dhandler]. destruct (fhandler X c (d_fs (t_db t))) as [[x f]|]; [|reflexivity].
    rewrite IH. cbn [t_db t_kv set_fs d_fs]. destruct (run fhandler (k x) f) as [[a f']|]; reflexivity.
Qed.
Lemma run_TK {A} (p : prog kcmd A) t : run thandler (lift (@TK) p) t = Some (fst (krun p (t_kv t)), mkT (t_db t) (snd (krun p (t_kv t)))).
Proof.
  revert t. induction p as [a|X c k IH]; intros t; [now destruct t|]. cbn [lift run thandler].
  destruct c as [key|key v]; cbn [kv_handler krun]; rewrite IH; reflexivity.
Qed.
Lemma run_SC {A} i (p : prog ccmd A) t d : nth_error (d_heap (t_db t)) i = Some d ->
  w_st (dc_world d) = [] ->
  run tdhandler (lift (fun X c => @DC X i c) p) t =
  match run (shandler (dc_chunk d)) p (enter (t_kv t) (dc_world d)) with
  | Some (a, w) => Some (a, mkT (set_heap (t_db t) (upd (d_heap (t_db t)) i (mkDc (dc_chunk d) (leave w) (dc_name d)))) (w_st w))
  | None => None
  end.
Proof.
  revert t d. induction p as [a|X c k IH]; intros t d N E.
  - cbn [lift run]. destruct t as [w s]. cbn [t_db t_kv] in *.
    assert (mkDc (dc_chunk d) (leave (enter s (dc_world d))) (dc_name d) = d) as ->.
    { destruct d as [ch [st ix nx cl lk po fs] nm]. cbn in *. now subst. }
    rewrite upd_self by assumption. destruct w; cbn. destruct d as [ch [] nm]; reflexivity.
  - cbn [lift run]. cbn [tdhandler]. rewrite N. destruct (shandler (dc_chunk d) X c (enter (t_kv t) (dc_world d))) as [[x w]|]; [|reflexivity].
    assert (Hi: (i < length (d_heap (t_db t)))%nat) by (apply nth_error_Some; congruence).
    rewrite (IH x _ (mkDc (dc_chunk d) (leave w) (dc_name d))).
    + cbn [t_db t_kv set_heap d_heap dc_chunk dc_world dc_name].
      assert (enter (w_st w) (leave w) = w) as -> by (destruct w; reflexivity).
      destruct (run (shandler (dc_chunk d)) (k x) w) as [[a w']|]; [|reflexivity]. rewrite upd_upd by assumption. reflexivity.
    + cbn [t_db set_heap d_heap]. rewrite nth_upd by assumption. now rewrite Nat.eqb_refl.
    + cbn. reflexivity.
Qed.
Lemma t_with_current {T} (body : nat -> chunk -> prog dcmd (res T)) t d :
  d_curl (t_db t) = free_lock -> nth_error (d_heap (t_db t)) (d_cur (t_db t)) = Some d ->
  run tdhandler (with_current body) t =
  match run tdhandler (body (d_cur (t_db t)) (dc_chunk d)) (mkT (set_curl (t_db t) (mkRw 1 false false)) (t_kv t)) with
  | Some (r, t') => Some (r, mkT (set_curl (t_db t') (rw_unread (d_curl (t_db t')))) (t_kv t'))
  | None => None
  end.
Proof.
  intros H1 H2. unfold with_current. rewrite run_bind, run_call. cbn [tdhandler dhandler]. rewrite H1, H2. cbn [rw_read free_lock rw_writer rw_poisoned rw_readers].
  rewrite run_bind. destruct (run tdhandler (body _ _) _) as [[r t']|]; reflexivity.
Qed.

(** ** queries: as over separate copies of the store *)
Definition pj (s : kv) (d : dchunk) : dchunk := mkDc (dc_chunk d) (twice (enter s (dc_world d))) (dc_name d).
Definition proj (t : tworld) : dworld := set_heap (t_db t) (map (pj (t_kv t)) (d_heap (t_db t))).
Definition hollow (d : dchunk) : Prop := (exists si ii lo hi, dc_chunk d = mkChunk (TiKvStorage si) (TiKvIndexer ii) lo hi) /\
  w_st (dc_world d) = [] /\ w_faults (dc_world d) = [].
Definition readd X (c : dcmd X) : Prop :=
  match c with
  | DC i c => readc _ c
  | DCurRead | DCurUnread | DSecRead | DSecUnread => True
  | _ => False
  end.
Lemma map_upd {A B} (g : A -> B) l i x : map g (upd l i x) = upd (map g l) i (g x).
Proof. unfold upd. rewrite map_app, firstn_map, skipn_map. destruct (skipn i l); reflexivity. Qed.
Lemma lookups_pj s h l : lookups (map (pj s) h) l = lookups h l.
Proof. induction l as [|i l IH]; [reflexivity|]. cbn [lookups]. rewrite nth_error_map, IH. destruct (nth_error h i) as [d|]; reflexivity. Qed.

Lemma read_sim X (c : dcmd X) t x w' : readd X c -> Forall hollow (d_heap (t_db t)) -> dhandler X c (proj t) = Some (x, w') ->
  exists t', tdhandler X c t = Some (x, t') /\ proj t' = w' /\ t_kv t' = t_kv t /\ d_heap (t_db t') = d_heap (t_db t).
Proof.
  destruct t as [w s]. cbn [t_db t_kv]. intros R H E.
  destruct c as [X i c|X c|c| | | |i|u| | | |i|u]; try contradiction R; cbn [tdhandler t_db t_kv].
  - cbn [dhandler proj set_heap d_heap t_db t_kv] in E. rewrite nth_error_map in E.
    destruct (nth_error (d_heap w) i) as [d|] eqn:N; [|discriminate]. cbn [option_map] in E.
    assert (Hd: hollow d) by (rewrite Forall_forall in H; apply H; eapply nth_error_In; exact N).
    destruct Hd as ((si & ii & lo & hi & Ec) & E1 & E2). destruct d as [ch [st ix nx cl lk po fs] nm]. cbn [dc_chunk dc_world dc_name w_st w_faults] in *. subst ch st fs.
    assert (Q: forall x cw, chandler (dc_chunk (pj s (mkDc (mkChunk (TiKvStorage si) (TiKvIndexer ii) lo hi) (mkW [] ix nx cl lk po []) nm))) X c (dc_world (pj s (mkDc (mkChunk (TiKvStorage si) (TiKvIndexer ii) lo hi) (mkW [] ix nx cl lk po []) nm))) = Some (x, cw) ->
      cw = dc_world (pj s (mkDc (mkChunk (TiKvStorage si) (TiKvIndexer ii) lo hi) (mkW [] ix nx cl lk po []) nm)) /\
      shandler (mkChunk (TiKvStorage si) (TiKvIndexer ii) lo hi) X c (enter s (mkW [] ix nx cl lk po [])) = Some (x, enter s (mkW [] ix nx cl lk po []))).
    { cbn [readd] in R. clear - R. intros x cw. cbn [pj dc_chunk dc_world dc_name enter twice set_st set_ix w_st w_ix w_next w_closed w_locked w_poisoned w_faults].
      destruct c as [X [k|k v]|X [k|k v]| | | | | |]; try contradiction R; cbn; intros E.
      all: try (injection E as <- <-; split; reflexivity).
      all: destruct lk; [discriminate|]; injection E as <- <-; split; reflexivity. }
    destruct (chandler _ X c _) as [[y cw]|] eqn:EC; [|discriminate]. destruct (Q y cw eq_refl) as [-> E3]. clear Q EC.
    injection E as <- <-. rewrite E3.
    eexists. split; [reflexivity|]. cbn [t_kv t_db d_heap set_heap].
    assert (EL: leave (enter s (mkW [] ix nx cl lk po [])) = mkW [] ix nx cl lk po []) by reflexivity. rewrite EL. clear EL E3.
    assert (UP: upd (d_heap w) i (mkDc (mkChunk (TiKvStorage si) (TiKvIndexer ii) lo hi) (mkW [] ix nx cl lk po []) nm) = d_heap w) by (now apply upd_self).
    rewrite UP. split; [|split; reflexivity].
    pose proof (map_upd (pj s) (d_heap w) i (mkDc (mkChunk (TiKvStorage si) (TiKvIndexer ii) lo hi) (mkW [] ix nx cl lk po []) nm)) as M.
    rewrite UP in M. exact (f_equal (set_heap w) M).
  - cbn [dhandler proj set_heap d_heap d_cur d_curl t_db t_kv] in E |- *. rewrite nth_error_map in E.
    destruct (rw_read (d_curl w)) as [l|]; [|discriminate]. destruct (nth_error (d_heap w) (d_cur w)) as [d|]; [|discriminate].
    cbn [option_map] in E. injection E as <- <-. eexists. split; [reflexivity|]. split; [reflexivity|split; reflexivity].
  - cbn [dhandler proj set_heap d_curl t_db t_kv] in E |- *. injection E as <- <-. eexists. split; [reflexivity|]. split; [reflexivity|split; reflexivity].
  - cbn [dhandler proj set_heap d_heap d_sec d_secl t_db t_kv] in E |- *. rewrite lookups_pj in E.
    destruct (rw_read (d_secl w)) as [l|]; [|discriminate]. destruct (lookups (d_heap w) (d_sec w)) as [cs|]; [|discriminate].
    injection E as <- <-. eexists. split; [reflexivity|]. split; [reflexivity|split; reflexivity].
  - cbn [dhandler proj set_heap d_secl t_db t_kv] in E |- *. injection E as <- <-. eexists. split; [reflexivity|]. split; [reflexivity|split; reflexivity].
Qed.
Lemma reads_sim {A} (p : prog dcmd A) : only readd p -> forall t x w', Forall hollow (d_heap (t_db t)) -> run dhandler p (proj t) = Some (x, w') ->
  exists t', run tdhandler p t = Some (x, t') /\ proj t' = w' /\ t_kv t' = t_kv t /\ d_heap (t_db t') = d_heap (t_db t).
Proof.
  induction p as [a|X c k IH]; intros U t x w' H E.
  - cbn [run] in *. injection E as <- <-. exists t. auto.
  - destruct U as [U1 U2]. cbn [run] in E. destruct (dhandler X c (proj t)) as [[y w1]|] eqn:EC; [|discriminate].
    destruct (read_sim X c t y w1 U1 H EC) as (t1 & E1 & P1 & K1 & H1). subst w1.
    destruct (IH y (U2 y) t1 x w') as (t' & E' & P' & K' & H'); [now rewrite H1|exact E|].
    exists t'. cbn [run]. rewrite E1. split; [exact E'|]. split; [exact P'|]. split; congruence.
Qed.
Lemma secs_only hs bs o q s e cs : forall m, only readd (query_secondaries hs bs o q s e cs m).
Proof.
  induction cs as [|[i ch] cs IH]; intros m; [exact I|]. cbn [query_secondaries]. destruct (is_with_range ch s e); [|apply IH].
  apply only_bind; [apply (only_lift readc); [auto|apply query_only]|]. intros [l|x|]; [|apply IH|exact I].
  destruct (merge _ m l); [apply IH|exact I|exact I].
Qed.
Lemma db_query_only hs bs o q s e : only readd (db_query hs bs o q s e).
Proof.
  unfold db_query, with_current. apply only_qbind.
  - apply only_bind; [apply only_call; exact I|]. intros [[|] [i ch]].
    + apply only_bind; [apply only_call; exact I|]. intros; exact I.
    + apply only_bind; [|intros; apply only_bind; [apply only_call; exact I|intros; exact I]].
      apply only_bind; [apply (only_lift readc); [auto|apply query_only]|intros; exact I].
  - intros m. apply only_bind; [apply only_call; exact I|]. intros [[|] cs].
    + apply only_bind; [exact I|]. intros r. apply only_bind; [apply only_call; exact I|intros; exact I].
    + apply only_bind; [apply secs_only|]. intros r. apply only_bind; [apply only_call; exact I|intros; exact I].
Qed.

(** ** a query *)
Lemma proj_inj a b : proj a = proj b -> t_kv a = t_kv b -> d_heap (t_db a) = d_heap (t_db b) -> a = b.
Proof.
  destruct a as [[h c s l1 l2 f] k], b as [[h' c' s' l1' l2' f'] k']. unfold proj, set_heap. cbn. intros E -> ->. congruence.
Qed.
Theorem t_query_run hs bs o q s e t l : quietq (proj t) l -> Forall hollow (d_heap (t_db t)) -> Forall part_ok l -> hasher_ok hs -> bs_contract bs ->
  Forall lab_ok q -> unmixed hs l q s e ->
  exists r, trun (t_query hs bs o q s e) t = Some (r, t) /\ comes_to l q s e r.
Proof.
  intros Q Hh P H1 H2 H3 H4. destruct (query_anyq hs bs o q s e (proj t) l Q P H1 H2 H3 H4) as (r & E & A). exists r. split; [|exact A].
  unfold trun, t_query. rewrite run_TD. unfold drun in E.
  destruct (reads_sim _ (db_query_only hs bs o q s e) t _ _ Hh E) as (t' & E' & P' & K' & H'). rewrite E'. do 2 f_equal. now apply proj_inj.
Qed.
