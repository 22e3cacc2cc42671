(* Proofs: opening a database over one shared store, process after process, and what it answers. *)
From Coq Require Import ZifyBool ZifyNat Permutation Sorted.
From Verif Require Import Rust StringProofs BitsProofs Prog Gorilla GorillaSpec Storage StorageSpec StorageProofs Labels IndexSpec Indexer
  LabelProofs IndexProofs Chunk ChunkSpec ChunkProofs ChunkFacts Conc Utils DirSpec DirProofs TiKvInit TiKvShared TiKvSpec TiKvProofs
  Db DbSpec MapProofs DbProofs DbHist DbFacts SwapProofs ReopenSpec ReopenProofs RangeSpec RangeProofs TiKvDb TiKvDbSpec TiKvDbRun TiKvDbChunk TiKvDbProofs.

(** ** chunks of earlier processes *)
Lemma rep_kind u s : (forall x r, x <> 0 -> kv_get s (u ++ x :: r) = None) -> rep (TiKvIndexer u) s [].
Proof.
  intros H. split; [|split].
  - intros ls Hl. unfold lkey, pfx, encode_labels. cbn [lookup_set rev find]. apply (H 76). lia.
  - intros l Hl. unfold rkey, pfx, encode_label. apply (H 76). lia.
  - intros id Hid. unfold ikey, pfx, encode_time_series_id. apply (H 73). lia.
Qed.
Definition again (f : fworld) (m : nat) (a en : Z) (name : list Z) (d : dchunk) : Prop :=
  exists hi, d = mkDc (mkChunk (TiKvStorage nil_uuid) (TiKvIndexer (f_uuid f m)) a hi) (set_closed (new_world [] []) true) name.
Lemma tick_ticked f : tick f = ticked 1 f.
Proof. reflexivity. Qed.
Lemma find_dir_some ds n : In n (map fst ds) -> exists d, find_dir ds n = Some d /\ In (n, d) ds.
Proof.
  induction ds as [|[m d] ds IH]; intros H; [contradiction|]. cbn [find_dir]. unfold name_eqb. destruct (bytes_eqb m n) eqn:E.
  - apply bytes_eqb_spec in E. subst. exists d. split; [reflexivity|now left].
  - destruct H as [H|H]; [cbn [fst] in H; subst; rewrite bytes_eqb_refl in E; discriminate|]. destruct (IH H) as (d' & E1 & E2). exists d'. split; [exact E1|now right].
Qed.

Lemma t_entry cf f s n last T db name : disk f s n last T -> cf_base cf <> [] -> ascii (cf_base cf) -> In name (map fst (f_dirs f)) -> d_fs db = f ->
  name <> metadata_name /\
  exists d, run thandler (t_read_entry cf name) (mkT db s) = Some (Ok (Some d), mkT (set_fs db (tick f)) s) /\ oldrel f s (f_drawn f) d (dc_chunk d, []).
Proof.
  intros D Hb Ha Hin Ef. pose proof (dk_env _ _ _ _ _ D) as He. pose proof He as (_ & L & _ & Hf).
  destruct (find_dir_some _ _ Hin) as (cd & F & I). pose proof (dk_dirs _ _ _ _ _ D) as DD. rewrite Forall_forall in DD.
  destruct (DD _ I) as (a & b & o & k & m & E1 & E2 & E3 & E4 & E5 & E6 & E7 & E8 & E9). cbn [fst snd] in E1, E5.
  split.
  { intros Q. pose proof (metadata_suffix 0) as (x & M). cbn [skipn] in M. rewrite <- Q, E1, decode_encode in M by assumption. discriminate. }
  eexists. split.
  - unfold t_read_entry. rewrite extract_exact; [|assumption|rewrite E1; unfold u64 in *; apply hex_plain; lia].
    rewrite surplus_ascii by assumption. change (skipn (Z.to_nat 0) name) with name. rewrite E1 at 1. rewrite decode_encode by assumption.
    rewrite run_qbind, run_ff. cbn [t_db t_kv]. rewrite Ef. unfold read_config_from_dir. rewrite run_bind, run_call, (fh_readopts f name cd Hf F). rewrite E5. cbn [cd_meta run].
    rewrite run_bind, run_call. cbn [thandler ff tdhandler dhandler fhandler t_db t_kv set_fs d_fs].
    rewrite run_qbind, run_TK. cbn [t_db t_kv]. unfold tikv_storage_read at 1. rewrite (krun_qbind _ _ _ _ _ (krun_get _ _)), E6, E8. cbn [krun fst snd].
    rewrite high16_app by apply L. cbn [rmap rbind].
    unfold tikv_storage_read. rewrite (krun_qbind _ _ _ _ _ (krun_get _ _)), E8. cbn [krun fst snd].
    rewrite run_qbind, run_TK. cbn [t_db t_kv]. unfold tikv_indexer_read. rewrite (krun_qbind _ _ _ _ _ (krun_get _ _)), E8. cbn [krun fst snd].
    rewrite low16_app by apply L. cbn [rmap rbind run]. reflexivity.
  - cbn [dc_chunk]. eexists nil_uuid, m, [], _, _. cbn [fst snd dc_chunk dc_world]. rewrite app_nil_r. split; [reflexivity|]. split; [repeat split|].
    split; [assumption|]. split; [lia|]. split; [congruence|]. split; [apply rep_kind; intros; now apply (dk_kind _ _ _ _ _ D)|].
    do 4 (split; [reflexivity|]). split; [apply distinct_nil|]. cbn. lia.
Qed.
Lemma t_meta_entry cf t : cf_base cf <> [] -> run thandler (t_read_entry cf metadata_name) t = Some (Ok None, t).
Proof.
  intros H. unfold t_read_entry. rewrite extract_exact by (try assumption; apply metadata_plain).
  destruct (metadata_suffix (Z.to_nat (surplus (cf_base cf)))) as (e & ->). reflexivity.
Qed.
Lemma disk_tick f s n last T : disk f s n last T -> disk (tick f) s n last T.
Proof. intros []. constructor; assumption. Qed.
Lemma disk_meta f s n last T m : disk f s n last T -> disk (set_fmeta f m) s n last T.
Proof. intros []. constructor; assumption. Qed.
Lemma disk_ticked k f s n last T : disk f s n last T -> disk (ticked k f) s n last T.
Proof. intros []. constructor; assumption. Qed.
Definition is_dir (name : list Z) : bool := negb (bytes_eqb name metadata_name).
Lemma t_entries cf n last T s names : cf_base cf <> [] -> ascii (cf_base cf) -> forall f db, disk f s n last T -> d_fs db = f ->
  Forall (fun x => x = metadata_name \/ In x (map fst (f_dirs f))) names ->
  exists l, run thandler (forM (t_read_entry cf) names) (mkT db s) = Some (Ok l, mkT (set_fs db (ticked (length (filter is_dir names)) f)) s) /\
    Forall (fun d => oldrel f s (f_drawn f) d (dc_chunk d, [])) (somes l).
Proof.
  intros Hb Ha. induction names as [|x names IH]; intros f db D Ef F; cbn [forM].
  - exists []. split; [|constructor]. cbn [run filter length]. rewrite ticked_0. subst f. now destruct db.
  - inversion F as [|? ? F1 F2]; subst. rewrite run_qbind. destruct F1 as [->|F1].
    + rewrite t_meta_entry by assumption. rewrite run_qbind. destruct (IH _ db D eq_refl F2) as (l & E & H). rewrite E. cbn [run].
      exists (None :: l). split; [|exact H]. cbn [filter]. unfold is_dir at 2. rewrite bytes_eqb_refl. reflexivity.
    + destruct (t_entry cf _ s n last T db x D Hb Ha F1 eq_refl) as (NE & d & E & H). rewrite E. rewrite run_qbind.
      destruct (IH (tick (d_fs db)) (set_fs db (tick (d_fs db))) (disk_tick _ _ _ _ _ D) eq_refl F2) as (l & E' & H'). rewrite E'. cbn [run].
      exists (Some d :: l). split; [|rewrite somes_some; constructor; [exact H|exact H']]. cbn [filter]. unfold is_dir at 2. rewrite bytes_eqb_neq by assumption. cbn [negb length].
      rewrite ticked_tick. reflexivity.
Qed.
Lemma perm_filter {A} (g : A -> bool) l l' : Permutation l l' -> length (filter g l) = length (filter g l').
Proof.
  induction 1 as [|x l l' H IH|x y l|l1 l2 l3 H1 IH1 H2 IH2]; cbn [filter]; auto; [destruct (g x)|destruct (g x), (g y)|congruence]; cbn [length]; congruence.
Qed.

(** ** opening *)
Lemma t_meta cf f : f_faults f = [] -> f_meta f = None \/ f_meta f = Some (Written (own_meta cf)) ->
  run fhandler (read_or_create_metadata (own_meta cf)) f = Some (Ok tt, set_fmeta f (Some (Written (own_meta cf)))).
Proof.
  intros Hf [M|M].
  - unfold read_or_create_metadata. rewrite run_bind, run_call. cbn [fhandler].
    rewrite Hf. cbn [hd]. rewrite no_fault by assumption. rewrite M.
    rewrite run_qbind, run_call. cbn [fhandler]. rewrite Hf. cbn [hd]. rewrite no_fault by assumption.
    rewrite run_qbind, run_call. cbn [fhandler]. change (f_faults (set_fmeta f (Some Empty))) with (f_faults f). rewrite Hf. cbn [hd]. rewrite no_fault by assumption. reflexivity.
  - rewrite (meta_run cf _ f Hf M). rewrite !bytes_eqb_refl. cbn [andb]. do 2 f_equal. destruct f. cbn in *. now subst.
Qed.
Theorem t_open_run cf f s n last T : disk f s n last T -> f_meta f = None \/ f_meta f = Some (Written (own_meta cf)) ->
  cf_base cf <> [] -> ascii (cf_base cf) -> cf_st cf = TiKvDry -> cf_ix cf = TiKvDry -> 0 <= cf_size cf ->
  let start := f_clock f (f_ticks f + n)%nat in last < start -> start + cf_size cf < 2 ^ 64 ->
  exists t, t_open cf f s = Some (Ok tt, t) /\ running cf t (open_shelf cf start T) start (S n) /\
    f_ticks (d_fs (t_db t)) = S (f_ticks f + n) /\ same_env f (d_fs (t_db t)) /\ own_only f s (t_kv t).
Proof.
  intros D M Hb Ha H1 H2 Hsz start Hst Hend. pose proof (dk_env _ _ _ _ _ D) as (Hord & Huid & Hclk & Hflt).
  unfold t_open, trun, t_db_new. rewrite run_qbind, run_ff. cbn [t_db closed_db d_fs t_kv]. rewrite t_meta by assumption.
  set (f1 := set_fmeta f _). pose proof (disk_meta _ _ _ _ _ (Some (Written (own_meta cf))) D) as D1. fold f1 in D1.
  rewrite run_qbind. unfold t_read_existing_chunk. rewrite run_qbind, run_call. cbn [thandler ff tdhandler dhandler]. cbn [t_db t_kv set_fs d_fs]. cbn [fhandler].
  assert (FF: f_faults f1 = []) by assumption. rewrite FF. cbn [hd]. rewrite no_fault by assumption.
  set (names := f_order f1 (entries f1)).
  assert (P: Permutation names (metadata_name :: map fst (f_dirs f))) by apply Hord.
  assert (FN: Forall (fun x => x = metadata_name \/ In x (map fst (f_dirs f1))) names).
  { rewrite Forall_forall. intros x Hx. apply (Permutation_in _ P) in Hx as [<-|Hx]; [now left|now right]. }
  assert (LN: length (filter is_dir names) = n).
  { rewrite (perm_filter is_dir _ _ P). cbn [filter]. unfold is_dir at 1. rewrite bytes_eqb_refl. cbn [negb].
    rewrite <- (dk_len _ _ _ _ _ D), <- (map_length fst (f_dirs f)).
    assert (G: forall l, (forall x, In x l -> is_dir x = true) -> filter is_dir l = l).
    { clear. induction l as [|x l IH]; intros H; [reflexivity|]. cbn [filter]. rewrite (H x ltac:(now left)). f_equal. apply IH. intros; apply H; now right. }
    rewrite G; [reflexivity|]. intros x Hx. destruct (t_entry cf f s n last T (closed_db f) x D Hb Ha Hx eq_refl) as [NE _]. unfold is_dir. now rewrite bytes_eqb_neq. }
  rewrite run_qbind. cbn [set_fs d_heap d_cur d_sec d_curl d_secl].
  destruct (t_entries cf n last T s names Hb Ha f1 (mkD [] 0 [] free_lock free_lock f1) D1 eq_refl FN) as (l & E & H). change (set_fs (set_fs (closed_db f) f1) f1) with (mkD [] 0 [] free_lock free_lock f1). rewrite E, LN. cbn [run set_fs d_heap d_cur d_sec d_curl d_secl].
  rewrite run_bind, run_call. cbn [thandler ff tdhandler dhandler]. cbn [t_db t_kv set_fs d_fs]. cbn [fhandler].
  assert (EC: f_clock (ticked n f1) (f_ticks (ticked n f1)) = start) by (unfold start; cbn; f_equal; lia). rewrite EC.
  set (f2 := tick (ticked n f1)). assert (D2: disk f2 s n last T) by (apply disk_tick, disk_ticked; exact D1).
  assert (U: u64 start) by apply Hclk. unfold u64 in U. assert (Ue: u64 (start + cf_size cf)) by (unfold u64; lia).
  rewrite run_qbind, t_create; cbn [t_db t_kv d_fs set_fs]; [|exact Hflt|lia|assumption|assumption| |].
  2:{ eapply fresh_entry; [apply (dk_dirs _ _ _ _ _ D2)|exact Hst|exact U|exact Ue]. }
  2:{ rewrite <- (app_nil_r (f_uuid _ _)). apply (dk_new _ _ _ _ _ D2). lia. }
  cbn [run set_fs d_heap d_cur d_sec d_curl d_secl]. unfold opened. cbn [fst snd t_db t_kv d_fs].
  eexists. split; [reflexivity|]. cbn [t_db d_fs]. split; [|split; [cbn; lia|split; [repeat split|exact (own_new f2 s)]]].
  set (h0 := sort_chunks (somes l)). set (nd := mkDc _ _ _).
  assert (HO: Forall (fun d => oldrel f2 s (f_drawn f2) d (dc_chunk d, [])) h0).
  { rewrite Forall_forall in *. intros d Hd. apply (Permutation_in _ (sort_chunks_perm _)) in Hd. exact (H d Hd). }
  exists h0, nd, (S (S (f_drawn f2))), (map (fun d => (dc_chunk d, [])) h0).
  constructor; cbn [t_db t_kv d_heap d_cur d_sec d_curl d_secl d_fs open_shelf sh_old sh_cur sh_sets sh_tab]; try reflexivity.
  - apply (new_disk f2 s n last); [exact D2|exact Hst|exact U|exact Ue].
  - apply Nat.lt_succ_diag_r.
  - rewrite Forall_forall. intros c Hc. apply in_map_iff in Hc as (d & <- & _). reflexivity.
  - rewrite app_nil_r. clear - HO D2. induction HO as [|d h H1 H2 IH]; [constructor|]. cbn [map]. constructor; [|exact IH].
    eapply oldrel_new; [apply D2|apply D2|exact H1].
  - lia.
  - exact (new_trep f2 s n last T D2).
  - auto.
Qed.

(** ** asking *)
Definition pt (T : table) (c : chunk * list (list label)) : part := (fst c, seen 1 (snd c) T).
Lemma seen_increasing ks T : (forall i, increasing (T i)) -> forall n, all_increasing (seen n ks T).
Proof. intros H. induction ks as [|k ks IH]; intros n; [constructor|]. cbn [seen]. constructor; [apply H|apply IH]. Qed.
Lemma empty_piece (c : part) q s e m : snd c = [] -> piece c q s e m = [].
Proof. intros H. unfold piece. rewrite H. destruct (answers c q s e); reflexivity. Qed.
Theorem t_answer cf t d start n hs bs o q s e : running cf t d start n -> Z.of_nat (length (sh_sets d)) < 2 ^ 64 -> hasher_ok hs -> bs_contract bs ->
  Forall lab_ok q -> unmixed hs (shelf_parts d) q s e ->
  exists r, trun (t_query hs bs o q s e) t = Some (r, t) /\ comes_to (shelf_parts d) q s e r.
Proof.
  intros (h0 & dc & mc & re & O) HL Hh Hbs Hq Hp. pose proof (or_like _ _ _ _ _ _ _ _ _ O) as LK. pose proof O as [H1 H2 H3 H4 H5 H6 H7 H8 H9 H10 H11 H12 H13 H14 H15 H16].
  pose proof (dk_st _ _ _ _ _ H7) as HT. pose proof (dk_inc _ _ _ _ _ H7) as HI.
  set (T := sh_tab d) in *. set (l := map (pt T) (re ++ sh_old d ++ [(sh_cur d, sh_sets d)])).
  assert (EL: l = map (pt T) re ++ shelf_parts d) by (unfold l; rewrite map_app; reflexivity).
  assert (R0: forall c, In c (map (pt T) re) -> snd c = []).
  { intros c Hc. apply in_map_iff in Hc as (x & <- & Hx). rewrite Forall_forall in H9. unfold pt. cbn [snd]. now rewrite (H9 x Hx). }
  assert (DC: w_locked (dc_world dc) = false /\ w_poisoned (dc_world dc) = false /\ w_faults (dc_world dc) = []).
  { destruct H15 as [_ _ _ _ A1 A2 A3 _]. clear - A1 A2 A3. destruct (dc_world dc). cbn in *. auto. }
  assert (QQ: quietq (proj t) l).
  { constructor; unfold proj; cbn [set_heap d_heap d_cur d_sec d_curl d_secl]; try assumption.
    - rewrite H1, map_app. unfold l. rewrite app_assoc, map_app. apply Forall2_app.
      + clear - H10 HT. set (m := re ++ sh_old d) in *. clearbody m. induction H10 as [|x c h m H F IH]; [constructor|]. cbn [map]. constructor; [|exact IH].
        destruct H as (si & j & tail & lo & hi & E1 & E2 & E3 & E4 & E5 & E6 & E7 & E8 & E9 & E10 & E11 & E12).
        unfold pj, pt. cbn [dc_chunk dc_world fst snd]. split; [exact E2|]. rewrite E1. apply trep_crq; assumption.
      + constructor; [|constructor]. unfold pj, pt. cbn [dc_chunk dc_world fst snd]. split; [exact LK|]. rewrite H13.
        destruct DC as (A1 & A2 & A3). destruct H15 as [B1 _ _ _ _ _ _ B8]. apply trep_crq; try assumption; reflexivity.
    - rewrite H2. unfold l. rewrite map_length, app_assoc, app_length. pose proof (Forall2_len _ _ _ H10) as Q. cbn [length]. rewrite <- Q. symmetry. apply Nat.add_1_r.
    - now rewrite H3, H2. }
  assert (HH: Forall hollow (d_heap (t_db t))).
  { rewrite H1. apply Forall_app. split.
    - clear - H10. induction H10 as [|x c h m H F IH]; [constructor|]. constructor; [|exact IH].
      destruct H as (si & j & tail & lo & hi & E1 & E2 & E3 & E4 & E5 & E6 & E7 & E8 & E9 & E10 & E11 & E12). split; [do 4 eexists; exact E1|]. auto.
    - constructor; [|constructor]. split; [do 4 eexists; exact H13|]. destruct DC as (_ & _ & A3). auto. }
  assert (PO: Forall part_ok l).
  { assert (G: forall x : chunk * list (list label), distinct (snd x) -> Z.of_nat (length (snd x)) < 2 ^ 64 -> part_ok (pt T x)).
    { intros x W Lx. constructor; unfold pt; cbn [snd].
      - apply distinct_wfc; [assumption|]. intros id Hid. apply HT. lia.
      - now apply seen_increasing.
      - now rewrite seen_length. }
    unfold l. rewrite app_assoc, map_app. apply Forall_app. split.
    - clear - H10 G. set (m := re ++ sh_old d) in *. clearbody m. induction H10 as [|x c h m H F IH]; [constructor|]. cbn [map]. constructor; [|exact IH].
      destruct H as (si & j & tail & lo & hi & E1 & E2 & E3 & E4 & E5 & E6 & E7 & E8 & E9 & E10 & E11 & E12). now apply G.
    - constructor; [|constructor]. apply G; cbn [snd]; [exact (tr_wf _ _ _ _ H15)|assumption]. }
  destruct (t_query_run hs bs o q s e t l QQ HH PO Hh Hbs Hq) as (r & E & A).
  { revert Hp. apply unmixed_less. intros c m Hc N1. rewrite EL in Hc. apply in_app_or in Hc as [Hc|Hc]; [exfalso; apply N1; apply empty_piece; auto|eauto]. }
  exists r. split; [exact E|]. rewrite EL in A. revert A. apply comes_to_app. intros c Hc. split; [intros m; apply empty_piece; auto|].
  intros ls pts. rewrite (R0 c Hc). intros [].
Qed.

(** ** process after process *)
Lemma disk_running cf t d start n : running cf t d start n -> disk (d_fs (t_db t)) (t_kv t) n start (sh_tab d) /\ f_meta (d_fs (t_db t)) = Some (Written (own_meta cf)).
Proof. intros (h0 & dc & mc & re & O). split; apply O. Qed.
Lemma own_same cf cf' : cf_st cf = TiKvDry -> cf_ix cf = TiKvDry -> cf_st cf' = TiKvDry -> cf_ix cf' = TiKvDry -> own_meta cf = own_meta cf'.
Proof. intros H1 H2 H3 H4. unfold own_meta. now rewrite H1, H2, H3, H4. Qed.
Lemma t_lives L : forall f s n last T, L <> [] -> disk f s n last T ->
  (forall cf, cf_st cf = TiKvDry -> cf_ix cf = TiKvDry -> f_meta f = None \/ f_meta f = Some (Written (own_meta cf))) ->
  tlives_ok (f_clock f) (f_ticks f) n last L ->
  exists t d cf start m, t_live L f s = Some (map snd (shelf_lives (f_clock f) (f_ticks f) n T L), t) /\
    (exists l, map fst (shelf_lives (f_clock f) (f_ticks f) n T L) = l ++ [d]) /\
    running cf t d start m /\ Z.of_nat (length (sh_sets d)) < 2 ^ 64.
Proof.
  induction L as [|x L IH]; intros f s n last T NE D M OK; [contradiction|]. clear NE.
  cbn [tlives_ok] in OK. destruct OK as (T1 & T2 & Ha & Hst & (Hb & P1 & P2 & P3 & P4 & P5 & P6) & OK).
  set (start := f_clock f (f_ticks f + n)%nat) in *. set (cf := lf_cf x) in *.
  destruct (t_open_run cf f s n last T D (M cf T1 T2) Hb Ha T1 T2 P2 Hst P3) as (t0 & E0 & R0 & K0 & S0 & _). fold start in R0.
  destruct (t_ops cf (lf_ops x) t0 _ start (S n) R0 P4 P5) as (t1 & E1 & R1 & K1 & S1 & L1 & _); [cbn [open_shelf sh_sets length]; lia|].
  cbn [t_live shelf_lives map]. unfold t_after. fold cf start. rewrite E0, E1. set (y := shelf_ops cf _ (lf_ops x)) in *.
  destruct L as [|x' L].
  - exists t1, (fst y), cf, (last_start start (lf_ops x)), (S n + swaps (lf_ops x))%nat. split; [reflexivity|]. split; [now exists []|]. split; [exact R1|lia].
  - destruct (disk_running _ _ _ _ _ R1) as [D1 M1].
    pose proof (same_env_trans _ _ _ S0 S1) as (_ & EC & _).
    assert (KK: f_ticks (d_fs (t_db t1)) = S (f_ticks f + n)) by congruence.
    destruct (IH (d_fs (t_db t1)) (t_kv t1) (S n + swaps (lf_ops x))%nat (last_start start (lf_ops x)) (sh_tab (fst y))) as (t2 & d2 & cf2 & st2 & m2 & E2 & LE & R2 & L2).
    + discriminate.
    + exact D1.
    + intros cf' Q1 Q2. right. rewrite M1. do 2 f_equal. now apply own_same.
    + rewrite EC, KK. replace (S n + swaps (lf_ops x))%nat with (n + S (swaps (lf_ops x)))%nat by lia. exact OK.
    + rewrite EC, KK in E2, LE. replace (S n + swaps (lf_ops x))%nat with (n + S (swaps (lf_ops x)))%nat in E2, LE by lia.
      rewrite E2. exists t2, d2, cf2, st2, m2. split; [reflexivity|]. split; [|split; [exact R2|exact L2]]. destruct LE as (l & LE). exists (fst y :: l). cbn [map app]. f_equal. exact LE.
Qed.

Lemma first_disk f s T : env_ok f -> empty_dir f -> new_uuids f s -> holds_series (TiKvStorage []) s T -> (forall i, increasing (T i)) -> disk f s 0 (-1) T.
Proof.
  intros He [_ Hd] [N1 N2] HT HI. constructor; try assumption; [intros; apply N2|intros; apply N2|now rewrite Hd|rewrite Hd; constructor].
Qed.
Lemma no_points_series s : no_points s -> holds_series (TiKvStorage []) s no_table.
Proof. intros H id Hid. split; [constructor|]. apply H. cbn [series_key]. unfold tikv_series_key. cbn [app]. apply length_be_bytes. Qed.

Theorem tikv_lives f s T L : env_ok f -> empty_dir f -> new_uuids f s -> holds_series (TiKvStorage []) s T -> (forall i, increasing (T i)) ->
  tlives_ok (f_clock f) (f_ticks f) 0 (-1) L -> L <> [] ->
  exists l d t, shelf_lives (f_clock f) (f_ticks f) 0 T L = l ++ [d] /\ t_live L f s = Some (map snd (l ++ [d]), t) /\
    (exists cf start n, running cf t (fst d) start n) /\
    forall hs bs o q a b, hasher_ok hs -> bs_contract bs -> Forall lab_ok q -> unmixed hs (shelf_parts (fst d)) q a b ->
      exists r, trun (t_query hs bs o q a b) t = Some (r, t) /\ comes_to (shelf_parts (fst d)) q a b r.
Proof.
  intros He Hd Hu HT HI OK NE.
  destruct (t_lives L f s 0 (-1) T NE (first_disk f s T He Hd Hu HT HI)) as (t & d & cf & start & n & E & (l & EL) & R & LL); [intros; left; apply Hd|exact OK|].
  destruct (exists_last (l := shelf_lives (f_clock f) (f_ticks f) 0 T L)) as (l' & d' & Q).
  { intros Q. rewrite Q in EL. destruct l; discriminate. }
  exists l', d', t. rewrite Q in *. split; [reflexivity|]. split; [exact E|].
  assert (fst d' = d) as ->. { rewrite map_app in EL. apply app_inj_tail in EL. apply EL. }
  split; [eauto|]. intros hs bs o q a b Hh Hbs Hq Hp. eapply t_answer; eassumption.
Qed.

(** ** one process with one window *)
Lemma place_ge ks ls : forall n m, place n ks ls = Some m -> n <= m.
Proof.
  induction ks as [|k ks IH]; intros n m H; [discriminate|]. cbn [place] in H. destruct (same_setb k ls); [injection H as <-; lia|].
  apply IH in H. lia.
Qed.
Lemma seen_ext ks T T' : forall n, (forall i, n <= i < n + Z.of_nat (length ks) -> T i = T' i) -> seen n ks T = seen n ks T'.
Proof.
  induction ks as [|k ks IH]; intros n H; [reflexivity|]. cbn [seen]. f_equal; [f_equal; apply H; cbn [length]; lia|].
  apply IH. intros i Hi. apply H. cbn [length]. lia.
Qed.
Lemma seen_add st ks T ls p : (forall i, increasing (T i)) -> forall n m, place n ks ls = Some m ->
  seen n ks (append T m p) = add_point (TiKvStorage st) (seen n ks T) ls p.
Proof.
  intros HI. induction ks as [|k ks IH]; intros n m H; [discriminate|]. cbn [place] in H. cbn [seen add_point].
  destruct (same_setb k ls).
  - assert (m = n) as -> by congruence. f_equal.
    + f_equal. unfold append. rewrite Z.eqb_refl. rewrite later_keeps by apply HI. reflexivity.
    + apply seen_ext. intros i Hi. unfold append. replace (i =? n) with false by lia. reflexivity.
  - f_equal; [|now apply IH]. f_equal. apply place_ge in H. unfold append. replace (n =? m) with false by lia. reflexivity.
Qed.
Lemma seen_none st ks T ls p : forall n, place n ks ls = None -> add_point (TiKvStorage st) (seen n ks T) ls p = seen n ks T ++ [(ls, [p])].
Proof.
  induction ks as [|k ks IH]; intros n H; [reflexivity|]. cbn [place] in H. cbn [seen add_point app]. destruct (same_setb k ls); [discriminate|].
  f_equal. now apply IH.
Qed.
Record alone (ks : list (list label)) (T : table) : Prop := mkAlone {
  al_inc : forall i, increasing (T i);
  al_new : forall i, Z.of_nat (length ks) < i -> T i = [] }.
Lemma place_le ks ls : forall n m, place n ks ls = Some m -> m < n + Z.of_nat (length ks).
Proof.
  induction ks as [|k ks IH]; intros n m H; [discriminate|]. cbn [place] in H. cbn [length]. destruct (same_setb k ls); [injection H as <-; lia|].
  apply IH in H. lia.
Qed.
Lemma put_alone st ch ks T ls p : c_storage ch = TiKvStorage st -> alone ks T ->
  exists ks' T', put ch (ks, T) ls p = ((ks', T'), true) /\ alone ks' T' /\ seen 1 ks' T' = ins ch (seen 1 ks T) (ls, p).
Proof.
  intros Hst [HI HN]. unfold put, ins. cbn [fst snd]. destruct (in_windowb ch (tp_ts p)); [|exists ks, T; split; [reflexivity|]; split; [constructor; assumption|reflexivity]].
  destruct (place 1 ks ls) as [n|] eqn:P.
  - exists ks, (append T n p). split; [reflexivity|]. split.
    + constructor; [intros i; now apply append_inc|]. intros i Hi. apply place_le in P. unfold append. replace (i =? n) with false by lia. now apply HN.
    + rewrite Hst. now apply seen_add.
  - set (n := Z.of_nat (length ks) + 1). assert (TN: T n = []) by (apply HN; lia).
    exists (ks ++ [ls]), (append T n p). unfold later at 1. rewrite TN. split; [reflexivity|]. split.
    + constructor; [intros i; now apply append_inc|]. intros i Hi. rewrite app_length in Hi. cbn [length] in Hi. unfold append. replace (i =? n) with false by lia. apply HN. lia.
    + rewrite Hst, seen_none by assumption. rewrite seen_app. cbn [seen]. f_equal.
      * apply seen_ext. intros i Hi. unfold append. replace (i =? n) with false by lia. reflexivity.
      * do 2 f_equal. unfold append. replace (1 + Z.of_nat (length ks) =? n) with true by lia. rewrite TN. reflexivity.
Qed.
Lemma puts_alone st ch ls pts : c_storage ch = TiKvStorage st -> forall ks T, alone ks T ->
  exists ks' T', puts ch (ks, T) ls pts = ((ks', T'), true) /\ alone ks' T' /\ seen 1 ks' T' = fold_left (ins ch) (map (pair ls) pts) (seen 1 ks T).
Proof.
  intros Hst. induction pts as [|p pts IH]; intros ks T A; cbn [puts map fold_left].
  - exists ks, T. auto.
  - destruct (put_alone st ch ks T ls p Hst A) as (k1 & T1 & E1 & A1 & S1). rewrite E1.
    destruct (IH k1 T1 A1) as (k2 & T2 & E2 & A2 & S2). rewrite E2. exists k2, T2. split; [reflexivity|]. split; [exact A2|]. now rewrite S2, S1.
Qed.
Lemma one_window cf start ops : cf_st cf = TiKvDry -> swaps ops = 0%nat -> forall ks T h, alone ks T -> seen 1 ks T = content_of (the_chunk cf start) h ->
  let y := shelf_ops cf (mkShelf [] (the_chunk cf start) ks T) ops in
  shelf_parts (fst y) = parts_from cf start h ops /\ snd y = outcomes cf start ops.
Proof.
  intros Hcf. assert (Hst: c_storage (the_chunk cf start) = TiKvStorage []) by (unfold the_chunk; cbn [c_storage]; now rewrite Hcf).
  induction ops as [|o ops IH]; intros Hs ks T h A E; cbn [shelf_ops].
  - cbn [fst snd parts_from outcomes]. split; [|reflexivity]. unfold shelf_parts. cbn [sh_old sh_cur sh_sets sh_tab app map fst snd]. now rewrite E.
  - destruct o as [ls p|ls pts|st]; [| |discriminate]; cbn [swaps] in Hs; cbn [shelf_op sh_cur sh_sets sh_tab sh_old parts_from outcomes].
    + destruct (put_alone [] _ ks T ls p Hst A) as (k1 & T1 & E1 & A1 & S1). rewrite E1.
      destruct (IH Hs k1 T1 (h ++ [(ls, p)]) A1) as [P1 P2].
      { rewrite S1, E. unfold content_of. rewrite fold_left_app. reflexivity. }
      destruct (shelf_ops cf _ ops) as [d' rs]. cbn [fst snd] in *. split; [exact P1|]. rewrite P2. reflexivity.
    + destruct (puts_alone [] _ ls pts Hst ks T A) as (k1 & T1 & E1 & A1 & S1). rewrite E1.
      destruct (IH Hs k1 T1 (h ++ map (pair ls) pts) A1) as [P1 P2].
      { rewrite S1, E. unfold content_of. rewrite fold_left_app. reflexivity. }
      destruct (shelf_ops cf _ ops) as [d' rs]. cbn [fst snd] in *. split; [exact P1|]. rewrite P2, Bool.orb_false_r. reflexivity.
Qed.
Theorem one_life cf start ops : cf_st cf = TiKvDry -> swaps ops = 0%nat ->
  shelf_parts (fst (shelf_ops cf (open_shelf cf start no_table) ops)) = parts cf start ops /\
  snd (shelf_ops cf (open_shelf cf start no_table) ops) = outcomes cf start ops.
Proof.
  intros Hc Hs. apply (one_window cf start ops Hc Hs [] no_table []); [|reflexivity]. constructor; [intros i; constructor|reflexivity].
Qed.

(** ** right after a restart *)
Lemma nothing_prefix hs c q a b : unmixed hs [(c, [])] q a b.
Proof. apply free_unmixed. intros x y m z Hx _ N. exfalso. apply N. apply empty_piece. destruct Hx as [<-|[]]. reflexivity. Qed.
Lemma nothing_comes c q a b r : comes_to [(c, [])] q a b r -> r = Ok [].
Proof. apply comes_to_nothing. intros x [<-|[]]. split; [intros m; now apply empty_piece|]. intros ls pts []. Qed.
Lemma shelf_lives_app clock x L : forall tick n T, exists T' tick' n',
  shelf_lives clock tick n T (L ++ [x]) = shelf_lives clock tick n T L ++ shelf_lives clock tick' n' T' [x].
Proof.
  induction L as [|y L IH]; intros tick n T; [exists T, tick, n; reflexivity|]. cbn [app]. destruct (IH (S (tick + n)) (n + S (swaps (lf_ops y)))%nat
    (sh_tab (fst (shelf_ops (lf_cf y) (open_shelf (lf_cf y) (clock (tick + n)%nat) T) (lf_ops y))))) as (T' & k & m & E).
  exists T', k, m. cbn [shelf_lives]. cbn [shelf_lives] in E. rewrite E. reflexivity.
Qed.
Theorem tikv_forgets f s L cf : env_ok f -> empty_dir f -> new_uuids f s -> no_points s ->
  tlives_ok (f_clock f) (f_ticks f) 0 (-1) (L ++ [mkLife cf []]) ->
  exists rss t, t_live (L ++ [mkLife cf []]) f s = Some (rss, t) /\
    forall hs bs o q a b, hasher_ok hs -> bs_contract bs -> Forall lab_ok q -> trun (t_query hs bs o q a b) t = Some (Ok [], t).
Proof.
  intros He Hd Hu Hn OK.
  destruct (tikv_lives f s no_table (L ++ [mkLife cf []]) He Hd Hu (no_points_series s Hn)) as (l & d & t & E & R & _ & A); [intros i; constructor|exact OK|now destruct L|].
  exists (map snd (l ++ [d])), t. split; [exact R|]. intros hs bs o q a b Hh Hb Hq.
  destruct (shelf_lives_app (f_clock f) (mkLife cf []) L (f_ticks f) 0 no_table) as (T' & k & m & EA). rewrite E in EA.
  cbn [shelf_lives lf_cf lf_ops shelf_ops] in EA. apply app_inj_tail in EA as [_ ->].
  destruct (A hs bs o q a b Hh Hb Hq) as (r & Q & W); cbn [fst open_shelf] in *; unfold shelf_parts in *; cbn [sh_old sh_cur sh_sets sh_tab app map fst snd seen] in *; [apply nothing_prefix|].
  apply nothing_comes in W. now subst.
Qed.
