(* Proofs about stopping and reopening a database. *)
From Coq Require Import ZifyBool ZifyNat Permutation Sorted.
From Verif Require Import Rust StringProofs Prog Gorilla GorillaSpec Storage StorageSpec StorageProofs Labels IndexSpec Indexer
  LabelProofs IndexProofs Chunk ChunkSpec ChunkProofs ChunkFacts Conc Utils DirSpec DirProofs TiKvInit Db DbSpec MapProofs DbProofs DbHist RangeSpec RangeProofs DbFacts
  ReopenSpec.

(** ** files *)
Definition ticked (n : nat) (f : fworld) : fworld :=
  mkF (f_meta f) (f_dirs f) (f_order f) (f_clock f) (n + f_ticks f) (f_uuid f) (f_drawn f) (f_faults f).
Lemma ticked_0 f : ticked 0 f = f.
Proof. now destruct f. Qed.
Lemma ticked_tick n f : ticked n (tick f) = ticked (S n) f.
Proof. unfold ticked, tick. cbn. f_equal. lia. Qed.

Lemma put_same ds n d : find_dir ds n = Some d -> put_dir ds n d = ds.
Proof.
  induction ds as [|[m d'] ds IH]; cbn [find_dir put_dir]; [discriminate|]. destruct (name_eqb m n); [congruence|].
  intros H. f_equal. auto.
Qed.
Lemma set_same f : set_dirs f (f_dirs f) = f.
Proof. now destruct f. Qed.
Lemma fh_readopts f name d : f_faults f = [] -> find_dir (f_dirs f) name = Some d ->
  fhandler _ (FReadOpts name) f = Some (cd_meta d, f).
Proof. intros H1 H2. cbn [fhandler]. rewrite H1. cbn [hd]. now rewrite no_fault, H2 by assumption. Qed.
Lemma fh_openst_old f name d s : f_faults f = [] -> find_dir (f_dirs f) name = Some d -> cd_st d = Some s ->
  fhandler _ (FOpenSt name) f = Some (Ok s, f).
Proof.
  intros H1 H2 H3. cbn [fhandler]. rewrite H1. cbn [hd]. rewrite no_fault, H2, H3 by assumption. cbn [open_or_new].
  assert (mkCdir (cd_meta d) (Some s) (cd_ix d) = d) as -> by (destruct d; cbn in *; now subst).
  now rewrite put_same, set_same by assumption.
Qed.
Lemma fh_openix_old f name d s : f_faults f = [] -> find_dir (f_dirs f) name = Some d -> cd_ix d = Some s ->
  fhandler _ (FOpenIx name) f = Some (Ok s, f).
Proof.
  intros H1 H2 H3. cbn [fhandler]. rewrite H1. cbn [hd]. rewrite no_fault, H2, H3 by assumption. cbn [open_or_new].
  assert (mkCdir (cd_meta d) (cd_st d) (Some s) = d) as -> by (destruct d; cbn in *; now subst).
  now rewrite put_same, set_same by assumption.
Qed.

(** ** reading a directory *)
(* everything a chunk directory should have *)
Definition complete (cf : config) (d : cdir) : Prop :=
  (exists o, cd_meta d = Some (Written o)) /\ (cf_st cf = Sled -> cd_st d <> None) /\ (cf_ix cf = Sled -> cd_ix d <> None).

Lemma krun_read_storage id : krun (tikv_storage_read id) [] = (Ok None, []).
Proof. reflexivity. Qed.
Lemma krun_read_indexer id : krun (tikv_indexer_read id) [] = (Ok None, []).
Proof. reflexivity. Qed.

Lemma entry_any cf f name d : f_faults f = [] -> cf_base cf <> [] -> plain_name name ->
  find_dir (f_dirs f) name = Some d -> complete cf d ->
  exists r k, run fhandler (read_entry cf name) f = Some (Ok r, ticked k f).
Proof.
  intros Hf Hb Hp Hd ((o & Ho) & Hst & Hix). unfold read_entry. rewrite extract_exact by assumption.
  set (dn := skipn _ name).
  destruct (decode_chunk_dir dn) as [[s e]|x|] eqn:Q; [|exists None, 0%nat; rewrite ticked_0; reflexivity..].
  rewrite run_qbind. unfold read_config_from_dir. rewrite run_bind, run_call, (fh_readopts f name d Hf Hd), Ho. cbn [run].
  rewrite run_bind, run_call. cbn [fhandler]. rewrite run_qbind.
  set (o' := mkOpts s _ _). assert (Hf': f_faults (tick f) = []) by exact Hf. assert (Hd': find_dir (f_dirs (tick f)) name = Some d) by exact Hd.
  assert (R1: exists x, run fhandler (read_storage (cf_st cf) name o') (tick f) = Some (Ok x, tick f)).
  { destruct (cf_st cf); cbn [read_storage].
    - destruct (cd_st d) as [s0|] eqn:Q0; [|now destruct (Hst eq_refl)]. rewrite run_qbind, run_call, (fh_openst_old _ _ _ _ Hf' Hd' Q0). cbn [run]. eauto.
    - rewrite krun_read_storage. cbn [run rmap]. eauto. }
  destruct R1 as (x1 & ->). rewrite run_qbind.
  assert (R2: exists x, run fhandler (read_indexer (cf_ix cf) name o') (tick f) = Some (Ok x, tick f)).
  { destruct (cf_ix cf); cbn [read_indexer].
    - destruct (cd_ix d) as [s0|] eqn:Q0; [|now destruct (Hix eq_refl)]. rewrite run_qbind, run_call, (fh_openix_old _ _ _ _ Hf' Hd' Q0). cbn [run]. eauto.
    - rewrite krun_read_indexer. cbn [run rmap]. eauto. }
  destruct R2 as (x2 & ->). cbn [run]. exists (match x1, x2 with
    | Some (st, ss), Some (ix, si) => Some (mkDc (mkChunk st ix (o_start o') (o_end o')) (set_closed (new_world ss si) true) name)
    | _, _ => None end), 1%nat. reflexivity.
Qed.

Lemma surplus_ascii s : ascii s -> surplus s = 0.
Proof. intros H. unfold surplus. rewrite str_len_ascii by assumption. lia. Qed.

(* the chunk read from a directory at the time now *)
Definition reopened_chunk (now s en : Z) (st ix : kv) (name : list Z) : dchunk :=
  mkDc (mkChunk SledStorage SledIndexer s (if now <? en then now else en)) (set_closed (new_world st ix) true) name.

Lemma entry_sled cf f name d st ix s en : f_faults f = [] -> cf_base cf <> [] -> ascii (cf_base cf) ->
  cf_st cf = Sled -> cf_ix cf = Sled -> name = encode_chunk_dir s en -> u64 s -> u64 en ->
  find_dir (f_dirs f) name = Some d -> (exists o, cd_meta d = Some (Written o)) -> cd_st d = Some st -> cd_ix d = Some ix ->
  run fhandler (read_entry cf name) f = Some (Ok (Some (reopened_chunk (f_clock f (f_ticks f)) s en st ix name)), tick f).
Proof.
  intros Hf Hb Ha Hst Hix Hn Us Ue Hd (o & Ho) Hs Hi. unfold read_entry.
  rewrite extract_exact; [|assumption|subst name; unfold u64 in *; apply hex_plain; lia].
  rewrite surplus_ascii by assumption. change (skipn (Z.to_nat 0) name) with name. rewrite Hn, decode_encode by assumption. rewrite <- Hn.
  rewrite run_qbind. unfold read_config_from_dir. rewrite run_bind, run_call, (fh_readopts f name d Hf Hd), Ho. cbn [run].
  rewrite run_bind, run_call. cbn [fhandler]. rewrite run_qbind, Hst, Hix. cbn [read_storage read_indexer].
  assert (Hf': f_faults (tick f) = []) by exact Hf. assert (Hd': find_dir (f_dirs (tick f)) name = Some d) by exact Hd.
  rewrite run_qbind, run_call, (fh_openst_old _ _ _ _ Hf' Hd' Hs). cbn [run].
  rewrite run_qbind, run_qbind, run_call, (fh_openix_old _ _ _ _ Hf' Hd' Hi). cbn [run o_start o_end]. reflexivity.
Qed.

(** ** sorting *)
Lemma insert_chunk_perm x l : Permutation (insert_chunk x l) (x :: l).
Proof.
  induction l as [|y l IH]; [reflexivity|]. cbn [insert_chunk]. destruct (chunk_cmp _ _); [reflexivity|reflexivity|].
  rewrite IH. apply perm_swap.
Qed.
Lemma sort_chunks_perm l : Permutation (sort_chunks l) l.
Proof. induction l as [|x l IH]; [reflexivity|]. cbn [sort_chunks fold_right]. fold (sort_chunks l). now rewrite insert_chunk_perm, IH. Qed.
Definition dstart (d : dchunk) : Z := c_start (dc_chunk d).
Lemma insert_chunk_sorted x l : StronglySorted Z.le (map dstart l) -> StronglySorted Z.le (map dstart (insert_chunk x l)).
Proof.
  induction l as [|y l IH]; intros H; [repeat constructor|]. cbn [insert_chunk].
  assert (C: chunk_cmp (dc_chunk x) (dc_chunk y) = (dstart x ?= dstart y)) by reflexivity. rewrite C.
  cbn [map] in H. inversion H as [|? ? H1 H2]; subst.
  assert (G: forall n, n <= dstart y -> Forall (Z.le n) (map dstart (y :: l))).
  { intros n Hn. cbn [map]. constructor; [assumption|]. eapply Forall_impl; [|exact H2]. cbn. lia. }
  destruct (dstart x ?= dstart y) eqn:E.
  - cbn [map]. constructor; [exact H|]. apply G. apply Z.compare_eq in E. lia.
  - cbn [map]. constructor; [exact H|]. apply G. rewrite Z.compare_lt_iff in E. lia.
  - cbn [map]. constructor; [apply IH, H1|]. rewrite Z.compare_gt_iff in E.
    assert (P: Permutation (map dstart (insert_chunk x l)) (map dstart (x :: l))) by (apply Permutation_map, insert_chunk_perm).
    eapply Permutation_Forall; [apply Permutation_sym; exact P|]. cbn [map]. constructor; [lia|exact H2].
Qed.
Lemma sort_chunks_sorted l : StronglySorted Z.le (map dstart (sort_chunks l)).
Proof. induction l as [|x l IH]; [constructor|]. cbn [sort_chunks fold_right]. fold (sort_chunks l). now apply insert_chunk_sorted. Qed.
Lemma sorted_unique a : forall b, StronglySorted Z.le (map dstart a) -> StronglySorted Z.lt (map dstart b) -> Permutation a b -> a = b.
Proof.
  induction a as [|x a IH]; intros b Ha Hb P.
  - apply Permutation_nil in P. now subst.
  - destruct b as [|y b]; [apply Permutation_sym, Permutation_nil in P; discriminate|].
    cbn [map] in *. inversion Ha as [|? ? A1 A2]; subst. inversion Hb as [|? ? B1 B2]; subst.
    assert (x = y) as ->.
    { assert (Hx: In x (y :: b)) by (eapply Permutation_in; [exact P|now left]). destruct Hx as [->|Hx]; [reflexivity|].
      assert (Hy: In y (x :: a)) by (eapply Permutation_in; [apply Permutation_sym; exact P|now left]). destruct Hy as [->|Hy]; [reflexivity|].
      rewrite Forall_forall in A2, B2. specialize (A2 _ (in_map dstart _ _ Hy)). specialize (B2 _ (in_map dstart _ _ Hx)). lia. }
    f_equal. apply IH; [assumption|assumption|]. eapply Permutation_cons_inv; exact P.
Qed.

(** ** reading all directories *)
Definition known (cf : config) (f : fworld) (name : list Z) : Prop :=
  name = metadata_name \/ plain_name name /\ exists d, find_dir (f_dirs f) name = Some d /\ complete cf d.
Lemma ticked_ticked a b f : ticked a (ticked b f) = ticked (a + b) f.
Proof. unfold ticked. cbn. f_equal. lia. Qed.
Lemma forM_any cf names : cf_base cf <> [] -> forall f, f_faults f = [] -> Forall (known cf f) names ->
  exists rs k, run fhandler (forM (read_entry cf) names) f = Some (Ok rs, ticked k f).
Proof.
  intros Hb. induction names as [|n names IH]; intros f Hf H; cbn [forM].
  - exists [], 0%nat. now rewrite ticked_0.
  - inversion H as [|? ? H1 H2]; subst. rewrite run_qbind.
    assert (R: exists r k, run fhandler (read_entry cf n) f = Some (Ok r, ticked k f)).
    { destruct H1 as [->|(Hp & d & Hd & Hc)].
      - exists None, 0%nat. rewrite ticked_0. now apply metadata_entry.
      - now apply (entry_any cf f n d). }
    destruct R as (r & k & ->). rewrite run_qbind. destruct (IH (ticked k f)) as (rs & k' & ->); [exact Hf|exact H2|].
    cbn [run]. exists (r :: rs), (k' + k)%nat. now rewrite ticked_ticked.
Qed.

(* what a directory was and what is read from it *)
Definition reop (clock : nat -> Z) (lo hi : nat) (d d' : dchunk) : Prop :=
  exists en i, u64 en /\ dc_name d = encode_chunk_dir (dstart d) en /\ c_end (dc_chunk d) <= en /\ (lo <= i < hi)%nat /\
    d' = reopened_chunk (clock i) (dstart d) en (w_st (dc_world d)) (w_ix (dc_world d)) (dc_name d).
Definition on_disk (ds : list (list Z * cdir)) (d : dchunk) : Prop :=
  exists o en, find_dir ds (dc_name d) = Some (mkCdir (Some (Written o)) (Some (w_st (dc_world d))) (Some (w_ix (dc_world d)))) /\
    u64 (dstart d) /\ u64 en /\ dc_name d = encode_chunk_dir (dstart d) en /\ c_end (dc_chunk d) <= en.
Definition named (n : list Z) (it : option dchunk) : Prop :=
  match it with None => n = metadata_name | Some d => n = dc_name d end.
Definition oreop clock lo hi (a b : option dchunk) : Prop :=
  match a, b with None, None => True | Some d, Some d' => reop clock lo hi d d' | _, _ => False end.
Lemma oreop_wider clock lo hi lo' hi' a b : (lo' <= lo)%nat -> (hi <= hi')%nat -> oreop clock lo hi a b -> oreop clock lo' hi' a b.
Proof.
  intros H1 H2. unfold oreop. destruct a, b; try tauto. intros (en & i & ? & ? & ? & ? & ?). exists en, i. do 3 (split; [assumption|]). split; [lia|assumption].
Qed.

Lemma F2_impl {A B} (P Q : A -> B -> Prop) : (forall a b, P a b -> Q a b) -> forall l l', Forall2 P l l' -> Forall2 Q l l'.
Proof. induction 2; constructor; auto. Qed.
Lemma somes_some {A} (x : A) l : somes (Some x :: l) = x :: somes l.
Proof. reflexivity. Qed.
Lemma somes_none {A} (l : list (option A)) : somes (None :: l) = somes l.
Proof. reflexivity. Qed.
Lemma forM_sled cf its : cf_base cf <> [] -> ascii (cf_base cf) -> cf_st cf = Sled -> cf_ix cf = Sled ->
  forall names f, f_faults f = [] -> Forall2 named names its -> (forall d, In (Some d) its -> on_disk (f_dirs f) d) ->
  let n := length (somes its) in
  exists rs, run fhandler (forM (read_entry cf) names) f = Some (Ok rs, ticked n f) /\
    Forall2 (oreop (f_clock f) (f_ticks f) (f_ticks f + n)) its rs.
Proof.
  intros Hb Ha Hst Hix. induction its as [|it its IH]; intros names f Hf H Hd; inversion H as [|nm ? names' ? H1 H2]; subst; cbn [forM].
  - exists []. cbn. rewrite ticked_0. split; [reflexivity|constructor].
  - rewrite run_qbind. cbv zeta. destruct it as [d|]; cbn [named] in *; rewrite ?somes_some, ?somes_none.
    + destruct (Hd d ltac:(now left)) as (o & en & F & U1 & U2 & N & B). subst nm.
      rewrite (entry_sled cf f (dc_name d) _ (w_st (dc_world d)) (w_ix (dc_world d)) (dstart d) en Hf Hb Ha Hst Hix N U1 U2 F) by (cbn; eauto).
      rewrite run_qbind. destruct (IH names' (tick f) Hf H2) as (rs & -> & R).
      { intros d' Hd'. apply Hd. now right. }
      cbn [run length]. rewrite ticked_tick. eexists. split; [reflexivity|]. constructor.
      * exists en, (f_ticks f). do 3 (split; [assumption|]). split; [lia|reflexivity].
      * cbn [tick f_ticks f_clock] in R. eapply F2_impl; [|exact R]. intros a b. apply oreop_wider; lia.
    + subst nm. rewrite metadata_entry by assumption. rewrite run_qbind. destruct (IH names' f Hf H2) as (rs & -> & R).
      { intros d' Hd'. apply Hd. now right. }
      cbn [run]. eexists. split; [reflexivity|]. constructor; [exact I|exact R].
Qed.

Lemma somes_perm {A} (a b : list (option A)) : Permutation a b -> Permutation (somes a) (somes b).
Proof.
  induction 1 as [|[x|] l l' H IH|[x|] [y|] l|l1 l2 l3 H1 IH1 H2 IH2]; rewrite ?somes_some, ?somes_none, ?somes_some; auto.
  - apply perm_swap.
  - eapply perm_trans; eassumption.
Qed.
Lemma somes_map {A} (l : list A) : somes (map Some l) = l.
Proof. induction l as [|x l IH]; [reflexivity|]. cbn [map]. now rewrite somes_some, IH. Qed.
Lemma oreop_somes clock lo hi h : forall rs, Forall2 (oreop clock lo hi) (map Some h) rs -> Forall2 (reop clock lo hi) h (somes rs).
Proof.
  induction h as [|d h IH]; intros rs H; inversion H as [|? r ? rs' H1 H2]; subst; [constructor|].
  destruct r as [d'|]; [|contradiction]. rewrite somes_some. constructor; [exact H1|]. now apply IH.
Qed.
Lemma reop_start clock lo hi h h' : Forall2 (reop clock lo hi) h h' -> map dstart h' = map dstart h.
Proof. induction 1 as [|d d' h h' (en & i & _ & _ & _ & _ & ->) H IH]; [reflexivity|]. cbn [map]. now rewrite IH. Qed.

Lemma read_existing_sled cf f h : cf_base cf <> [] -> ascii (cf_base cf) -> cf_st cf = Sled -> cf_ix cf = Sled ->
  f_faults f = [] -> (forall l, Permutation (f_order f l) l) -> f_meta f <> None -> map fst (f_dirs f) = map dc_name h ->
  Forall (on_disk (f_dirs f)) h -> StronglySorted Z.lt (map dstart h) ->
  exists h', run fhandler (read_existing_chunk cf) f = Some (Ok h', ticked (length h) f) /\
    Forall2 (reop (f_clock f) (f_ticks f) (f_ticks f + length h)) h h'.
Proof.
  intros Hb Ha Hst Hix Hf Hord Hm Hn Hd Hs. unfold read_existing_chunk. rewrite run_qbind, run_call. cbn [fhandler]. rewrite Hf. cbn [hd].
  rewrite no_fault by assumption. set (names := f_order f (entries f)).
  assert (P: Permutation (metadata_name :: map dc_name h) names).
  { apply Permutation_sym. eapply perm_trans; [apply Hord|]. unfold entries. rewrite Hn. destruct (f_meta f); [reflexivity|congruence]. }
  assert (F0: Forall2 named (metadata_name :: map dc_name h) (None :: map Some h)).
  { constructor; [reflexivity|]. clear. induction h; constructor; [reflexivity|assumption]. }
  destruct (Permutation_Forall2 P F0) as (its & PI & FI).
  assert (HI: forall d, In (Some d) its -> on_disk (f_dirs f) d).
  { intros d Hin. apply (Permutation_in _ (Permutation_sym PI)) in Hin. destruct Hin as [Q|Hin]; [discriminate|].
    apply in_map_iff in Hin as (d' & Q & Hin). rewrite Forall_forall in Hd. apply Hd. congruence. }
  destruct (forM_sled cf its Hb Ha Hst Hix names f Hf FI HI) as (rs & E & FR).
  assert (LN: length (somes its) = length h).
  { rewrite <- (Permutation_length (somes_perm _ _ PI)). now rewrite somes_none, somes_map. }
  rewrite LN in *. rewrite run_qbind, E. cbn [run].
  destruct (Permutation_Forall2 (Permutation_sym PI) FR) as (rs' & PR & FR').
  inversion FR' as [|? r ? rs0 G1 G2]; subst. destruct r; [contradiction|]. apply oreop_somes in G2.
  exists (somes rs0). split; [|exact G2]. repeat f_equal.
  apply sorted_unique; [apply sort_chunks_sorted|rewrite (reop_start _ _ _ _ _ G2); exact Hs|].
  eapply perm_trans; [apply sort_chunks_perm|]. apply somes_perm in PR. exact PR.
Qed.

(** ** opening again *)
Lemma own_meta_inj cf cf' : bytes_eqb (m_indexer_type (own_meta cf)) (m_indexer_type (own_meta cf')) &&
    bytes_eqb (m_storage_type (own_meta cf)) (m_storage_type (own_meta cf')) = true <->
  cf_st cf' = cf_st cf /\ cf_ix cf' = cf_ix cf.
Proof.
  unfold own_meta. cbn [m_indexer_type m_storage_type].
  destruct (cf_st cf), (cf_st cf'), (cf_ix cf), (cf_ix cf'); vm_compute; intuition discriminate.
Qed.
Lemma meta_run cf m f : f_faults f = [] -> f_meta f = Some (Written m) ->
  run fhandler (read_or_create_metadata (own_meta cf)) f =
    Some (if bytes_eqb (m_indexer_type m) (m_indexer_type (own_meta cf)) &&
             bytes_eqb (m_storage_type m) (m_storage_type (own_meta cf)) then Ok tt else Err OptionErr, f).
Proof.
  intros Hf Hm. unfold read_or_create_metadata. rewrite run_bind, run_call. cbn [fhandler]. rewrite Hf. cbn [hd].
  rewrite no_fault, Hm by assumption. reflexivity.
Qed.

(** ** the files left behind *)
Lemma names_distinct cf ds hs : Forall2 (dir_ok cf) ds hs -> StronglySorted Z.lt (map dstart hs) -> NoDup (map dc_name hs).
Proof.
  intros F. induction F as [|e d ds hs H F IH]; intros Hs; [constructor|]. cbn [map] in *. inversion Hs as [|? ? H1 H2]; subst.
  constructor; [|now apply IH]. intros K. apply in_map_iff in K as (d' & E & Hin).
  assert (D: exists e', dir_ok cf e' d').
  { clear - F Hin. induction F as [|e y ds hs H1 H2 IH]; [contradiction|]. destruct Hin as [->|Hin]; eauto. }
  destruct D as (e' & _ & _ & U' & (en' & Ue' & N' & _) & _). destruct H as (_ & _ & U & (en & Ue & N & _) & _).
  rewrite N, N' in E. apply encode_inj in E as [E _]; try assumption.
  rewrite Forall_forall in H2. specialize (H2 _ (in_map dstart _ _ Hin)). unfold dstart in *. lia.
Qed.
Lemma find_named hs d : NoDup (map dc_name hs) -> In d hs -> find (fun x => name_eqb (dc_name x) (dc_name d)) hs = Some d.
Proof.
  induction hs as [|x hs IH]; intros N H; [contradiction|]. cbn [map] in N. inversion N as [|? ? N1 N2]; subst. cbn [find].
  unfold name_eqb. destruct (bytes_eqb (dc_name x) (dc_name d)) eqn:E.
  - apply bytes_eqb_spec in E. destruct H as [->|H]; [reflexivity|]. exfalso. apply N1. rewrite E. now apply in_map.
  - destruct H as [->|H]; [rewrite bytes_eqb_refl in E; discriminate|]. now apply IH.
Qed.
Lemma find_dir_in ds n d : NoDup (map fst ds) -> In (n, d) ds -> find_dir ds n = Some d.
Proof.
  induction ds as [|[m d'] ds IH]; intros N H; [contradiction|]. cbn [map fst] in N. inversion N as [|? ? N1 N2]; subst. cbn [find_dir].
  unfold name_eqb. destruct (bytes_eqb m n) eqn:E.
  - apply bytes_eqb_spec in E. subst m. destruct H as [H|H]; [congruence|]. exfalso. apply N1. apply in_map_iff. exists (n, d). auto.
  - destruct H as [H|H]; [|now apply IH]. exfalso. assert (m = n) by congruence. subst. rewrite bytes_eqb_refl in E. discriminate.
Qed.

Definition on_stop (b : backend) (s : kv) (o : option kv) : option kv := match b with Sled => Some s | TiKvDry => o end.
Lemma stopped_dirs cf w hs : d_heap w = hs -> Forall2 (dir_ok cf) (f_dirs (d_fs w)) hs -> StronglySorted Z.lt (map dstart hs) ->
  Forall2 (fun e d => fst e = dc_name d /\ exists o a b,
     snd e = mkCdir (Some (Written o)) (on_stop (cf_st cf) (w_st (dc_world d)) a) (on_stop (cf_ix cf) (w_ix (dc_world d)) b))
    (f_dirs (stopped cf w)) hs.
Proof.
  intros Hh F Hs. pose proof (names_distinct cf _ _ F Hs) as N. unfold stopped, left_behind. cbn [set_dirs f_dirs]. rewrite Hh. clear Hh Hs.
  assert (G: forall hs0, (forall d, In d hs0 -> In d hs) -> forall ds, Forall2 (dir_ok cf) ds hs0 ->
    Forall2 (fun e d => fst e = dc_name d /\ exists o a b,
      snd e = mkCdir (Some (Written o)) (on_stop (cf_st cf) (w_st (dc_world d)) a) (on_stop (cf_ix cf) (w_ix (dc_world d)) b))
     (map (fun e => match find (fun d => name_eqb (dc_name d) (fst e)) hs with
       | None => e
       | Some d => (fst e, mkCdir (cd_meta (snd e))
                               (match cf_st cf with Sled => Some (w_st (dc_world d)) | _ => cd_st (snd e) end)
                               (match cf_ix cf with Sled => Some (w_ix (dc_world d)) | _ => cd_ix (snd e) end))
       end) ds) hs0); [|now apply G].
  intros hs0 Hin ds F0. induction F0 as [|e d ds hs0 H F0 IH]; [constructor|]. cbn [map]. constructor.
  - destruct H as (E & (o & st & ix & Es) & _). rewrite E, (find_named hs d N (Hin d ltac:(now left))). cbn [fst snd]. split; [reflexivity|].
    rewrite Es. cbn [cd_meta cd_st cd_ix]. exists o, st, ix. reflexivity.
  - apply IH. intros x Hx. apply Hin. now right.
Qed.
Lemma F2_fst {B C} (P : list Z * B -> C -> Prop) (g : C -> list Z) ds hs :
  (forall e d, P e d -> fst e = g d) -> Forall2 P ds hs -> map fst ds = map g hs.
Proof. intros HP. induction 1 as [|e d ds hs H F IH]; [reflexivity|]. cbn [map]. rewrite IH. f_equal. now apply HP. Qed.

(** ** opening the same files *)
Definition clip (clock : nat -> Z) (lo hi : nat) (c c' : part) : Prop :=
  snd c' = snd c /\ c_start (fst c') = c_start (fst c) /\
  exists en i, c_end (fst c) <= en /\ (lo <= i < hi)%nat /\ c_end (fst c') = if clock i <? en then clock i else en.

Lemma reopen_run cf cf' w l : state cf w l -> cf_st cf = Sled -> cf_ix cf = Sled -> cf_st cf' = Sled -> cf_ix cf' = Sled ->
  cf_base cf' <> [] -> ascii (cf_base cf') -> 0 <= cf_size cf' ->
  let f := stopped cf w in
  let start := f_clock f (f_ticks f + length l) in
  (forall c, In c l -> c_start (fst c) < start) -> start + cf_size cf' < 2 ^ 64 ->
  exists w' l', db_open cf' f = Some (Ok tt, w') /\ state cf' w' (l' ++ [(the_chunk cf' start, [])]) /\
    f_ticks (d_fs w') = S (f_ticks f + length l) /\ same_env f (d_fs w') /\ starts_empty cf' w' /\
    Forall2 (clip (f_clock f) (f_ticks f) (f_ticks f + length l)) l l'.
Proof.
  intros (l0 & c & A & h0 & d & El & D) Hst Hix Hst' Hix' Hb Ha Hsz f start Hlast Hend.
  pose proof D as [H1 H2 H3 H4 H5 H6 H7 H8 H9 H10 H11 H12].
  assert (He: env_ok f) by exact H9. pose proof He as (Hord & Huid & Hclk & Hflt).
  set (hs := h0 ++ [d]) in *. fold dstart in H12. change (map (fun x => c_start (dc_chunk x)) hs) with (map dstart hs) in H12.
  assert (HR: hrel hs l).
  { rewrite El. apply Forall2_app; [assumption|]. constructor; [|constructor]. split; [exact H7|]. now apply crep_crd. }
  pose proof (hrel_length _ _ HR) as LN.
  pose proof (stopped_dirs cf w hs H1 H11 H12) as SD. fold f in SD. rewrite Hst, Hix in SD. cbn [on_stop] in SD.
  assert (NM: map fst (f_dirs f) = map dc_name hs) by (eapply F2_fst; [|exact SD]; intros ? ? [K _]; exact K).
  pose proof (names_distinct cf _ _ H11 H12) as ND.
  assert (OD: Forall (on_disk (f_dirs f)) hs).
  { rewrite Forall_forall. intros x Hx.
    assert (X: exists e e', In e (f_dirs f) /\ dir_ok cf e' x /\ fst e = dc_name x /\ exists o, snd e = mkCdir (Some (Written o)) (Some (w_st (dc_world x))) (Some (w_ix (dc_world x)))).
    { assert (Y: exists e', dir_ok cf e' x).
      { clear - H11 Hx. induction H11 as [|e y ds hs K1 K2 IH]; [contradiction|]. destruct Hx as [->|Hx]; eauto. }
      destruct Y as (e' & Y). clear - SD Hx Y. induction SD as [|e y ds hs (K1 & o & a & b & K2) K3 IH]; [contradiction|].
      destruct Hx as [->|Hx]; [|destruct (IH Hx) as (e0 & e1 & Q & R); exists e0, e1; split; [now right|exact R]].
      exists e, e'. split; [now left|]. split; [assumption|]. split; [assumption|]. eauto. }
    destruct X as ([n dd] & e' & X1 & (_ & _ & U & (en & Ue & Nn & B) & _) & X2 & o & X3). cbn [fst snd] in *. subst n dd.
    exists o, en. split; [apply find_dir_in; [now rewrite NM|assumption]|]. auto. }
  destruct (read_existing_sled cf' f hs Hb Ha Hst' Hix' Hflt Hord) as (h' & E & FR); try assumption.
  { unfold f, stopped, left_behind. cbn [set_dirs f_meta]. rewrite H10. discriminate. }
  unfold db_open, db_new. rewrite run_qbind.
  assert (EM: f_meta f = Some (Written (own_meta cf))) by exact H10.
  rewrite (meta_run cf' _ f Hflt EM). rewrite (proj2 (own_meta_inj cf cf')) by (split; congruence).
  rewrite run_qbind, E. rewrite LN in *.
  rewrite run_bind, run_call. cbn [fhandler].
  assert (ES: f_clock (ticked (length l) f) (f_ticks (ticked (length l) f)) = start).
  { unfold start. cbn [ticked f_clock f_ticks]. f_equal. lia. }
  rewrite ES. assert (Us: u64 start) by apply Hclk.
  assert (LT: forall x, In x hs -> dstart x < start).
  { intros x Hx. apply In_nth_error in Hx as (i & Hi).
    assert (exists p, nth_error l i = Some p) as (p & Hp).
    { destruct (nth_error l i) eqn:Q; [eauto|]. apply nth_error_None in Q. assert (nth_error hs i <> None) as K by congruence. apply nth_error_Some in K. lia. }
    destruct (hrel_nth _ _ HR i p Hp) as (x' & K1 & (_ & K2 & _) & _). assert (x' = x) as -> by congruence.
    unfold dstart. rewrite K2. apply Hlast. now apply nth_error_In in Hp. }
  set (f1 := tick (ticked (length l) f)).
  assert (FRS: ~ In (encode_chunk_dir start (start + cf_size cf')) (map fst (f_dirs f1))).
  { change (f_dirs f1) with (f_dirs f). rewrite NM. intros K. apply in_map_iff in K as (x & K & Hx).
    rewrite Forall_forall in OD. destruct (OD x Hx) as (o & en & _ & U1 & U2 & N & _). rewrite N in K.
    apply encode_inj in K as [K _]; try assumption; [|unfold u64 in *; lia]. specialize (LT x Hx). lia. }
  destruct (create_run cf' start f1 He) as (nd & f2 & o & R & N1 & N2 & N3 & N4 & N5 & N6 & N7 & N8 & N9 & N10); try assumption; try (unfold u64 in Us; lia).
  rewrite run_qbind, R. cbn [run].
  set (l' := map (fun x => (dc_chunk (fst x), snd (snd x))) (combine h' l)).
  assert (L': length h' = length l) by (rewrite <- LN; clear - FR; induction FR; cbn; congruence).
  eexists _, l'. split; [reflexivity|]. split.
  - exists l', (the_chunk cf' start), [], h', nd. split; [reflexivity|]. unfold opened. cbn [fst snd].
    constructor; cbn [d_heap d_cur d_sec d_curl d_secl d_fs]; try reflexivity.
    + (* contents *)
      unfold l'. clear - FR HR H11 Hst Hix. remember (f_ticks f + length l)%nat as hi eqn:Qh. clear Qh. revert l HR. generalize dependent (f_dirs (d_fs w)).
      induction FR as [|x x' hs h' (en & i & _ & _ & _ & _ & ->) FR IH]; intros ds HD l HR; inversion HR as [|? p ? l1 [K1 K2] K3]; subst; [constructor|].
      inversion HD as [|e ? ds' ? D1 D2]; subst. cbn [combine map fst snd]. constructor; [|now apply (IH ds')].
      cbn [fst snd]. split; [repeat split|].
      destruct D1 as (_ & _ & _ & _ & Ds & Di). destruct K2 as [R1 R2 R3 R4 R5 R6].
      constructor; cbn [reopened_chunk dc_chunk dc_world c_indexer c_storage w_ix w_st set_closed new_world w_locked w_poisoned w_faults]; try reflexivity; try assumption.
      * rewrite <- (Di Hix). exact R1.
      * rewrite <- (Ds Hst). exact R2.
    + exact N2.
    + exact N3.
    + eapply same_env_ok; [exact N10|exact He].
    + rewrite N8. change (f_meta f1) with (f_meta f). rewrite EM. unfold own_meta. now rewrite Hst, Hix, Hst', Hix'.
    + rewrite N5. change (f_dirs f1) with (f_dirs f). apply Forall2_app.
      * assert (G: forall ds ds0 h h', Forall2 (dir_ok cf) ds0 h ->
          Forall2 (fun e d => fst e = dc_name d /\ exists o (a b : option kv), snd e = mkCdir (Some (Written o)) (Some (w_st (dc_world d))) (Some (w_ix (dc_world d)))) ds h ->
          Forall2 (reop (f_clock f) (f_ticks f) (f_ticks f + length l)) h h' -> Forall2 (dir_ok cf') ds h').
        { clear. intros ds ds0 h h' F1 F2 F3. revert ds ds0 F1 F2. induction F3 as [|x x' h h' (en & i & U & N & B & _ & ->) F3 IH]; intros ds ds0 F1 F2;
            inversion F1 as [|e1 ? ? ? P1 P2]; subst; inversion F2 as [|e2 ? ? ? (Q1 & o & _ & _ & Q2) Q3]; subst; constructor; [|eapply IH; eassumption].
          destruct P1 as (_ & _ & Us & _). unfold dir_ok, reopened_chunk. cbn [dc_name dc_chunk c_start c_end c_storage c_indexer].
          split; [exact Q1|]. split; [eauto|]. split; [exact Us|]. split; [|split; reflexivity].
          exists en. split; [assumption|]. split; [assumption|]. destruct (_ <? _) eqn:Q; lia. }
        exact (G _ _ _ _ H11 SD FR).
      * constructor; [|constructor]. destruct N2 as (_ & Es & Ee). cbn [the_chunk c_start c_end] in Es, Ee. unfold dir_ok. cbn [fst snd]. rewrite Es, Ee.
        split; [reflexivity|]. split; [eauto|]. split; [exact Us|]. split; [|split; [exact N6|exact N7]]. exists (start + cf_size cf').
        split; [unfold u64 in *; lia|]. split; [exact N1|lia].
    + change (StronglySorted Z.lt (map dstart (h' ++ [nd]))). rewrite map_app, (reop_start _ _ _ _ _ FR). cbn [map].
      assert (dstart nd = start) as -> by (destruct N2 as (_ & Es & _); exact Es).
      apply sorted_snoc; [exact H12|]. intros y Hy. apply in_map_iff in Hy as (x & <- & Hx). now apply LT.
  - cbn [opened d_fs]. split; [rewrite N9; cbn [f1 tick ticked f_ticks]; lia|]. split; [exact N10|]. split; [exists h', nd; split; [reflexivity|apply N4]|].
    unfold l'. clear - FR HR. remember (f_ticks f + length l)%nat as hi eqn:Qh. clear Qh. revert l HR.
    induction FR as [|x x' hs h' (en & i & _ & _ & B & Hi & ->) FR IH]; intros l HR; inversion HR as [|? p ? l1 [(K0 & K1 & K2) _] K3]; subst; [constructor|].
    cbn [combine map fst snd]. constructor; [|now apply IH]. unfold clip. cbn [fst snd reopened_chunk dc_chunk c_start c_end].
    split; [reflexivity|]. split; [unfold dstart; congruence|]. exists en, i. split; [lia|]. split; [exact Hi|reflexivity].
Qed.

(** ** processes one after the other *)
(* the same chunk up to its end, which no point is after *)
Definition fits (c c' : part) : Prop :=
  snd c' = snd c /\ c_start (fst c') = c_start (fst c) /\
  forall ls pts p, In (ls, pts) (snd c) -> In p pts -> tp_ts p <= c_end (fst c) /\ tp_ts p <= c_end (fst c').

Lemma fits_answers c c' q s e m x : fits c c' -> answers c q s e = true -> answers c' q s e = false ->
  find (fun x => labs_eqb (sort_labels (fst x)) m && matches (snd c) q (fst x)) (snd c) = Some x -> False.
Proof.
  intros (E1 & E2 & F) A1 A2 Hx. apply find_some in Hx as [Hx M]. apply andb_true_iff in M as [_ M].
  unfold answers in *. rewrite E1, E2 in A2. rewrite andb_true_iff in A1. destruct A1 as [A1 A3]. rewrite A3, andb_true_r in A2.
  assert (K: c_end (fst c') < s) by lia. rewrite forallb_forall in A3. specialize (A3 x Hx). rewrite M in A3. cbn [negb orb] in A3.
  unfold touchesb in A3. apply andb_true_iff in A3 as [_ A3]. apply existsb_exists in A3 as (p & Hp & Hs).
  destruct x as [ls pts]. cbn [snd] in *. destruct (F ls pts p Hx Hp). lia.
Qed.
Lemma fits_sym c c' : fits c c' -> fits c' c.
Proof.
  intros (E1 & E2 & F). split; [congruence|]. split; [congruence|]. intros ls pts p H1 H2. rewrite E1 in H1. destruct (F ls pts p H1 H2). auto.
Qed.
Lemma fits_piece c c' q s e m : fits c c' -> piece c' q s e m = piece c q s e m.
Proof.
  intros H. pose proof H as (E1 & _). unfold piece. rewrite E1.
  destruct (find _ (snd c)) as [x|] eqn:Fd; [|destruct (answers c q s e), (answers c' q s e); reflexivity].
  destruct (answers c q s e) eqn:A, (answers c' q s e) eqn:A'; try reflexivity; exfalso.
  - exact (fits_answers c c' q s e m x H A A' Fd).
  - apply (fits_answers c' c q s e m x (fits_sym _ _ H) A' A). now rewrite E1.
Qed.
Lemma fits_answer l l' q s e r : Forall2 fits l l' -> db_answer l' q s e r <-> db_answer l q s e r.
Proof.
  intros H. assert (E: forall m, map (fun c => piece c q s e m) l' = map (fun c => piece c q s e m) l).
  { intros m. induction H as [|c c' l l' H F IH]; [reflexivity|]. cbn [map]. now rewrite IH, (fits_piece c c'). }
  unfold db_answer. split; intros [H1 H2]; (split; [exact H1|]); intros m pts; rewrite H2, E; reflexivity.
Qed.
Lemma fits_crashes c c' q s e : fits c c' -> crashes c q s e -> crashes c' q s e.
Proof.
  intros (E1 & E2 & F) (H1 & (H2 & H3) & b & ls & pts & a & E & Hb & Hm & Ht & Hg). split; [exact H1|]. rewrite E1, E2. split.
  - split; [exact H2|]. destruct Ht as [_ (p & Hp & Hs)]. destruct (F ls pts p); [rewrite E; apply in_or_app; right; now left|exact Hp|lia].
  - exists b, ls, pts, a. auto.
Qed.
Lemma F2_in_r {A B} (R : A -> B -> Prop) l l' y : Forall2 R l l' -> In y l' -> exists x, In x l /\ R x y.
Proof. induction 1 as [|a b l l' H F IH]; [contradiction|]. intros [->|K]; [exists a; split; [now left|assumption]|]. destruct (IH K) as (x & ? & ?). exists x. split; [now right|assumption]. Qed.
Lemma fits_free hs l l' q s e : Forall2 fits l l' -> unmixed hs l q s e -> unmixed hs l' q s e.
Proof.
  intros H. apply unmixed_less. intros c m Hc P. destruct (F2_in_r _ _ _ _ H Hc) as (b & Hb & Fb). exists b. split; [exact Hb|].
  now rewrite <- (fits_piece b c).
Qed.
Lemma fits_comes l l' q s e r : Forall2 fits l l' -> comes_to l' q s e r <-> comes_to l q s e r.
Proof.
  intros H. assert (X: (exists c, In c l' /\ crashes c q s e) <-> exists c, In c l /\ crashes c q s e).
  { split; intros (c & Hc & K).
    - destruct (F2_in_r _ _ _ _ H Hc) as (b & Hb & Fb). exists b. split; [exact Hb|]. now apply (fits_crashes c b); [apply fits_sym|].
    - assert (G: exists b, In b l' /\ fits c b) by (clear - H Hc; induction H as [|x y l l' H F IH]; [contradiction|]; destruct Hc as [->|Hc]; [exists y; split; [now left|exact H]|destruct (IH Hc) as (b & G1 & G2); exists b; split; [now right|exact G2]]).
      destruct G as (b & Hb & Fb). exists b. split; [exact Hb|]. now apply (fits_crashes c b). }
  unfold comes_to. rewrite X. split; (intros [K|(N & a & E & A)]; [now left|right; split; [exact N|]; exists a; split; [exact E|]; now apply (fits_answer l l' q s e a H)]).
Qed.

Lemma parts_in_window cf start ops c ls pts p : Forall ireq_ok (written ops) -> In c (parts cf start ops) -> In (ls, pts) (snd c) -> In p pts ->
  in_window (fst c) (tp_ts p).
Proof.
  intros Hw Hc Hin Hp. destruct (parts_seg cf ops start [] c Hc) as (a & seg & b & E & Ec & _). cbn [app] in E.
  assert (Hs: Forall ireq_ok seg) by (eapply seg_ok; [exact E|exact Hw]).
  rewrite Ec in Hin. destruct (content_sound _ _ Hs _ _ Hin) as [_ S]. destruct (S p Hp) as (ls' & _ & _ & K). exact K.
Qed.
Lemma parts_fit cf start ops : Forall ireq_ok (written ops) -> Forall2 fits (parts cf start ops) (parts cf start ops).
Proof.
  intros Hw. assert (G: forall l, (forall c, In c l -> In c (parts cf start ops)) -> Forall2 fits l l); [|apply G; auto].
  induction l as [|c l IH]; intros H; constructor.
  - split; [reflexivity|]. split; [reflexivity|]. intros ls pts p H1 H2.
    pose proof (parts_in_window cf start ops c ls pts p Hw (H c ltac:(now left)) H1 H2) as K. unfold in_window in K. lia.
  - apply IH. intros c' Hc'. apply H. now right.
Qed.
Lemma starts_bound cf ops : forall start h c, starts_ok cf start ops -> In c (parts_from cf start h ops) ->
  c_start (fst c) <= last_start start ops.
Proof.
  induction ops as [|o ops IH]; intros start h c Ho Hc; cbn [parts_from last_start starts_ok] in *.
  - destruct Hc as [<-|[]]. cbn. lia.
  - destruct o as [ls p|ls pts|start']; [eapply IH; eassumption..|]. destruct Ho as (H1 & H2 & H3). destruct Hc as [<-|Hc]; [|eapply IH; eassumption].
    cbn [fst the_chunk c_start]. assert (start' <= last_start start' ops); [|lia]. clear - H3.
    revert start' H3. induction ops as [|o ops IH]; intros st H; cbn [last_start starts_ok] in *; [lia|]. destruct o; [auto..|]. destruct H as (? & ? & H). specialize (IH _ H). lia.
Qed.
Lemma last_start_ge cf ops : forall start, starts_ok cf start ops -> start <= last_start start ops.
Proof. induction ops as [|o ops IH]; intros st H; cbn [last_start starts_ok] in *; [lia|]. destruct o; [auto..|]. destruct H as (? & ? & H). specialize (IH _ H). lia. Qed.

Lemma live_from clock L : monotone clock -> forall cf w P l tick n last,
  state cf w l -> Forall2 fits P l -> cf_st cf = Sled -> cf_ix cf = Sled -> f_ticks (d_fs w) = tick -> f_clock (d_fs w) = clock ->
  n = length l -> (forall c, In c l -> c_start (fst c) <= last) -> (forall p, stored P p -> tp_ts p <= clock tick) ->
  lives_ok clock tick n last L -> L <> [] ->
  exists w' l' cf', live L (stopped cf w) = Some w' /\ state cf' w' l' /\ cf_st cf' = Sled /\ cf_ix cf' = Sled /\
    Forall2 fits (P ++ life_parts clock tick n L) l'.
Proof.
  intros Hm. induction L as [|x L IH]; intros cf w P l tick n last HS HF Hst Hix Ht Hc Hn Hl Hp HL NE; [contradiction|].
  cbn [lives_ok life_parts] in *. set (start := clock (tick + n)%nat) in *. set (pl := parts (lf_cf x) start (lf_ops x)) in *.
  destruct HL as (S1 & S2 & Ha & Hlast & Ho & Hpts & HL'). pose proof Ho as (Hb & H0 & Hsz & Hend & Hs & Hw & Hlen).
  assert (Fc: f_clock (stopped cf w) = clock) by exact Hc. assert (Ft: f_ticks (stopped cf w) = tick) by exact Ht.
  assert (LT: forall c, In c l -> c_start (fst c) < f_clock (stopped cf w) (f_ticks (stopped cf w) + length l)).
  { rewrite Fc, Ft, <- Hn. intros c Hin. specialize (Hl c Hin). fold start. lia. }
  assert (EB: f_clock (stopped cf w) (f_ticks (stopped cf w) + length l) = start) by (rewrite Fc, Ft, <- Hn; reflexivity).
  destruct (reopen_run cf (lf_cf x) w l HS Hst Hix S1 S2 Hb Ha Hsz LT) as (w1 & l1 & E1 & St1 & T1 & En1 & _ & C1).
  { rewrite EB. exact Hend. }
  rewrite EB in St1.
  destruct (hist_from (lf_cf x) (lf_ops x) Hsz start [] w1 l1 St1 Hs Hw) as (w2 & E2 & St2 & T2 & En2); [cbn [length]; exact Hlen|].
  assert (FP: Forall2 fits (P ++ pl) (l1 ++ pl)).
  { apply Forall2_app; [|now apply parts_fit].
    rewrite Fc, Ft in C1. remember (tick + length l)%nat as hi eqn:Q. clear Q. clear - HF C1 Hp Hm.
    assert (Hp': forall c ls pts p, In c P -> In (ls, pts) (snd c) -> In p pts -> tp_ts p <= clock tick) by (intros; apply Hp; red; eauto 8).
    clear Hp. revert l1 C1. induction HF as [|c c' P l (A1 & A2 & A3) HF IH]; intros l1 C1; inversion C1 as [|? c1 ? l1' (B1 & B2 & en & i & B3 & B4 & B5) B6]; subst; constructor.
    - split; [congruence|]. split; [congruence|]. intros ls pts p G1 G2. destruct (A3 ls pts p G1 G2) as [G3 G4]. split; [assumption|].
      specialize (Hp' c ls pts p ltac:(now left) G1 G2). specialize (Hm tick i ltac:(lia)). rewrite B5. destruct (_ <? _) eqn:Q; lia.
    - apply IH; [|assumption]. intros. eapply Hp'; [right|..]; eassumption. }
  assert (DA: db_after (lf_cf x) (stopped cf w) (lf_ops x) = Some (outcomes (lf_cf x) start (lf_ops x), w2)).
  { unfold db_after. rewrite E1. exact E2. }
  destruct L as [|y L].
  - cbn [live life_parts]. rewrite DA. cbn [option_map snd]. rewrite app_nil_r. exists w2, (l1 ++ pl), (lf_cf x). auto.
  - assert (EL: live (x :: y :: L) (stopped cf w) = live (y :: L) (stopped (lf_cf x) w2)) by (cbn [live]; now rewrite DA).
    rewrite EL. rewrite app_assoc. assert (L1: length l1 = n) by (rewrite Hn; clear - C1; induction C1; cbn; congruence).
    apply (IH (lf_cf x) w2 (P ++ pl) (l1 ++ pl) _ _ (last_start start (lf_ops x))); try assumption.
    + rewrite T2, T1, Ft, <- Hn. reflexivity.
    + destruct En1 as (_ & K1 & _), En2 as (_ & K2 & _). congruence.
    + rewrite app_length, L1. reflexivity.
    + intros c Hin. apply in_app_or in Hin as [Hin|Hin]; [|now apply (starts_bound (lf_cf x) (lf_ops x) start [])].
      destruct (F2_in_r _ _ _ _ C1 Hin) as (c0 & Hc0 & (_ & K & _)). specialize (Hl c0 Hc0). pose proof (last_start_ge _ _ _ Hs). lia.
    + intros p (c & ls & pts & K1 & K2 & K3). apply in_app_or in K1 as [K1|K1].
      * specialize (Hp p ltac:(red; eauto 8)). specialize (Hm tick (S (tick + n)) ltac:(lia)). lia.
      * apply Hpts; [discriminate|red; eauto 8].
    + discriminate.
Qed.

Theorem lives_state f L : env_ok f -> empty_dir f -> monotone (f_clock f) -> lives_ok (f_clock f) (f_ticks f) 0 (-1) L -> L <> [] ->
  exists w l cf, live L f = Some w /\ state cf w l /\ cf_st cf = Sled /\ cf_ix cf = Sled /\
    Forall2 fits (life_parts (f_clock f) (f_ticks f) 0 L) l.
Proof.
  intros He Hd Hm HL NE. destruct L as [|x L]; [contradiction|]. cbn [lives_ok life_parts] in *. rewrite Nat.add_0_r in *.
  set (start := f_clock f (f_ticks f)) in *. destruct HL as (S1 & S2 & Ha & Hlast & Ho & Hpts & HL'). pose proof Ho as (Hb & H0 & Hsz & Hend & Hs & Hw & Hlen).
  destruct (open_run (lf_cf x) f He Hd Hb Hsz Hend) as (w1 & E1 & St1 & T1 & En1 & _).
  destruct (hist_from (lf_cf x) (lf_ops x) Hsz start [] w1 [] St1 Hs Hw) as (w2 & E2 & St2 & T2 & En2); [cbn [length]; exact Hlen|]. cbn [app] in St2.
  set (pl := parts (lf_cf x) start (lf_ops x)) in *.
  assert (DA: db_after (lf_cf x) f (lf_ops x) = Some (outcomes (lf_cf x) start (lf_ops x), w2)) by (unfold db_after; rewrite E1; exact E2).
  destruct L as [|y L].
  - cbn [live life_parts]. rewrite DA. cbn [option_map snd]. rewrite app_nil_r. exists w2, pl, (lf_cf x). split; [reflexivity|].
    split; [exact St2|]. split; [exact S1|]. split; [exact S2|]. now apply parts_fit.
  - assert (EL: live (x :: y :: L) f = live (y :: L) (stopped (lf_cf x) w2)) by (cbn [live]; now rewrite DA). rewrite EL.
    apply (live_from (f_clock f) (y :: L) Hm (lf_cf x) w2 pl pl _ _ (last_start start (lf_ops x))); try assumption; try discriminate.
    + now apply parts_fit.
    + rewrite T2, T1. reflexivity.
    + destruct En1 as (_ & K1 & _), En2 as (_ & K2 & _). congruence.
    + reflexivity.
    + intros c Hin. now apply (starts_bound (lf_cf x) (lf_ops x) start []).
    + intros p Hp. apply Hpts; [discriminate|assumption].
Qed.

Lemma life_parts_ok clock : forall L tick n last, lives_ok clock tick n last L -> timely (life_written L) ->
  Forall part_ok (life_parts clock tick n L).
Proof.
  induction L as [|x L IH]; intros tick n last H T; [constructor|]. cbn [lives_ok life_parts] in *.
  destruct H as (_ & _ & _ & _ & Ho & _ & H). unfold life_written in T. cbn [map concat] in T. apply Forall_app. split.
  - apply parts_ok; [assumption|]. apply (timely_mid [] _ (concat (map (fun x => written (lf_ops x)) L))). exact T.
  - eapply IH; [exact H|]. apply (timely_mid (written (lf_ops x)) _ []). now rewrite app_nil_r.
Qed.
Lemma fits_ok l l' : Forall2 fits l l' -> Forall part_ok l -> Forall part_ok l'.
Proof.
  induction 1 as [|c c' l l' (E & _) F IH]; intros H; inversion H as [|? ? [H1 H2 H3] H4]; subst; constructor; [|auto].
  constructor; rewrite E; assumption.
Qed.

Theorem lives_refine f L hs bs o q s e : env_ok f -> empty_dir f -> monotone (f_clock f) -> L <> [] ->
  lives_ok (f_clock f) (f_ticks f) 0 (-1) L -> timely (life_written L) ->
  hasher_ok hs -> bs_contract bs -> Forall lab_ok q ->
  let P := life_parts (f_clock f) (f_ticks f) 0 L in
  unmixed hs P q s e ->
  exists w r, live L f = Some w /\ drun (db_query hs bs o q s e) w = Some (r, w) /\ comes_to P q s e r.
Proof.
  intros He Hd Hm NE HL T Hh Hb Hq P Hp. destruct (lives_state f L He Hd Hm HL NE) as (w & l & cf & E & St & _ & _ & F). fold P in F.
  pose proof (life_parts_ok _ _ _ _ _ HL T) as OK. fold P in OK.
  destruct (query_any hs bs o q s e w l (state_quiet _ _ _ St) (fits_ok _ _ F OK) Hh Hb Hq (fits_free _ _ _ _ _ _ F Hp)) as (r & Er & Ha).
  exists w, r. split; [assumption|]. split; [assumption|]. now apply (fits_comes P l).
Qed.

(** ** what the answers are like *)
Lemma life_sub clock q s e m : forall L tick n last, lives_ok clock tick n last L ->
  subseq (concat (map (fun c => piece c q s e m) (life_parts clock tick n L))) (of_set m (life_written L)).
Proof.
  induction L as [|x L IH]; intros tick n last H; [constructor|]. cbn [lives_ok life_parts] in *.
  destruct H as (_ & _ & _ & _ & Ho & _ & H). unfold life_written. cbn [map concat]. rewrite map_app, concat_app, of_set_app.
  apply ss_app; [|eapply IH; exact H]. apply (concat_sub (lf_cf x) q s e m (lf_ops x) _ []). apply Ho.
Qed.
Theorem lives_ordered f L hs bs o q s e : env_ok f -> empty_dir f -> monotone (f_clock f) -> L <> [] ->
  lives_ok (f_clock f) (f_ticks f) 0 (-1) L -> timely (life_written L) ->
  hasher_ok hs -> bs_contract bs -> Forall lab_ok q -> s <= e ->
  let P := life_parts (f_clock f) (f_ticks f) 0 L in
  unmixed hs P q s e ->
  exists w r, live L f = Some w /\ drun (db_query hs bs o q s e) w = Some (Ok r, w) /\
    (forall i j a b, nth_error r i = Some a -> nth_error r j = Some b -> same_set (fst a) (fst b) -> i = j) /\
    (forall m pts, In (m, pts) r -> increasing pts /\ pts <> []) /\
    (forall m pts p, In (m, pts) r -> In p pts -> s <= tp_ts p <= e /\ exists ls, In (ls, p) (life_written L) /\ same_set ls m).
Proof.
  intros He Hd Hm NE HL T Hh Hb Hq Hse P Hp. destruct (lives_refine f L hs bs o q s e He Hd Hm NE HL T Hh Hb Hq Hp) as (w & r0 & E1 & E2 & Ha).
  apply (comes_fwd _ _ _ _ _ Hse) in Ha as (r & -> & Ha). fold P in Ha. pose proof (life_parts_ok _ _ _ _ _ HL T) as OK. fold P in OK. exists w, r. split; [assumption|]. split; [assumption|].
  split; [exact (answer_once _ _ _ _ _ OK Ha)|]. split.
  - intros m pts Hin. apply Ha in Hin as [N ->]. split; [|assumption]. eapply ss_increasing; [|apply (T m)]. eapply life_sub. exact HL.
  - intros m pts p Hin Hp'. apply Ha in Hin as [N ->]. split.
    + apply in_concat in Hp' as (x & Hx & Hp'). apply in_map_iff in Hx as (c & <- & Hc). apply piece_in in Hp' as (? & ? & _ & _ & _ & _ & K & _). exact K.
    + pose proof (ss_in _ _ p (life_sub _ q s e m L _ _ _ HL) Hp') as K. unfold of_set in K. apply in_map_iff in K as ([ls p'] & E & K). cbn [snd] in E. subst p'.
      apply filter_In in K as [K1 K2]. cbn [fst] in K2. exists ls. split; [assumption|].
      apply same_setb_perm; [|assumption]. clear - HL K1. revert HL K1. generalize (f_ticks f) as tick, 0%nat as n, (-1) as last.
      induction L as [|x L IH]; intros tick n last H K; [contradiction|]. cbn [lives_ok] in H. destruct H as (_ & _ & _ & _ & Ho & _ & H).
      unfold life_written in K. cbn [map concat] in K. apply in_app_or in K as [K|K]; [|eapply IH; eassumption].
      destruct Ho as (_ & _ & _ & _ & _ & Hw & _). rewrite Forall_forall in Hw. exact (proj1 (Hw _ K)).
Qed.

Lemma life_parts_snoc clock cf L : forall tick n, exists t n', life_parts clock tick n (L ++ [mkLife cf []]) =
  life_parts clock tick n L ++ [(the_chunk cf (clock (t + n')%nat), [])].
Proof.
  induction L as [|x L IH]; intros tick n; cbn [app life_parts lf_cf lf_ops].
  - exists tick, n. reflexivity.
  - destruct (IH (S (tick + n)) (n + length (parts (lf_cf x) (clock (tick + n)%nat) (lf_ops x)))%nat) as (t & n' & E).
    exists t, n'. rewrite E. now rewrite app_assoc.
Qed.
Lemma lives_ok_prefix clock L' L : forall tick n last, lives_ok clock tick n last (L ++ L') -> lives_ok clock tick n last L.
Proof.
  induction L as [|x L IH]; intros tick n last H; [exact I|]. cbn [app lives_ok] in *. destruct H as (H1 & H2 & H3 & H4 & H5 & H6 & H7).
  do 5 (split; [assumption|]). split; [|eapply IH; exact H7]. intros NE. apply H6. destruct L; [contradiction|discriminate].
Qed.
Theorem restart_keeps_answers f L cf hs bs o q s e : env_ok f -> empty_dir f -> monotone (f_clock f) -> L <> [] ->
  lives_ok (f_clock f) (f_ticks f) 0 (-1) (L ++ [mkLife cf []]) -> timely (life_written L) ->
  hasher_ok hs -> bs_contract bs -> Forall lab_ok q ->
  unmixed hs (life_parts (f_clock f) (f_ticks f) 0 L) q s e ->
  exists w r w' r', live L f = Some w /\ drun (db_query hs bs o q s e) w = Some (r, w) /\
    live (L ++ [mkLife cf []]) f = Some w' /\ drun (db_query hs bs o q s e) w' = Some (r', w') /\ alike r r'.
Proof.
  intros He Hd Hm NE HL T Hh Hb Hq Hp. pose proof (lives_ok_prefix _ _ _ _ _ _ HL) as HL0.
  destruct (lives_refine f L hs bs o q s e He Hd Hm NE HL0 T Hh Hb Hq Hp) as (w & r & E1 & E2 & Ha).
  destruct (life_parts_snoc (f_clock f) cf L (f_ticks f) 0) as (t & n & EP).
  destruct (lives_refine f (L ++ [mkLife cf []]) hs bs o q s e He Hd Hm) as (w' & r' & E1' & E2' & Ha'); try assumption.
  - destruct L; discriminate.
  - unfold life_written. rewrite map_app, concat_app. cbn [map lf_ops written concat]. rewrite !app_nil_r. exact T.
  - rewrite EP. now apply free_empty.
  - rewrite EP in Ha'. apply (proj1 (comes_empty _ _ _ _ _ _)) in Ha'. exists w, r, w', r'. do 4 (split; [assumption|]). exact (comes_alike _ _ _ _ _ _ Ha Ha').
Qed.

(** ** the backends of a directory *)
Lemma stopped_known cf cf' w l : state cf w l -> cf_st cf' = cf_st cf -> cf_ix cf' = cf_ix cf ->
  Forall (known cf' (stopped cf w)) (entries (stopped cf w)).
Proof.
  intros (l0 & c & A & h0 & d & El & D) Hst Hix. pose proof D as [H1 H2 H3 H4 H5 H6 H7 H8 H9 H10 H11 H12].
  set (hs := h0 ++ [d]) in *. change (map (fun x => c_start (dc_chunk x)) hs) with (map dstart hs) in H12.
  pose proof (stopped_dirs cf w hs H1 H11 H12) as SD.
  assert (NM: map fst (f_dirs (stopped cf w)) = map dc_name hs) by (eapply F2_fst; [|exact SD]; intros ? ? [K _]; exact K).
  pose proof (names_distinct cf _ _ H11 H12) as ND.
  rewrite Forall_forall. intros n Hn. unfold entries in Hn. apply in_app_or in Hn as [Hn|Hn].
  - destruct (f_meta _); [|contradiction]. destruct Hn as [<-|[]]. now left.
  - right. apply in_map_iff in Hn as ([n' dd] & E & Hin). cbn [fst] in E. subst n'.
    assert (FD: find_dir (f_dirs (stopped cf w)) n = Some dd) by (apply find_dir_in; [now rewrite NM|assumption]).
    assert (X: exists x, In x hs /\ n = dc_name x /\ exists o a b, dd = mkCdir (Some (Written o)) (on_stop (cf_st cf) (w_st (dc_world x)) a) (on_stop (cf_ix cf) (w_ix (dc_world x)) b)).
    { clear - SD Hin. induction SD as [|e y ds hs (K1 & K2) K3 IH]; [contradiction|]. destruct Hin as [->|Hin].
      - exists y. split; [now left|]. auto.
      - destruct (IH Hin) as (x & ? & ?). exists x. split; [now right|assumption]. }
    destruct X as (x & Hx & -> & o & a & b & ->). split.
    + assert (Y: exists e', dir_ok cf e' x).
      { clear - H11 Hx. induction H11 as [|e y ds hs K1 K2 IH]; [contradiction|]. destruct Hx as [->|Hx]; eauto. }
      destruct Y as (e' & _ & _ & U & (en & Ue & -> & _) & _). unfold u64 in *. apply hex_plain; lia.
    + eexists. split; [exact FD|]. unfold complete. cbn [cd_meta cd_st cd_ix]. split; [eauto|]. rewrite Hst, Hix.
      split; intros ->; cbn [on_stop]; discriminate.
Qed.

Theorem reopen_types cf cf' f ops : env_ok f -> empty_dir f ->
  let t0 := f_clock f (f_ticks f) in
  ops_ok cf t0 ops -> cf_base cf' <> [] -> 0 <= cf_size cf' ->
  (forall i, (f_ticks f < i)%nat -> last_start t0 ops < f_clock f i /\ f_clock f i + cf_size cf' < 2 ^ 64) ->
  exists rs w r w', db_after cf f ops = Some (rs, w) /\ db_open cf' (stopped cf w) = Some (r, w') /\
    (r = Ok tt <-> cf_st cf' = cf_st cf /\ cf_ix cf' = cf_ix cf) /\
    (r = Ok tt \/ r = Err OptionErr /\ d_fs w' = stopped cf w).
Proof.
  intros He Hd t0 Ho Hb Hsz Hclk. pose proof Ho as (Hb0 & H0 & Hsz0 & Hend & Hs & Hw & HL).
  destruct (open_run cf f He Hd Hb0 Hsz0 Hend) as (w0 & E0 & S0 & T0 & N0 & _).
  destruct (hist_from cf ops Hsz0 t0 [] w0 [] S0 Hs Hw HL) as (w & E & St & T & N). cbn [app] in St.
  assert (DA: db_after cf f ops = Some (outcomes cf t0 ops, w)) by (unfold db_after; rewrite E0; exact E).
  assert (CK: f_clock (d_fs w) = f_clock f) by (destruct N0 as (_ & K0 & _), N as (_ & K & _); congruence).
  pose proof St as (l0 & c & A & h0 & d & El & D). pose proof D as [H1 H2 H3 H4 H5 H6 H7 H8 H9 H10 H11 H12].
  set (g := stopped cf w). assert (Eg: env_ok g) by exact H9. pose proof Eg as (Hord & _ & Hcl & Hflt).
  eexists _, w. fold g. unfold db_open, db_new. rewrite run_qbind, (meta_run cf' (own_meta cf) g Hflt H10).
  destruct (bytes_eqb _ _ && bytes_eqb _ _) eqn:Q.
  2:{ eexists _, _. split; [exact DA|]. split; [reflexivity|]. split; [|right; split; reflexivity].
      split; [discriminate|]. intros K. apply own_meta_inj in K. congruence. }
  apply own_meta_inj in Q as [Q1 Q2].
  assert (G: exists rs k, run fhandler (forM (read_entry cf') (f_order g (entries g))) g = Some (Ok rs, ticked k g)).
  { apply forM_any; [assumption|exact Hflt|]. eapply Permutation_Forall; [apply Permutation_sym, Hord|]. now apply (stopped_known cf cf' w _ St). }
  destruct G as (rs & k & G).
  rewrite run_qbind. unfold read_existing_chunk. rewrite run_qbind, run_call. cbn [fhandler]. rewrite Hflt. cbn [hd]. rewrite no_fault by assumption.
  rewrite run_qbind, G. cbn [run]. rewrite run_bind, run_call. cbn [fhandler]. cbn [ticked f_clock f_ticks].
  set (start := f_clock g (k + f_ticks g)).
  assert (TK: f_ticks g = S (f_ticks f)) by (change (f_ticks g) with (f_ticks (d_fs w)); rewrite T, T0; reflexivity).
  destruct (Hclk (k + f_ticks g)%nat ltac:(lia)) as [C1 C2]. rewrite <- CK in C1, C2. change (f_clock (d_fs w)) with (f_clock g) in C1, C2. fold start in C1, C2.
  assert (Us: u64 start) by apply Hcl. unfold u64 in Us.
  destruct (create_run cf' start (tick (ticked k g)) Eg) as (nd & f2 & o & R & _); try lia.
  { change (f_dirs (tick (ticked k g))) with (f_dirs g). intros K.
    assert (NM: map fst (f_dirs g) = map dc_name (h0 ++ [d])).
    { eapply F2_fst; [|apply (stopped_dirs cf w (h0 ++ [d]) H1 H11 H12)]. intros ? ? [K' _]. exact K'. }
    rewrite NM in K. apply in_map_iff in K as (x & K & Hx).
    assert (Y: exists e', dir_ok cf e' x).
    { clear - H11 Hx. induction H11 as [|e y ds hs K1 K2 IH]; [contradiction|]. destruct Hx as [->|Hx]; eauto. }
    destruct Y as (e' & _ & _ & U & (en & Ue & Nn & _) & _). rewrite Nn in K. apply encode_inj in K as [K _]; try assumption; try (unfold u64; lia).
    assert (HR: hrel (h0 ++ [d]) (parts cf t0 ops)).
    { unfold parts. rewrite El. apply Forall2_app; [assumption|]. constructor; [|constructor]. split; [exact H7|]. now apply crep_crd. }
    apply In_nth_error in Hx as (i & Hi). pose proof (hrel_length _ _ HR) as LN.
    destruct (nth_error (parts cf t0 ops) i) as [p|] eqn:Hp.
    - destruct (hrel_nth _ _ HR i p Hp) as (x' & K1 & (_ & K2 & _) & _). assert (x' = x) as -> by congruence.
      apply nth_error_In in Hp. pose proof (starts_bound cf ops t0 [] p Hs Hp). lia.
    - apply nth_error_None in Hp. assert (nth_error (h0 ++ [d]) i <> None) as KK by congruence. apply nth_error_Some in KK. lia. }
  rewrite run_qbind, R. cbn [run]. eexists _, _. split; [exact DA|]. split; [reflexivity|]. split; [|now left]. split; [auto|reflexivity].
Qed.

(** ** windows *)
Lemma apart_parts cf ops : 0 <= cf_size cf -> forall start h, apart cf start ops ->
  ForallOrdPairs (fun c c' => c_end (fst c) <= c_start (fst c')) (parts_from cf start h ops) /\
  (forall c, In c (parts_from cf start h ops) -> start <= c_start (fst c)).
Proof.
  intros Hsz. induction ops as [|o ops IH]; intros start h H; cbn [parts_from apart] in *.
  - split; [repeat constructor|]. intros c [<-|[]]. cbn. lia.
  - destruct o as [ls p|ls pts|st]; [now apply IH..|]. destruct H as [H1 H2]. destruct (IH st [] H2) as [K1 K2]. split.
    + constructor; [|exact K1]. rewrite Forall_forall. intros c Hc. specialize (K2 c Hc). cbn [fst the_chunk c_end]. lia.
    + intros c [<-|Hc]; [cbn; lia|]. specialize (K2 c Hc). lia.
Qed.
Lemma apart_last cf ops : 0 <= cf_size cf -> forall start, apart cf start ops -> start <= last_start start ops.
Proof. intros Hsz. induction ops as [|o ops IH]; intros st H; cbn [last_start apart] in *; [lia|]. destruct o; [auto..|]. destruct H as [? H]. specialize (IH _ H). lia. Qed.
Lemma outcomes_nth cf ops : forall start i o r, nth_error ops i = Some o -> nth_error (outcomes cf start ops) i = Some r ->
  r = outcome (the_chunk cf (last_start start (firstn i ops))) o.
Proof.
  induction ops as [|o0 ops IH]; intros start [|i] o r H1 H2; try discriminate; cbn [nth_error outcomes firstn last_start] in *.
  - congruence.
  - rewrite (IH _ i o r H1 H2). destruct o0; reflexivity.
Qed.
Lemma last_start_app start a b : last_start start (a ++ b) = last_start (last_start start a) b.
Proof. revert start. induction a as [|o a IH]; intros start; [reflexivity|]. cbn [app last_start]. destruct o; apply IH. Qed.
Lemma apart_app cf a b : forall start, apart cf start (a ++ b) -> apart cf start a /\ apart cf (last_start start a) b.
Proof.
  induction a as [|o a IH]; intros start H; cbn [app apart last_start] in *; [auto|]. destruct o; [auto..|].
  destruct H as [H1 H2]. destruct (IH _ H2). auto.
Qed.

Lemma part_current cf ops i : forall t0 h,
  exists q, In q (parts_from cf t0 h ops) /\ fst q = the_chunk cf (last_start t0 (firstn i ops)).
Proof.
  revert i. induction ops as [|o ops IH]; intros i t0 h; cbn [parts_from].
  - rewrite firstn_nil. cbn [last_start]. eexists. split; [now left|reflexivity].
  - destruct i as [|i].
    + cbn [firstn last_start]. specialize (IH 0%nat t0). cbn [firstn last_start] in IH. destruct o; [apply IH..|]. eexists. split; [now left|reflexivity].
    + cbn [firstn last_start]. destruct o as [| |st]; [apply IH..|]. destruct (IH i st []) as (q & K1 & K2). exists q. split; [now right|assumption].
Qed.

Theorem windows_disjoint cf f ops : env_ok f -> empty_dir f ->
  let t0 := f_clock f (f_ticks f) in
  ops_ok cf t0 ops -> apart cf t0 ops ->
  exists rs w, db_after cf f ops = Some (rs, w) /\
    (forall i j a b, (i < j)%nat -> nth_error (d_heap w) i = Some a -> nth_error (d_heap w) j = Some b ->
       c_end (dc_chunk a) <= c_start (dc_chunk b)) /\
    (forall i ls p, nth_error ops i = Some (OpPoint ls p) -> nth_error rs i = Some (Ok tt) ->
       exists d, In d (d_heap w) /\ c_start (dc_chunk d) < tp_ts p < c_end (dc_chunk d)) /\
    (forall i j ls p ls' p', (i < j)%nat -> nth_error ops i = Some (OpPoint ls p) -> nth_error ops j = Some (OpPoint ls' p') ->
       nth_error rs i = Some (Ok tt) -> nth_error rs j = Some (Ok tt) -> tp_ts p = tp_ts p' ->
       forall k st, (i < k < j)%nat -> nth_error ops k <> Some (OpSwap st)).
Proof.
  intros He Hd t0 Ho Ha. destruct (history cf f ops He Hd Ho) as (w & E & St). fold t0 in E, St.
  pose proof Ho as (_ & _ & Hsz & _ & Hs & _ & _).
  exists (outcomes cf t0 ops), w. split; [exact E|].
  destruct St as (l0 & c & A & h0 & d & El & D). pose proof D as [H1 H2 H3 H4 H5 H6 H7 H8 H9 H10 H11 H12].
  assert (HR: hrel (d_heap w) (parts cf t0 ops)).
  { rewrite H1, El. apply Forall2_app; [assumption|]. constructor; [|constructor]. split; [exact H7|]. now apply crep_crd. }
  destruct (apart_parts cf ops Hsz t0 [] Ha) as [AP _]. fold (parts cf t0 ops) in AP.
  assert (NP: forall i x, nth_error (d_heap w) i = Some x -> exists p, nth_error (parts cf t0 ops) i = Some p /\ like (dc_chunk x) (fst p)).
  { intros i x Hx. destruct (nth_error (parts cf t0 ops) i) as [p|] eqn:Q.
    - destruct (hrel_nth _ _ HR i p Q) as (x' & K1 & K2 & _). exists p. split; [reflexivity|]. congruence.
    - apply nth_error_None in Q. assert (nth_error (d_heap w) i <> None) as KK by congruence. apply nth_error_Some in KK.
      pose proof (hrel_length _ _ HR). lia. }
  split; [|split].
  - intros i j a b Hij Hi Hj. destruct (NP i a Hi) as (p & P1 & (_ & _ & P2)). destruct (NP j b Hj) as (p' & P1' & (_ & P2' & _)).
    rewrite P2, P2'. clear - AP Hij P1 P1'. revert i j Hij P1 P1'. induction AP as [|x l F AP IH]; intros [|i] [|j] Hij P1 P1'; try discriminate; try lia; cbn [nth_error] in *.
    + assert (p = x) as -> by congruence. rewrite Forall_forall in F. apply F. now apply nth_error_In in P1'.
    + apply (IH i j); [lia|assumption|assumption].
  - intros i ls p Hi Hr. pose proof (outcomes_nth cf ops t0 i _ _ Hi Hr) as R. cbn [outcome] in R.
    destruct (in_windowb _ _) eqn:W; [|discriminate]. unfold in_windowb in W.
    assert (X: exists q, In q (parts cf t0 ops) /\ fst q = the_chunk cf (last_start t0 (firstn i ops))).
    { apply part_current. }
    destruct X as (q & Q1 & Q2). apply In_nth_error in Q1 as (n & Q1). destruct (hrel_nth _ _ HR n q Q1) as (x & X1 & (_ & X2 & X3) & _).
    exists x. split; [now apply nth_error_In in X1|]. rewrite X2, X3, Q2. lia.
  - intros i j ls p ls' p' Hij Hi Hj Ri Rj Et k st Hk Hsw.
    pose proof (outcomes_nth cf ops t0 i _ _ Hi Ri) as R1. pose proof (outcomes_nth cf ops t0 j _ _ Hj Rj) as R2. cbn [outcome] in R1, R2.
    destruct (in_windowb _ (tp_ts p)) eqn:W1; [|discriminate]. destruct (in_windowb _ (tp_ts p')) eqn:W2; [|discriminate].
    (* ops = firstn i ++ mid ++ ... with the swap at k *)
    assert (S1: firstn j ops = firstn k ops ++ OpSwap st :: firstn (j - S k) (skipn (S k) ops)).
    { rewrite <- (firstn_skipn (S k) (firstn j ops)). rewrite firstn_firstn. replace (Nat.min (S k) j) with (S k) by lia.
      rewrite skipn_firstn_comm. replace (OpSwap st :: firstn (j - S k) (skipn (S k) ops)) with ([OpSwap st] ++ firstn (j - S k) (skipn (S k) ops)) by reflexivity.
      rewrite app_assoc. f_equal. clear - Hsw. revert k Hsw. induction ops as [|o ops IH]; intros [|k] H; try discriminate; cbn [nth_error firstn app] in *; [congruence|]. f_equal. now apply IH. }
    assert (S2: firstn k ops = firstn i ops ++ skipn i (firstn k ops)).
    { rewrite <- (firstn_skipn i (firstn k ops)) at 1. rewrite firstn_firstn. now replace (Nat.min i k) with i by lia. }
    rewrite <- (firstn_skipn j ops) in Ha. apply apart_app in Ha as [Ha _]. rewrite S1 in Ha. apply apart_app in Ha as [Ha Hb].
    rewrite S2 in Ha. apply apart_app in Ha as [_ Ha]. cbn [apart] in Hb. destruct Hb as [B1 B2].
    rewrite S1, last_start_app in W2. cbn [last_start] in W2.
    pose proof (apart_last cf _ Hsz _ B2) as G1. pose proof (apart_last cf _ Hsz _ Ha) as G2. rewrite S2, last_start_app in B1.
    unfold in_windowb in W1, W2. cbn [the_chunk c_start c_end] in W1, W2. lia.
Qed.

(** ** the order of the chunks after any number of restarts *)
Theorem lives_sorted f L : env_ok f -> empty_dir f -> monotone (f_clock f) -> L <> [] ->
  lives_ok (f_clock f) (f_ticks f) 0 (-1) L ->
  exists w, live L f = Some w /\
    forall i j a b x y, (i < j)%nat -> nth_error (d_sec w ++ [d_cur w]) i = Some a -> nth_error (d_sec w ++ [d_cur w]) j = Some b ->
      nth_error (d_heap w) a = Some x -> nth_error (d_heap w) b = Some y -> c_start (dc_chunk x) < c_start (dc_chunk y).
Proof.
  intros He Hd Hm NE HL. destruct (lives_state f L He Hd Hm HL NE) as (w & l & cf & E & St & _). exists w. split; [assumption|].
  destruct St as (l0 & c & A & h0 & d & -> & [H1 H2 H3 H4 H5 H6 H7 H8 _ _ _ H12]). intros i j a b x y Hij Ha Hb Hx Hy.
  rewrite H3, H2 in Ha, Hb. rewrite H1 in Hx, Hy.
  assert (Q: seq 0 (length h0) ++ [length h0] = seq 0 (S (length h0))) by (symmetry; apply seq_S). rewrite Q in Ha, Hb.
  assert (N: forall k v, nth_error (seq 0 (S (length h0))) k = Some v -> v = k).
  { intros k v Hk. assert (Lk: (k < S (length h0))%nat) by (rewrite <- (seq_length (S (length h0)) 0); apply nth_error_Some; congruence).
    apply (nth_error_nth _ _ 0%nat) in Hk. rewrite seq_nth in Hk by assumption. lia. }
  apply N in Ha, Hb. subst a b.
  clear - H12 Hij Hx Hy. remember (h0 ++ [d]) as h eqn:Q. clear Q. revert i j Hij Hx Hy.
  induction h as [|z h IH]; intros i j Hij Hx Hy; [destruct i; discriminate|]. cbn [map] in H12. inversion H12 as [|? ? S1 S2]; subst.
  destruct j as [|j]; [lia|]. cbn [nth_error] in Hy. destruct i as [|i].
  - cbn in Hx. assert (z = x) by congruence. subst z. rewrite Forall_forall in S2. apply S2. apply in_map_iff. exists y. split; [reflexivity|]. eapply nth_error_In. eassumption.
  - cbn in Hx. apply (IH S1 i j); [lia|assumption..].
Qed.

(** ** the clock *)
Definition op_of (o : lop) : dop := match o with LPoint ls p => OpPoint ls p | LBatch ls pts => OpBatch ls pts | LTick now => OpSwap (now + 1) end.
Lemma tick_swap cf now : u64 (now + 1) -> db_tick cf now = db_swap cf (now + 1).
Proof.
  intros H. unfold db_tick, arith_u, in_u, u64 in *. assert ((0 <=? now + 1) && (now + 1 <? 2 ^ 64) = true) as -> by lia. reflexivity.
Qed.
Lemma clocked_ops cf ops : 0 < cf_size cf -> forall last w, 0 <= last -> readings cf last ops -> clocked_from cf ops w = db_after_from cf (map op_of ops) w.
Proof.
  intros Hsz. induction ops as [|o ops IH]; intros t w L H; [reflexivity|]. cbn [clocked_from db_after_from map readings] in *.
  assert (E: drun (lop_prog cf o) w = drun (dop_prog cf (op_of o)) w).
  { destruct o; try reflexivity. cbn [lop_prog op_of dop_prog]. rewrite tick_swap; [reflexivity|]. unfold u64. lia. }
  rewrite E. destruct (drun (dop_prog cf (op_of o)) w) as [[r w']|]; [|reflexivity].
  assert (X: clocked_from cf ops w' = db_after_from cf (map op_of ops) w'); [|now rewrite X].
  destruct o as [ls p|ls pts|now]; [apply (IH t); assumption|apply (IH t); assumption|]. apply (IH now); [lia|apply H].
Qed.
Lemma readings_ok cf ops : 0 < cf_size cf -> forall last start, readings cf last ops -> last <= start <= last + 1 -> starts_ok cf start (map op_of ops) /\ apart cf start (map op_of ops).
Proof.
  intros Hsz. induction ops as [|o ops IH]; intros t st H L; [split; exact I|]. cbn [map op_of starts_ok apart readings] in *.
  destruct o as [ls p|ls pts|now]; [now apply (IH t)|now apply (IH t)|]. destruct H as (H1 & H2 & H3). destruct (IH now (now + 1) H3 ltac:(lia)) as [K1 K2]. cbn [starts_ok apart]. repeat split; try assumption; lia.
Qed.
Lemma asked_written ops : written (map op_of ops) = asked_for ops.
Proof. induction ops as [|o ops IH]; [reflexivity|]. destruct o; cbn [map op_of written asked_for]; now rewrite IH. Qed.
Definition win (cf : config) (s : Z) : Z * Z := (s, s + cf_size cf).
Lemma parts_windows cf ops : forall start h, map (fun c : part => (c_start (fst c), c_end (fst c))) (parts_from cf start h (map op_of ops)) = win cf start :: map (fun n => win cf (n + 1)) (ticks ops).
Proof.
  induction ops as [|o ops IH]; intros start h; [reflexivity|]. destruct o as [ls p|ls pts|now]; cbn [map op_of parts_from ticks]; [apply IH|apply IH|]. now rewrite IH.
Qed.
Lemma last_cons {A} (l : list A) : forall a d, last (a :: l) d = last l a.
Proof. induction l as [|b l IH]; intros a d; [reflexivity|]. change (last (b :: l) d = last (b :: l) a). now rewrite !IH. Qed.
Lemma last_tick ops : forall start, last_start start (map op_of ops) = last (map (fun n => n + 1) (ticks ops)) start.
Proof.
  induction ops as [|o ops IH]; intros start; [reflexivity|]. destruct o as [ls p|ls pts|now]; cbn [map op_of last_start ticks]; [apply IH|apply IH|].
  now rewrite IH, last_cons.
Qed.
Lemma map_last {A B} (f : A -> B) l d : last (map f l) (f d) = f (last l d).
Proof. revert d. induction l as [|a l IH]; intros d; [reflexivity|]. cbn [map]. rewrite !last_cons. apply IH. Qed.
Theorem clock_windows cf f ops : env_ok f -> empty_dir f -> cf_base cf <> [] -> 0 < cf_size cf ->
  let t0 := f_clock f (f_ticks f) in
  t0 + cf_size cf < 2 ^ 64 -> readings cf t0 ops -> Forall ireq_ok (asked_for ops) -> Z.of_nat (length (asked_for ops)) < 2 ^ 64 - 1 ->
  let windows k := (t0, t0 + cf_size cf) :: map (fun n => (n + 1, n + 1 + cf_size cf)) (ticks (firstn k ops)) in
  exists rs w, clocked cf f ops = Some (rs, w) /\ length rs = length ops /\
    map (fun d => (c_start (dc_chunk d), c_end (dc_chunk d))) (d_heap w) = windows (length ops) /\
    ForallOrdPairs (fun a b => snd a <= fst b) (windows (length ops)) /\
    (forall i now, nth_error ops i = Some (LTick now) -> nth_error rs i = Some (Ok tt)) /\
    (forall i ls p, nth_error ops i = Some (LPoint ls p) ->
       (nth_error rs i = Some (Ok tt) <-> let v := last (windows i) (0, 0) in fst v < tp_ts p < snd v)).
Proof.
  intros He Hd Hb Hsz t0 Ht HR HA HN windows.
  assert (T0: 0 <= t0) by (destruct He as (_ & _ & Hc & _); specialize (Hc (f_ticks f)); unfold u64 in Hc; subst t0; lia).
  destruct (readings_ok cf ops Hsz t0 t0 HR ltac:(lia)) as [S1 S2].
  assert (Ho: ops_ok cf t0 (map op_of ops)). { unfold ops_ok. rewrite asked_written. repeat split; try assumption; lia. }
  destruct (history cf f (map op_of ops) He Hd Ho) as (w & E & St). fold t0 in E, St.
  exists (outcomes cf t0 (map op_of ops)), w.
  assert (LO: forall l s, length (outcomes cf s l) = length l) by (induction l as [|o l IH]; intros s; [reflexivity|]; cbn [outcomes length]; now rewrite IH).
  assert (WN: map (fun d => (c_start (dc_chunk d), c_end (dc_chunk d))) (d_heap w) = windows (length ops)).
  { destruct St as (l0 & c & A & h0 & d & El & D). pose proof D as [H1 H2 H3 H4 H5 H6 H7 H8 H9 H10 H11 H12].
    assert (HH: hrel (d_heap w) (parts cf t0 (map op_of ops))).
    { rewrite H1, El. apply Forall2_app; [assumption|]. constructor; [|constructor]. split; [exact H7|]. now apply crep_crd. }
    unfold windows. rewrite firstn_all. fold (win cf t0). change (map (fun n => (n + 1, n + 1 + cf_size cf)) (ticks ops)) with (map (fun n => win cf (n + 1)) (ticks ops)).
    rewrite <- (parts_windows cf ops t0 []). fold (parts cf t0 (map op_of ops)). clear - HH. induction HH as [|x c h l ((_ & A & B) & _) HH IH]; [reflexivity|]. cbn [map]. now rewrite IH, A, B. }
  split; [|split; [|split; [exact WN|split; [|split]]]].
  - unfold clocked. unfold db_after in E. destruct (db_open cf f) as [[[u|e|] w0]|]; try discriminate. now rewrite (clocked_ops cf ops Hsz t0).
  - now rewrite LO, map_length.
  - destruct (apart_parts cf (map op_of ops) ltac:(lia) t0 [] S2) as [AP _]. unfold windows. rewrite firstn_all. fold (win cf t0).
    change (map (fun n => (n + 1, n + 1 + cf_size cf)) (ticks ops)) with (map (fun n => win cf (n + 1)) (ticks ops)). rewrite <- (parts_windows cf ops t0 []).
    clear - AP. induction AP as [|c l F AP IH]; cbn [map]; constructor; [|exact IH]. rewrite Forall_forall in F |- *. intros x Hx. apply in_map_iff in Hx as (y & <- & Hy). cbn [fst snd]. now apply F.
  - intros i now Hi. assert (Hi': nth_error (map op_of ops) i = Some (OpSwap (now + 1))) by now rewrite nth_error_map, Hi.
    destruct (nth_error (outcomes cf t0 (map op_of ops)) i) as [r|] eqn:Er.
    + now rewrite (outcomes_nth cf _ _ _ _ _ Hi' Er).
    + apply nth_error_None in Er. rewrite LO in Er. assert (nth_error (map op_of ops) i <> None) as K by congruence. apply nth_error_Some in K. lia.
  - intros i ls p Hi. assert (Hi': nth_error (map op_of ops) i = Some (OpPoint ls p)) by now rewrite nth_error_map, Hi.
    assert (EW: last (windows i) (0, 0) = win cf (last_start t0 (firstn i (map op_of ops)))).
    { unfold windows. rewrite last_cons. change (map (fun n => (n + 1, n + 1 + cf_size cf)) (ticks (firstn i ops))) with (map (fun n => win cf (n + 1)) (ticks (firstn i ops))).
      rewrite firstn_map, last_tick. change (t0, t0 + cf_size cf) with (win cf t0). rewrite <- (map_last (win cf)), map_map. reflexivity. }
    rewrite EW. cbv zeta. cbn [win fst snd].
    destruct (nth_error (outcomes cf t0 (map op_of ops)) i) as [r|] eqn:Er.
    + rewrite (outcomes_nth cf _ _ _ _ _ Hi' Er). cbn [outcome]. destruct (in_windowb _ _) eqn:W; unfold in_windowb in W; cbn [the_chunk c_start c_end] in W; split; intros X; try reflexivity; try discriminate; try lia.
    + apply nth_error_None in Er. rewrite LO in Er. assert (nth_error (map op_of ops) i <> None) as K by congruence. apply nth_error_Some in K. lia.
Qed.
