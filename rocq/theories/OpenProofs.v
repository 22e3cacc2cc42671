(* Proofs about opening any directory, and about crashes while a chunk is created. *)
From Coq Require Import ZifyBool ZifyNat Permutation Sorted.
From Verif Require Import Rust StringProofs Prog Gorilla GorillaSpec Storage StorageSpec StorageProofs Labels IndexSpec Indexer
  LabelProofs IndexProofs Chunk ChunkSpec ChunkProofs ChunkFacts Conc Utils DirSpec DirProofs TiKvInit Db DbSpec MapProofs DbProofs DbHist DbFacts
  ReopenSpec ReopenProofs.

(** ** what the commands do to the metadata files *)
Definition metas (f : fworld) : list (list Z * option (file chunk_opts)) := map (fun e => (fst e, cd_meta (snd e))) (f_dirs f).
Definition meta_like (f g : fworld) : Prop := metas g = metas f /\ f_meta g = f_meta f /\ same_env f g.
Lemma meta_refl f : meta_like f f.
Proof. repeat split. Qed.
Lemma meta_trans f g h : meta_like f g -> meta_like g h -> meta_like f h.
Proof. intros (A1 & A2 & A3) (B1 & B2 & B3). split; [congruence|]. split; [congruence|]. eapply same_env_trans; eassumption. Qed.
Lemma metas_names f : map fst (f_dirs f) = map fst (metas f).
Proof. unfold metas. rewrite map_map. reflexivity. Qed.

Lemma put_metas ds name d d' : find_dir ds name = Some d -> cd_meta d' = cd_meta d ->
  map (fun e => (fst e, cd_meta (snd e))) (put_dir ds name d') = map (fun e => (fst e, cd_meta (snd e))) ds.
Proof.
  induction ds as [|[m x] ds IH]; cbn [find_dir put_dir]; [discriminate|]. destruct (name_eqb m name); intros H E.
  - cbn [map fst snd]. f_equal. f_equal. congruence.
  - cbn [map fst snd]. f_equal. now apply IH.
Qed.
Lemma find_meta ds n d : find_dir ds n = Some d -> In (n, cd_meta d) (map (fun e => (fst e, cd_meta (snd e))) ds).
Proof.
  induction ds as [|[m x] ds IH]; cbn [find_dir]; [discriminate|]. unfold name_eqb. destruct (bytes_eqb m n) eqn:E; intros H.
  - apply bytes_eqb_spec in E. subst. left. cbn. congruence.
  - right. now apply IH.
Qed.
Lemma find_some_in ds n : In n (map fst ds) -> exists d, find_dir ds n = Some d.
Proof.
  intros H. destruct (find_dir ds n) eqn:E; [eauto|]. apply find_put_none in E. contradiction.
Qed.

(* opening a store of an existing directory *)
Lemma st_like f name : f_faults f = [] -> In name (map fst (f_dirs f)) ->
  exists s g, fhandler _ (FOpenSt name) f = Some (Ok s, g) /\ meta_like f g.
Proof.
  intros Hf Hn. destruct (find_some_in _ _ Hn) as (d & Hd). cbn [fhandler]. rewrite Hf. cbn [hd]. rewrite no_fault, Hd by assumption.
  eexists _, _. split; [reflexivity|]. split; [|repeat split]. unfold metas. cbn [set_dirs f_dirs]. apply (put_metas _ _ d); [assumption|reflexivity].
Qed.
Lemma ix_like f name : f_faults f = [] -> In name (map fst (f_dirs f)) ->
  exists s g, fhandler _ (FOpenIx name) f = Some (Ok s, g) /\ meta_like f g.
Proof.
  intros Hf Hn. destruct (find_some_in _ _ Hn) as (d & Hd). cbn [fhandler]. rewrite Hf. cbn [hd]. rewrite no_fault, Hd by assumption.
  eexists _, _. split; [reflexivity|]. split; [|repeat split]. unfold metas. cbn [set_dirs f_dirs]. apply (put_metas _ _ d); [assumption|reflexivity].
Qed.
Lemma mk_like f name : f_faults f = [] -> In name (map fst (f_dirs f)) ->
  exists g, fhandler _ (FMkDir name) f = Some (Ok tt, g) /\ meta_like f g.
Proof.
  intros Hf Hn. destruct (find_some_in _ _ Hn) as (d & Hd). cbn [fhandler]. rewrite Hf. cbn [hd]. rewrite no_fault, Hd by assumption.
  eexists. split; [reflexivity|]. split; [|repeat split]. unfold metas. cbn [set_dirs f_dirs]. apply (put_metas _ _ d); [assumption|reflexivity].
Qed.
Lemma like_faults f g : meta_like f g -> f_faults f = [] -> f_faults g = [].
Proof. intros (_ & _ & (_ & _ & _ & ->)). auto. Qed.
Lemma like_names f g : meta_like f g -> map fst (f_dirs g) = map fst (f_dirs f).
Proof. intros (E & _). now rewrite !metas_names, E. Qed.

(** ** one entry *)
Definition good_entry (f : fworld) (name : list Z) : Prop :=
  forall s e, decode_chunk_dir name = Ok (s, e) -> exists o, In (name, Some (Written o)) (metas f).
Lemma nodup_meta f n d : NoDup (map fst (f_dirs f)) -> find_dir (f_dirs f) n = Some d -> forall m, In (n, m) (metas f) -> m = cd_meta d.
Proof.
  intros N Hd m Hm. unfold metas in Hm. apply in_map_iff in Hm as ([n' d'] & E & Hin). cbn [fst snd] in E.
  assert (n' = n) by congruence. subst n'. rewrite (find_dir_in _ _ _ N Hin) in Hd. congruence.
Qed.

Lemma entry_iff cf f name : f_faults f = [] -> cf_base cf <> [] -> ascii (cf_base cf) -> names_ok f -> In name (map fst (f_dirs f)) ->
  (good_entry f name -> exists r g, run fhandler (read_entry cf name) f = Some (Ok r, g) /\ meta_like f g) /\
  (~ good_entry f name -> exists e, run fhandler (read_entry cf name) f = Some (Err e, f)).
Proof.
  intros Hf Hb Ha (ND & PL) Hn. assert (Hp: plain_name name) by (rewrite Forall_forall in PL; auto).
  unfold read_entry. rewrite extract_exact by assumption. rewrite surplus_ascii by assumption. change (skipn (Z.to_nat 0) name) with name.
  unfold good_entry. destruct (decode_chunk_dir name) as [[s e]|x|] eqn:Q.
  2-3: split; [intros _; eexists _, f; split; [reflexivity|apply meta_refl]|intros K; exfalso; apply K; intros s0 e0 H0; congruence].
  destruct (find_some_in _ _ Hn) as (d & Hd).
  rewrite run_qbind. unfold read_config_from_dir. rewrite run_bind, run_call, (fh_readopts f name d Hf Hd). cbn [run].
  split.
  - intros G. destruct (G s e eq_refl) as (o & Ho). apply (nodup_meta f name d ND Hd) in Ho. rewrite <- Ho.
    rewrite run_bind, run_call. cbn [fhandler]. rewrite run_qbind. set (o' := mkOpts s _ _).
    assert (L0: meta_like f (tick f)) by repeat split.
    assert (R1: exists x g, run fhandler (read_storage (cf_st cf) name o') (tick f) = Some (Ok x, g) /\ meta_like f g).
    { destruct (cf_st cf); cbn [read_storage].
      - rewrite run_qbind, run_call. destruct (st_like (tick f) name Hf Hn) as (x & g & -> & L). cbn [run]. eexists _, g. split; [reflexivity|]. exact (meta_trans _ _ _ L0 L).
      - rewrite krun_read_storage. cbn [run rmap]. eexists _, _. split; [reflexivity|exact L0]. }
    destruct R1 as (x1 & g1 & -> & L1). rewrite run_qbind.
    assert (R2: exists x g, run fhandler (read_indexer (cf_ix cf) name o') g1 = Some (Ok x, g) /\ meta_like f g).
    { destruct (cf_ix cf); cbn [read_indexer].
      - rewrite run_qbind, run_call. destruct (ix_like g1 name) as (x & g & -> & L); [eapply like_faults; eassumption|rewrite (like_names _ _ L1); assumption|].
        cbn [run]. eexists _, g. split; [reflexivity|]. eapply meta_trans; eassumption.
      - rewrite krun_read_indexer. cbn [run rmap]. eexists _, _. split; [reflexivity|exact L1]. }
    destruct R2 as (x2 & g2 & -> & L2). cbn [run]. eexists _, g2. split; [reflexivity|exact L2].
  - intros B. pose proof (find_meta _ _ _ Hd) as Fm. fold (metas f) in Fm. destruct (cd_meta d) as [[|o]|]; [eexists; reflexivity| |eexists; reflexivity].
    exfalso. apply B. intros. eauto.
Qed.

(** ** all entries *)
Lemma good_like f g name : meta_like f g -> good_entry g name <-> good_entry f name.
Proof. intros (E & _). unfold good_entry. now rewrite E. Qed.
Lemma names_like f g : meta_like f g -> names_ok f -> names_ok g.
Proof. intros L (H1 & H2). unfold names_ok. rewrite (like_names _ _ L). auto. Qed.

Lemma forM_iff cf names : cf_base cf <> [] -> ascii (cf_base cf) -> forall f, f_faults f = [] -> names_ok f ->
  (forall n, In n names -> n = metadata_name \/ In n (map fst (f_dirs f))) ->
  ((forall n, In n names -> n <> metadata_name -> good_entry f n) ->
     exists rs g, run fhandler (forM (read_entry cf) names) f = Some (Ok rs, g) /\ meta_like f g) /\
  (forall n, In n names -> n <> metadata_name -> ~ good_entry f n ->
     exists e g, run fhandler (forM (read_entry cf) names) f = Some (Err e, g) /\ meta_like f g).
Proof.
  intros Hb Ha. induction names as [|n names IH]; intros f Hf Hok Hin; cbn [forM].
  - split; [intros _; eexists _, f; split; [reflexivity|apply meta_refl]|intros n []].
  - rewrite run_qbind.
    assert (D: n = metadata_name \/ n <> metadata_name /\ In n (map fst (f_dirs f))).
    { destruct (bytes_eqb n metadata_name) eqn:E; [left; now apply bytes_eqb_spec|]. right.
      assert (n <> metadata_name) by (intros ->; rewrite bytes_eqb_refl in E; discriminate). split; [assumption|].
      destruct (Hin n ltac:(now left)); [contradiction|assumption]. }
    assert (R: (exists r g, run fhandler (read_entry cf n) f = Some (Ok r, g) /\ meta_like f g /\ (n = metadata_name \/ good_entry f n)) \/
               (exists e, run fhandler (read_entry cf n) f = Some (Err e, f) /\ n <> metadata_name /\ ~ good_entry f n)).
    { destruct D as [->|[D1 D2]].
      - left. rewrite metadata_entry by assumption. eexists _, f. split; [reflexivity|]. split; [apply meta_refl|now left].
      - destruct (entry_iff cf f n Hf Hb Ha Hok D2) as [E1 E2].
        assert (DG: good_entry f n \/ ~ good_entry f n).
        { destruct (find_some_in _ _ D2) as (d & Hd). unfold good_entry. destruct (decode_chunk_dir n) as [[s e]|x|] eqn:Q; [|left; discriminate..].
          pose proof (find_meta _ _ _ Hd) as Fm. fold (metas f) in Fm. destruct (cd_meta d) as [[|o]|] eqn:Qd.
          - right. intros K. destruct (K s e eq_refl) as (o & Ho). apply (nodup_meta f n d (proj1 Hok) Hd) in Ho. congruence.
          - left. eauto.
          - right. intros K. destruct (K s e eq_refl) as (o & Ho). apply (nodup_meta f n d (proj1 Hok) Hd) in Ho. congruence. }
        destruct DG as [G|G]; [left|right].
        + destruct (E1 G) as (r & g & ? & ?). exists r, g. auto.
        + destruct (E2 G) as (e & ?). exists e. auto. }
    destruct R as [(r & g & -> & L & Gd)|(e & -> & Nm & Ng)].
    + rewrite run_qbind.
      destruct (IH g) as [I1 I2].
      { eapply like_faults; eassumption. } { eapply names_like; eassumption. }
      { intros n' Hn'. rewrite (like_names _ _ L). apply Hin. now right. }
      split.
      * intros H. destruct I1 as (rs & g' & -> & L').
        { intros n' Hn' Nn'. apply (good_like f g n' L). apply H; [now right|assumption]. }
        cbn [run]. eexists _, g'. split; [reflexivity|]. eapply meta_trans; eassumption.
      * intros n' [->|Hn'] Nn' Ng'; [destruct Gd; contradiction|].
        destruct (I2 n' Hn' Nn') as (e & g' & -> & L').
        { intros K. apply Ng'. now apply (good_like f g n' L). }
        eexists _, g'. split; [reflexivity|]. eapply meta_trans; eassumption.
    + split; [intros H; exfalso; apply Ng; apply H; [now left|assumption]|]. intros _ _ _ _. eexists _, f. split; [reflexivity|apply meta_refl].
Qed.

(** ** creating a chunk in any directory *)
Lemma put_in ds name d : In name (map fst (put_dir ds name d)).
Proof.
  induction ds as [|[m x] ds IH]; cbn [put_dir]; [now left|]. unfold name_eqb. destruct (bytes_eqb m name) eqn:E.
  - left. cbn. now apply bytes_eqb_spec.
  - right. exact IH.
Qed.
Definition done (name : list Z) (f : fworld) (r : option (res unit * fworld)) : Prop :=
  exists g, r = Some (Ok tt, g) /\ f_faults g = [] /\ In name (map fst (f_dirs g)).
Lemma mk_any f name : f_faults f = [] -> done name f (fhandler _ (FMkDir name) f).
Proof.
  intros Hf. cbn [fhandler]. rewrite Hf. cbn [hd]. rewrite no_fault by assumption. eexists. split; [reflexivity|]. split; [assumption|apply put_in].
Qed.
Lemma create_any f name : f_faults f = [] -> done name f (fhandler _ (FCreateOpts name) f).
Proof.
  intros Hf. cbn [fhandler]. rewrite Hf. cbn [hd]. rewrite no_fault by assumption. eexists. split; [reflexivity|]. split; [assumption|apply put_in].
Qed.
Lemma write_any f name o : f_faults f = [] -> done name f (fhandler _ (FWriteOpts name o) f).
Proof.
  intros Hf. cbn [fhandler]. rewrite Hf. cbn [hd]. rewrite no_fault by assumption. eexists. split; [reflexivity|]. split; [assumption|apply put_in].
Qed.
Lemma create_ok cf start f : f_faults f = [] -> 0 <= start -> 0 <= cf_size cf -> start + cf_size cf < 2 ^ 64 ->
  exists d g, run fhandler (create_chunk cf start) f = Some (Ok d, g).
Proof.
  intros Hf H0 Hsz Hend. unfold create_chunk. rewrite run_bind, run_call. cbn [fhandler].
  unfold arith_u, in_u. replace ((0 <=? start + cf_size cf) && (start + cf_size cf <? 2 ^ 64)) with true by lia.
  cbv zeta. set (name := encode_chunk_dir _ _). set (o := mkOpts _ _ _). rewrite run_bind. unfold write_config_to_dir.
  rewrite run_qbind, run_call. destruct (mk_any (draw f) name Hf) as (g1 & -> & F1 & N1).
  rewrite run_qbind, run_call. destruct (create_any g1 name F1) as (g2 & -> & F2 & N2).
  rewrite run_bind, run_call. destruct (write_any g2 name o F2) as (g3 & -> & F3 & N3). cbn [run]. rewrite run_qbind.
  assert (R1: exists x g, run fhandler (build_storage (cf_st cf) name o) g3 = Some (Ok x, g) /\ meta_like g3 g).
  { destruct (cf_st cf); cbn [build_storage]; rewrite run_qbind, run_call.
    - destruct (st_like g3 name F3 N3) as (x & g & -> & L). cbn [run]. eauto.
    - destruct (mk_like g3 name F3 N3) as (g & -> & L). rewrite run_bind, run_call. cbn [fhandler]. rewrite krun_init_storage. cbn [rmap run].
      eexists _, _. split; [reflexivity|]. exact L. }
  destruct R1 as (x1 & g4 & -> & L4). rewrite run_qbind.
  assert (F4: f_faults g4 = []) by (eapply like_faults; eassumption). assert (N4: In name (map fst (f_dirs g4))) by (rewrite (like_names _ _ L4); assumption).
  assert (R2: exists x g, run fhandler (build_indexer (cf_ix cf) name o) g4 = Some (Ok x, g)).
  { destruct (cf_ix cf); cbn [build_indexer]; rewrite run_qbind, run_call.
    - destruct (ix_like g4 name F4 N4) as (x & g & -> & L). cbn [run]. eauto.
    - destruct (mk_like g4 name F4 N4) as (g & -> & L). rewrite run_bind, run_call. cbn [fhandler]. rewrite krun_init_indexer. cbn [rmap run]. eauto. }
  destruct R2 as (x2 & g5 & ->). cbn [run]. eauto.
Qed.

(** ** opening any directory *)
Definition entries_good (f : fworld) : Prop := forall n, In n (map fst (f_dirs f)) -> good_entry f n.
Lemma good_healthy f : NoDup (map fst (f_dirs f)) -> entries_good f <->
  forall name d s e, In (name, d) (f_dirs f) -> decode_chunk_dir name = Ok (s, e) -> exists o, cd_meta d = Some (Written o).
Proof.
  intros N. split.
  - intros G name d s e Hin Hd. destruct (G name (in_map fst _ _ Hin) s e Hd) as (o & Ho). exists o.
    symmetry. exact (nodup_meta f name d N (find_dir_in _ _ _ N Hin) _ Ho).
  - intros H n Hn s e Hd. apply in_map_iff in Hn as ([n' d] & E & Hin). cbn in E. subst n'. destruct (H n d s e Hin Hd) as (o & Ho).
    exists o. unfold metas. apply in_map_iff. exists (n, d). cbn. rewrite Ho. auto.
Qed.
Lemma entries_dec f : NoDup (map fst (f_dirs f)) -> entries_good f \/ exists n, In n (map fst (f_dirs f)) /\ ~ good_entry f n.
Proof.
  intros N. assert (D: forall n, In n (map fst (f_dirs f)) -> good_entry f n \/ ~ good_entry f n).
  { intros n Hn. destruct (find_some_in _ _ Hn) as (d & Hd). unfold good_entry. destruct (decode_chunk_dir n) as [[s e]|x|] eqn:Q; [|left; discriminate..].
    pose proof (find_meta _ _ _ Hd) as Fm. fold (metas f) in Fm. destruct (cd_meta d) as [[|o]|] eqn:Qd.
    - right. intros K. destruct (K s e eq_refl) as (o & Ho). apply (nodup_meta f n d N Hd) in Ho. congruence.
    - left. eauto.
    - right. intros K. destruct (K s e eq_refl) as (o & Ho). apply (nodup_meta f n d N Hd) in Ho. congruence. }
  unfold entries_good. clear N. induction (map fst (f_dirs f)) as [|n l IH]; [left; intros n []|].
  destruct (D n (or_introl eq_refl)) as [G|G]; [|right; exists n; split; [now left|assumption]].
  destruct IH as [I|(m & Hm & Hg)]; [intros m Hm; apply D; now right| |right; exists m; split; [now right|assumption]].
  left. intros m [<-|Hm]; [assumption|now apply I].
Qed.
Lemma like_good f g : meta_like f g -> entries_good g <-> entries_good f.
Proof.
  intros L. unfold entries_good. rewrite (like_names _ _ L). split; intros H n Hn; apply (good_like f g n L); now apply H.
Qed.

(* from the check of metadata.json on *)
Lemma open_after cf f : open_env cf f -> names_ok f -> ~ In metadata_name (map fst (f_dirs f)) ->
  let p := let? old := read_existing_chunk cf in let! now := call FClock in let? cur := create_chunk cf now in Ret (Ok (old, cur)) in
  (entries_good f -> exists x g, run fhandler p f = Some (Ok x, g)) /\
  (~ entries_good f -> exists e g, run fhandler p f = Some (Err e, g) /\ meta_like f g).
Proof.
  intros ((Hord & Huid & Hclk & Hf) & Hb & Ha & Hsz & Hend) Hok Nm p. subst p. rewrite run_qbind. unfold read_existing_chunk.
  rewrite run_qbind, run_call. cbn [fhandler]. rewrite Hf. cbn [hd]. rewrite no_fault by assumption. rewrite run_qbind.
  assert (Hin: forall n, In n (f_order f (entries f)) <-> (n = metadata_name /\ f_meta f <> None) \/ In n (map fst (f_dirs f))).
  { intros n. split.
    - intros H. apply (Permutation_in _ (Hord _)) in H. unfold entries in H. apply in_app_or in H as [H|H]; [|now right].
      destruct (f_meta f); [|destruct H]. destruct H as [<-|[]]. left. split; [reflexivity|discriminate].
    - intros H. apply (Permutation_in _ (Permutation_sym (Hord _))). unfold entries. apply in_or_app. destruct H as [[-> H]|H]; [left|now right].
      destruct (f_meta f); [now left|contradiction]. }
  destruct (forM_iff cf (f_order f (entries f)) Hb Ha f Hf Hok) as [I1 I2].
  { intros n Hn. apply Hin in Hn as [[-> _]|Hn]; auto. }
  split.
  - intros G. destruct I1 as (rs & g & -> & L).
    { intros n Hn Nn. apply Hin in Hn as [[-> _]|Hn]; [contradiction|now apply G]. }
    cbn [run]. rewrite run_bind, run_call. cbn [fhandler]. rewrite run_qbind.
    destruct L as (_ & _ & (_ & Ec & _ & Ef)). destruct (create_ok cf (f_clock g (f_ticks g)) (tick g)) as (d & g' & ->).
    { change (f_faults (tick g)) with (f_faults g). congruence. } { rewrite Ec. apply Hclk. } { assumption. } { rewrite Ec. apply Hend. }
    cbn [run]. eauto.
  - intros B. destruct (entries_dec f (proj1 Hok)) as [G|(n & Hn & Hg)]; [contradiction|].
    destruct (I2 n) as (e & g & -> & L); [apply Hin; now right|intros ->; contradiction|assumption|]. cbn [run]. eauto.
Qed.

Lemma meta_unique cf m : bytes_eqb (m_indexer_type m) (m_indexer_type (own_meta cf)) && bytes_eqb (m_storage_type m) (m_storage_type (own_meta cf)) = true <->
  m = own_meta cf.
Proof.
  rewrite andb_true_iff. split.
  - intros [A B]. apply bytes_eqb_spec in A, B. destruct m, (own_meta cf). cbn in *. congruence.
  - intros ->. now rewrite !bytes_eqb_refl.
Qed.

Theorem open_iff cf f : open_env cf f -> names_ok f -> ~ In metadata_name (map fst (f_dirs f)) ->
  exists r w, db_open cf f = Some (r, w) /\ (r = Ok tt <-> healthy cf f) /\
    (r = Ok tt \/ (exists e, r = Err e) /\ metas (d_fs w) = metas f /\ same_env f (d_fs w) /\ ~ healthy cf (d_fs w)).
Proof.
  intros He Hok Nm. pose proof He as (Henv & Hb & Ha & Hsz & Hend). pose proof Henv as (Hord & Huid & Hclk & Hf).
  unfold db_open, db_new. rewrite run_qbind.
  destruct (f_meta f) as [[|m]|] eqn:M.
  - unfold read_or_create_metadata. rewrite run_bind, run_call. cbn [fhandler]. rewrite Hf. cbn [hd]. rewrite no_fault, M by assumption. cbn [run].
    eexists _, _. split; [reflexivity|]. cbn [d_fs]. unfold healthy. rewrite M.
    split; [split; [discriminate|intros ([?|?] & _); discriminate]|]. right. split; [eauto|]. split; [reflexivity|]. split; [apply same_env_refl|].
    intros ([?|?] & _); discriminate.
  - rewrite (meta_run cf m f Hf M). destruct (_ && _) eqn:Q.
    + apply (proj1 (meta_unique cf m)) in Q. subst m. destruct (open_after cf f He Hok Nm) as [O1 O2]. cbv zeta in O1, O2.
      destruct (entries_dec f (proj1 Hok)) as [G|(n & Hn & Hg)].
      * destruct (O1 G) as (x & g & ->). eexists _, _. split; [reflexivity|]. split; [|now left]. split; [|reflexivity]. intros _.
        split; [now right|]. now apply (good_healthy f (proj1 Hok)).
      * assert (B: ~ entries_good f) by (intros K; apply Hg; now apply K). destruct (O2 B) as (e & g & -> & L). eexists _, _. split; [reflexivity|]. cbn [d_fs].
        split. { split; [discriminate|]. intros (_ & H). exfalso. apply B. now apply (good_healthy f (proj1 Hok)). }
        right. split; [eauto|]. split; [apply L|]. split; [apply L|]. intros (_ & H). apply B. apply (like_good f g L).
        apply good_healthy; [rewrite (like_names _ _ L); apply Hok|exact H].
    + eexists _, _. split; [reflexivity|]. cbn [d_fs].
      assert (B: ~ healthy cf f).
      { unfold healthy. rewrite M. intros ([?|K] & _); [discriminate|]. assert (m = own_meta cf) by congruence. apply meta_unique in H. congruence. }
      split; [split; [discriminate|intros K; contradiction]|]. right. split; [eauto|]. split; [reflexivity|]. split; [apply same_env_refl|assumption].
  - unfold read_or_create_metadata. rewrite run_bind, run_call. cbn [fhandler]. rewrite Hf. cbn [hd]. rewrite no_fault, M by assumption.
    rewrite run_qbind, run_call. cbn [fhandler]. rewrite Hf. cbn [hd]. rewrite no_fault by assumption.
    rewrite run_qbind, run_call. cbn [fhandler]. change (f_faults (set_fmeta f (Some Empty))) with (f_faults f). rewrite Hf. cbn [hd]. rewrite no_fault by assumption.
    cbn [run]. set (f1 := set_fmeta _ _). 
    assert (He1: open_env cf f1) by exact He. assert (Hok1: names_ok f1) by exact Hok.
    destruct (open_after cf f1 He1 Hok1 Nm) as [O1 O2]. cbv zeta in O1, O2.
    destruct (entries_dec f (proj1 Hok)) as [G|(n & Hn & Hg)].
    + destruct (O1 G) as (x & g & ->). eexists _, _. split; [reflexivity|]. split; [|now left]. split; [|reflexivity]. intros _.
      split; [now left|]. now apply (good_healthy f (proj1 Hok)).
    + assert (B: ~ entries_good f) by (intros K; apply Hg; now apply K). destruct (O2 B) as (e & g & -> & L). eexists _, _. split; [reflexivity|]. cbn [d_fs].
      split. { split; [discriminate|]. intros (_ & H). exfalso. apply B. now apply (good_healthy f (proj1 Hok)). }
      right. split; [eauto|]. split; [apply L|]. split; [exact (proj2 (proj2 L))|]. intros (_ & H). apply B. apply (like_good f1 g L).
      apply good_healthy; [rewrite (like_names _ _ L); apply Hok|exact H].
Qed.

Theorem open_never cf n : forall f, open_env cf f -> names_ok f -> ~ In metadata_name (map fst (f_dirs f)) -> ~ healthy cf f ->
  exists g, attempts n cf f = Some g.
Proof.
  induction n as [|n IH]; intros f He Hok Nm B; [eexists; reflexivity|]. cbn [attempts].
  destruct (open_iff cf f He Hok Nm) as (r & w & -> & Hr & [->|((e & ->) & M & E & B')]); [exfalso; apply B; now apply Hr|].
  assert (N: map fst (f_dirs (d_fs w)) = map fst (f_dirs f)) by (rewrite !metas_names; congruence).
  apply IH; [|unfold names_ok; rewrite N; assumption|rewrite N; assumption|assumption].
  destruct He as (He & Hb & Ha & Hsz & Hend). split; [eapply same_env_ok; eassumption|]. repeat split; try assumption.
  destruct E as (_ & -> & _). assumption.
Qed.
