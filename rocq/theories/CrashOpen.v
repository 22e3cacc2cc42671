(* Proofs about crashes while the database is opened or a chunk is created. *)
From Coq Require Import ZifyBool ZifyNat Permutation Sorted.
From Verif Require Import Rust StringProofs Prog Gorilla GorillaSpec Storage StorageSpec StorageProofs Labels IndexSpec Indexer
  LabelProofs IndexProofs Chunk ChunkSpec ChunkProofs ChunkFacts Conc Utils DirSpec DirProofs TiKvInit Db DbSpec MapProofs DbProofs DbHist DbFacts
  ReopenSpec ReopenProofs OpenProofs.

(** ** stopping a sequence *)
Fixpoint cost {C W A} (h : handler C W) (p : prog C A) (w : W) : nat :=
  match p with
  | Ret _ => 0
  | Do c k => match h _ c w with None => 0 | Some (x, w') => S (cost h (k x) w') end
  end.
Lemma crash_before {C W A B} (h : handler C W) (p : prog C A) (k : A -> prog C B) n : forall w, (n <= cost h p w)%nat ->
  snd (crash_at h n (bind p k) w) = snd (crash_at h n p w).
Proof.
  revert p. induction n as [|n IH]; intros p w H; [destruct p; reflexivity|]. destruct p as [a|X c q]; cbn [cost] in H; [lia|].
  cbn [bind crash_at]. cbn [cost] in H. destruct (h X c w) as [[x w']|]; [|reflexivity]. apply IH. lia.
Qed.
Lemma crash_after {C W A B} (h : handler C W) (p : prog C A) (k : A -> prog C B) : forall w a w', run h p w = Some (a, w') ->
  forall n, crash_at h (cost h p w + n) (bind p k) w = crash_at h n (k a) w'.
Proof.
  induction p as [a|X c q IH]; intros w b w' H n; cbn [run] in H.
  - assert (b = a) by congruence. assert (w' = w) by congruence. subst. reflexivity.
  - cbn [cost bind]. destruct (h X c w) as [[x w1]|] eqn:E; [|discriminate]. cbn [Nat.add crash_at]. rewrite E. now apply IH.
Qed.
Lemma crash_end {C W A} (h : handler C W) (p : prog C A) : forall w a w', run h p w = Some (a, w') ->
  forall n, (cost h p w <= n)%nat -> snd (crash_at h n p w) = w'.
Proof.
  induction p as [a|X c q IH]; intros w b w' H n L; cbn [run] in H.
  - assert (w' = w) by congruence. subst. destruct n; reflexivity.
  - cbn [cost] in L. destruct (h X c w) as [[x w1]|] eqn:E; [|discriminate]. destruct n as [|n]; [lia|]. cbn [crash_at]. rewrite E.
    eapply IH; [eassumption|lia].
Qed.
Lemma crash_call {C W A B} (h : handler C W) (c : C A) (k : A -> prog C B) w x w' n : h _ c w = Some (x, w') ->
  crash_at h (S n) (bind (call c) k) w = crash_at h n (k x) w'.
Proof. intros E. unfold call. cbn [bind crash_at]. now rewrite E. Qed.
Lemma crash_qcall {C W A B} (h : handler C W) (c : C (res A)) (k : A -> prog C (res B)) w x w' n : h _ c w = Some (Ok x, w') ->
  crash_at h (S n) (qbind (call c) k) w = crash_at h n (k x) w'.
Proof. intros E. unfold qbind. now rewrite (crash_call h c _ w (Ok x) w' n E). Qed.
Lemma crash_qbefore {C W A B} (h : handler C W) (p : prog C (res A)) (k : A -> prog C (res B)) n w : (n <= cost h p w)%nat ->
  snd (crash_at h n (qbind p k) w) = snd (crash_at h n p w).
Proof. unfold qbind. apply crash_before. Qed.
Lemma crash_qafter {C W A B} (h : handler C W) (p : prog C (res A)) (k : A -> prog C (res B)) w a w' : run h p w = Some (Ok a, w') ->
  forall n, crash_at h (cost h p w + n) (qbind p k) w = crash_at h n (k a) w'.
Proof. intros R n. unfold qbind. now rewrite (crash_after h p _ w _ _ R). Qed.
Lemma crash_0 {C W A} (h : handler C W) (p : prog C A) w : crash_at h 0 p w = (p, w).
Proof. destruct p; reflexivity. Qed.

(** ** programs that leave the metadata alone *)
Definition calm_cmd (N : list (list Z)) {X} (c : fcmd X) : Prop :=
  match c with
  | FClock | FUuid | FReadMeta | FReadDir | FReadOpts _ => True
  | FOpenSt n | FOpenIx n | FMkDir n => In n N
  | _ => False
  end.
Inductive calm (N : list (list Z)) {A} : prog fcmd A -> Prop :=
| calm_ret a : calm N (Ret a)
| calm_do X (c : fcmd X) k : calm_cmd N c -> (forall x, calm N (k x)) -> calm N (Do c k).
Lemma calm_bind N {A B} (p : prog fcmd A) (k : A -> prog fcmd B) : calm N p -> (forall a, calm N (k a)) -> calm N (bind p k).
Proof. induction 1 as [a|X c q Q H IH]; intros K; cbn [bind]; [apply K|]. constructor; [assumption|]. intros x. now apply IH. Qed.
Lemma calm_qbind N {A B} (p : prog fcmd (res A)) (k : A -> prog fcmd (res B)) : calm N p -> (forall a, calm N (k a)) -> calm N (qbind p k).
Proof. intros P K. unfold qbind. apply calm_bind; [assumption|]. intros [a|e|]; [apply K|constructor..]. Qed.
Lemma calm_call N {X} (c : fcmd X) : calm_cmd N c -> calm N (call c).
Proof. intros H. constructor; [assumption|]. intros x. constructor. Qed.
Lemma calm_step N X (c : fcmd X) f : calm_cmd N c -> f_faults f = [] -> incl N (map fst (f_dirs f)) ->
  exists x g, fhandler X c f = Some (x, g) /\ meta_like f g.
Proof.
  intros Hc Hf Hn. destruct c; cbn [calm_cmd] in Hc; try contradiction.
  - eexists _, _. split; [reflexivity|]. repeat split.
  - eexists _, _. split; [reflexivity|]. repeat split.
  - cbn [fhandler]. rewrite Hf. cbn [hd]. rewrite no_fault by assumption. eexists _, _. split; [reflexivity|]. apply meta_refl.
  - cbn [fhandler]. rewrite Hf. cbn [hd]. rewrite no_fault by assumption. eexists _, _. split; [reflexivity|]. apply meta_refl.
  - destruct (mk_like f name Hf (Hn _ Hc)) as (g & E & L). eauto.
  - cbn [fhandler]. rewrite Hf. cbn [hd]. rewrite no_fault by assumption. eexists _, _. split; [reflexivity|]. apply meta_refl.
  - destruct (st_like f name Hf (Hn _ Hc)) as (x & g & E & L). eauto.
  - destruct (ix_like f name Hf (Hn _ Hc)) as (x & g & E & L). eauto.
Qed.
Lemma calm_crash N {A} (p : prog fcmd A) : calm N p -> forall n f, f_faults f = [] -> incl N (map fst (f_dirs f)) ->
  meta_like f (snd (crash_at fhandler n p f)).
Proof.
  induction 1 as [a|X c k Q H IH]; intros n f Hf Hn; [destruct n; apply meta_refl|]. destruct n as [|n]; [apply meta_refl|]. cbn [crash_at].
  destruct (calm_step N X c f Q Hf Hn) as (x & g & -> & L). eapply meta_trans; [exact L|]. apply IH; [eapply like_faults; eassumption|].
  rewrite (like_names _ _ L). assumption.
Qed.
Lemma calm_build_st N b name o : In name N -> calm N (build_storage b name o).
Proof.
  intros H. destruct b; cbn [build_storage]; (apply calm_qbind; [apply calm_call; exact H|]); intros x; [constructor|].
  apply calm_bind; [apply calm_call; exact I|]. intros u. destruct (krun _ _). constructor.
Qed.
Lemma calm_build_ix N b name o : In name N -> calm N (build_indexer b name o).
Proof.
  intros H. destruct b; cbn [build_indexer]; (apply calm_qbind; [apply calm_call; exact H|]); intros x; [constructor|].
  apply calm_bind; [apply calm_call; exact I|]. intros u. destruct (krun _ _). constructor.
Qed.
Lemma calm_read_entry N cf name : cf_base cf <> [] -> ascii (cf_base cf) -> plain_name name -> In name N \/ name = metadata_name -> calm N (read_entry cf name).
Proof.
  intros Hb Ha Hp H. unfold read_entry. rewrite extract_exact by assumption. rewrite surplus_ascii by assumption. change (skipn (Z.to_nat 0) name) with name.
  destruct H as [H| ->].
  2:{ destruct (decode_chunk_dir metadata_name) as [[s e]|x|] eqn:Q; [|constructor..].
      exfalso. revert Q. vm_compute. discriminate. }
  destruct (decode_chunk_dir name) as [[s e]|x|]; [|constructor..].
  apply calm_qbind. { unfold read_config_from_dir. apply calm_bind; [apply calm_call; exact I|]. intros a. constructor. }
  intros o. apply calm_bind; [apply calm_call; exact I|]. intros now. apply calm_qbind.
  { destruct (cf_st cf); cbn [read_storage]; [|destruct (krun _ _); constructor]. apply calm_qbind; [apply calm_call; exact H|]. intros; constructor. }
  intros st. apply calm_qbind.
  { destruct (cf_ix cf); cbn [read_indexer]; [|destruct (krun _ _); constructor]. apply calm_qbind; [apply calm_call; exact H|]. intros; constructor. }
  intros ix. constructor.
Qed.
Lemma calm_forM N {A B} (p : A -> prog fcmd (res B)) l : (forall a, In a l -> calm N (p a)) -> calm N (forM p l).
Proof.
  induction l as [|a l IH]; intros H; cbn [forM]; [constructor|]. apply calm_qbind; [apply H; now left|]. intros b.
  apply calm_qbind; [apply IH; intros; apply H; now right|]. intros bs. constructor.
Qed.

(** ** stopping the creation of a chunk *)
Definition chunk_meta (n : nat) (o : chunk_opts) : option (option (file chunk_opts)) :=
  match n with 0 | 1 => None | 2 => Some None | 3 => Some (Some Empty) | _ => Some (Some (Written o)) end%nat.
Lemma create_crash cf start f n : f_faults f = [] -> 0 <= start -> 0 <= cf_size cf -> start + cf_size cf < 2 ^ 64 ->
  let name := encode_chunk_dir start (start + cf_size cf) in
  ~ In name (map fst (f_dirs f)) ->
  let g := snd (crash_at fhandler n (create_chunk cf start) f) in
  exists o, metas g = metas f ++ match chunk_meta n o with Some m => [(name, m)] | None => [] end /\
    f_meta g = f_meta f /\ same_env f g.
Proof.
  intros Hf H0 Hsz Hend name Hn g. subst g. exists (mkOpts start (start + cf_size cf) (f_uuid f (f_drawn f))). set (o := mkOpts _ _ _).
  destruct n as [|n]; [rewrite crash_0; cbn [snd chunk_meta]; rewrite app_nil_r; repeat split|].
  unfold create_chunk. rewrite (crash_call fhandler FUuid _ f _ _ n eq_refl).
  unfold arith_u, in_u. replace ((0 <=? start + cf_size cf) && (start + cf_size cf <? 2 ^ 64)) with true by lia.
  cbv zeta. fold name. fold o. destruct n as [|n]; [rewrite crash_0; cbn [snd chunk_meta]; rewrite app_nil_r; repeat split|].
  set (rest := fun w : res unit => match w with Ok _ => _ | Err _ => _ | Panic => _ end).
  set (f1 := draw f). assert (F1: f_faults f1 = []) by assumption. assert (N1: ~ In name (map fst (f_dirs f1))) by assumption.
  set (f2 := set_dirs f1 (f_dirs f1 ++ [(name, no_dir)])).
  set (f3 := set_dirs f2 (f_dirs f1 ++ [(name, mkCdir (Some Empty) None None)])).
  set (f4 := set_dirs f3 (f_dirs f1 ++ [(name, mkCdir (Some (Written o)) None None)])).
  assert (L2: last_dir f2 (f_dirs f1) name no_dir) by (repeat split; assumption).
  assert (L3: last_dir f3 (f_dirs f1) name (mkCdir (Some Empty) None None)) by (repeat split; assumption).
  assert (L4: last_dir f4 (f_dirs f1) name (mkCdir (Some (Written o)) None None)) by (repeat split; assumption).
  assert (E2: fhandler _ (FMkDir name) f1 = Some (Ok tt, f2)) by (apply fh_mkdir_new; assumption).
  assert (E3: fhandler _ (FCreateOpts name) f2 = Some (Ok tt, f3)) by (exact (fh_create _ _ _ _ L2)).
  assert (E4: fhandler _ (FWriteOpts name o) f3 = Some (Ok tt, f4)) by (exact (fh_write _ _ _ _ _ L3)).
  assert (X: forall k, crash_at fhandler (S (S (S k))) (bind (write_config_to_dir name o) rest) f1 = crash_at fhandler k (rest (Ok tt)) f4).
  { intros k. unfold write_config_to_dir, qbind, call. cbn [bind crash_at]. rewrite E2. cbn [bind crash_at]. rewrite E3. cbn [bind crash_at]. rewrite E4. reflexivity. }
  assert (X1: snd (crash_at fhandler 1 (bind (write_config_to_dir name o) rest) f1) = f2).
  { unfold write_config_to_dir, qbind, call. cbn [bind crash_at]. rewrite E2. try rewrite crash_0; reflexivity. }
  assert (X2: snd (crash_at fhandler 2 (bind (write_config_to_dir name o) rest) f1) = f3).
  { unfold write_config_to_dir, qbind, call. cbn [bind crash_at]. rewrite E2. cbn [bind crash_at]. rewrite E3. try rewrite crash_0; reflexivity. }
  assert (MM: forall h d, f_dirs h = f_dirs f1 ++ [(name, d)] -> metas h = metas f ++ [(name, cd_meta d)]).
  { intros h d E. unfold metas. rewrite E, map_app. reflexivity. }
  destruct n as [|n]; [rewrite X1; cbn [chunk_meta]; rewrite (MM f2 no_dir eq_refl); repeat split|].
  destruct n as [|n]; [rewrite X2; cbn [chunk_meta]; rewrite (MM f3 _ eq_refl); repeat split|].
  rewrite X. cbn [chunk_meta].
  assert (C: calm [name] (rest (Ok tt))).
  { subst rest. cbv beta iota. apply calm_qbind; [apply calm_build_st; now left|]. intros st. apply calm_qbind; [apply calm_build_ix; now left|]. intros ix. constructor. }
  destruct (calm_crash [name] _ C n f4 (proj1 L4)) as (Q1 & Q2 & Q3).
  { intros x [<-|[]]. cbn [f4 set_dirs f_dirs]. rewrite map_app. apply in_or_app. right. now left. }
  rewrite Q1, Q2, (MM f4 _ eq_refl). split; [reflexivity|]. split; [reflexivity|]. exact Q3.
Qed.

(** ** health, from the metadata *)
Lemma healthy_metas cf f : healthy cf f <-> (f_meta f = None \/ f_meta f = Some (Written (own_meta cf))) /\
  forall name m s e, In (name, m) (metas f) -> decode_chunk_dir name = Ok (s, e) -> exists o, m = Some (Written o).
Proof.
  unfold healthy, metas. split; intros (A & B); (split; [exact A|]).
  - intros name m s e Hin Hd. apply in_map_iff in Hin as ([n d] & E & Hin). cbn in E. assert (n = name) by congruence. subst n.
    destruct (B name d s e Hin Hd) as (o & Ho). exists o. congruence.
  - intros name d s e Hin Hd. apply (B name (cd_meta d) s e); [|assumption]. apply in_map_iff. exists (name, d). split; [reflexivity|assumption].
Qed.
Lemma crash_healthy cf f g name n o s e : healthy cf f -> decode_chunk_dir name = Ok (s, e) -> f_meta g = f_meta f ->
  metas g = metas f ++ match chunk_meta n o with Some m => [(name, m)] | None => [] end ->
  healthy cf g <-> (n <> 2 /\ n <> 3)%nat.
Proof.
  intros H D M E. rewrite healthy_metas in *. rewrite M, E. destruct H as (H1 & H2). split.
  - intros (_ & B). split; intros ->; cbn [chunk_meta] in B; destruct (B name _ s e ltac:(apply in_or_app; right; now left) D); discriminate.
  - intros (N2 & N3). split; [assumption|]. intros nm m s' e' Hin Hd. apply in_app_or in Hin as [Hin|Hin]; [eauto|].
    destruct n as [|[|[|[|n]]]]; cbn [chunk_meta] in Hin; try contradiction. destruct Hin as [K|[]]. exists o. congruence.
Qed.
Lemma env_same cf f g : open_env cf f -> same_env f g -> open_env cf g.
Proof.
  intros (He & Hb & Ha & Hsz & Hend) E. split; [eapply same_env_ok; eassumption|]. do 3 (split; [assumption|]). destruct E as (_ & -> & _). assumption.
Qed.
Lemma plain_metas f g : map fst (metas g) = map fst (metas f) -> plain_dir f -> plain_dir g.
Proof. unfold plain_dir, names_ok. rewrite !metas_names. intros ->. auto. Qed.
Lemma plain_add f g name x : ~ In name (map fst (f_dirs f)) -> plain_name name -> name <> metadata_name ->
  metas g = metas f ++ match x with Some m => [(name, m)] | None => [] end -> plain_dir f -> plain_dir g.
Proof.
  intros Hn Hp Hm E ((H1 & H2) & H3). unfold plain_dir, names_ok. rewrite !metas_names in *. rewrite E, map_app.
  destruct x as [m|]; cbn [map fst]; [|rewrite app_nil_r; auto]. split; [split|].
  - eapply Permutation_NoDup; [apply Permutation_cons_append|]. constructor; assumption.
  - apply Forall_app. split; [assumption|]. repeat constructor. assumption.
  - intros K. apply in_app_or in K as [K|[K|[]]]; [contradiction|congruence].
Qed.
Lemma encode_not_metadata s e : u64 s -> u64 e -> encode_chunk_dir s e <> metadata_name.
Proof. intros Hs He E. pose proof (decode_encode s e Hs He) as D. rewrite E in D. revert D. vm_compute. discriminate. Qed.

(* opening says whether the directory is healthy *)
Lemma open_ok_iff cf f : open_env cf f -> plain_dir f -> (exists w, db_open cf f = Some (Ok tt, w)) <-> healthy cf f.
Proof.
  intros He (Hok & Nm). destruct (open_iff cf f He Hok Nm) as (r & w & E & Hr & _). split.
  - intros (w' & E'). apply Hr. congruence.
  - intros H. apply Hr in H. subst r. eauto.
Qed.

Lemma tail_crash cf now (old : list dchunk) f n : f_faults f = [] -> 0 <= now -> 0 <= cf_size cf -> now + cf_size cf < 2 ^ 64 ->
  let name := encode_chunk_dir now (now + cf_size cf) in
  ~ In name (map fst (f_dirs f)) ->
  let g := snd (crash_at fhandler n (let? cur := create_chunk cf now in Ret (Ok (old, cur))) f) in
  exists o, metas g = metas f ++ match chunk_meta n o with Some m => [(name, m)] | None => [] end /\
    f_meta g = f_meta f /\ same_env f g.
Proof.
  intros Hf H0 Hsz Hend name N3. cbv zeta. destruct (create_ok cf now f Hf H0 Hsz Hend) as (d & f4 & E4).
  destruct (create_crash cf now f n Hf H0 Hsz Hend N3) as (o & C). exists o.
  destruct (Nat.le_gt_cases n (cost fhandler (create_chunk cf now) f)) as [L|L].
  - unfold qbind. rewrite crash_before by assumption. exact C.
  - rewrite (crash_end fhandler _ _ _ _ E4 n) in C by lia.
    unfold qbind. rewrite (crash_end fhandler _ f (Ok (old, d)) f4); [exact C| |].
    + rewrite run_bind, E4. reflexivity.
    + assert (Z0: forall (p : prog fcmd (res dchunk)) w, cost fhandler (bind p (fun r => match r with Ok a => Ret (Ok (old, a)) | Err e => Ret (Err e) | Panic => Ret Panic end)) w = cost fhandler p w).
      { induction p as [a|X c q IH]; intros w; [destruct a; reflexivity|]. cbn [bind cost]. destruct (fhandler X c w) as [[x w']|]; [|reflexivity]. now rewrite IH. }
      rewrite Z0. lia.
Qed.

(** ** the first opening *)
Theorem crash_new cf f n : open_env cf f -> empty_dir f ->
  let g := snd (crash_at fhandler n (db_new cf) f) in
  open_env cf g /\ plain_dir g /\ (healthy cf g <-> n <> 2 /\ n <> 7 /\ n <> 8)%nat.
Proof.
  intros He (M & DD). pose proof He as ((Hord & Huid & Hclk & Hf) & Hb & Ha & Hsz & Hend).
  assert (P0: forall g, metas g = [] -> plain_dir g).
  { intros g E. unfold plain_dir, names_ok. rewrite !metas_names, E. split; [split; constructor|intros []]. }
  assert (M0: metas f = []) by (unfold metas; now rewrite DD).
  assert (G0: forall g, metas g = [] -> (healthy cf g <-> f_meta g = None \/ f_meta g = Some (Written (own_meta cf)))).
  { intros g E. rewrite healthy_metas, E. split; [intros (K & _); exact K|]. intros K. split; [exact K|]. intros ? ? ? ? []. }
  set (f1 := set_fmeta f (Some Empty)). set (f2 := set_fmeta f1 (Some (Written (own_meta cf)))).
  assert (E0: fhandler _ FReadMeta f = Some (None, f)) by (cbn [fhandler]; rewrite Hf; cbn [hd]; rewrite no_fault, M by assumption; reflexivity).
  assert (E1: fhandler _ FCreateMeta f = Some (Ok tt, f1)) by (cbn [fhandler]; rewrite Hf; cbn [hd]; rewrite no_fault by assumption; reflexivity).
  assert (E2: fhandler _ (FWriteMeta (own_meta cf)) f1 = Some (Ok tt, f2)).
  { cbn [fhandler]. change (f_faults f1) with (f_faults f). rewrite Hf. cbn [hd]. rewrite no_fault by assumption. reflexivity. }
  assert (E3: fhandler _ FReadDir f2 = Some (Ok (f_order f2 (entries f2)), f2)).
  { cbn [fhandler]. change (f_faults f2) with (f_faults f). rewrite Hf. cbn [hd]. rewrite no_fault by assumption. reflexivity. }
  assert (X: forall k, crash_at fhandler (S (S (S k))) (db_new cf) f =
    crash_at fhandler k (let? old := read_existing_chunk cf in let! now := call FClock in let? cur := create_chunk cf now in Ret (Ok (old, cur))) f2).
  { intros k. unfold db_new, read_or_create_metadata, qbind, call. cbn [bind crash_at]. rewrite E0. cbn [bind crash_at]. rewrite E1.
    cbn [bind crash_at]. rewrite E2. reflexivity. }
  assert (X1: snd (crash_at fhandler 1 (db_new cf) f) = f).
  { unfold db_new, read_or_create_metadata, qbind, call. cbn [bind crash_at]. rewrite E0. reflexivity. }
  assert (X2: snd (crash_at fhandler 2 (db_new cf) f) = f1).
  { unfold db_new, read_or_create_metadata, qbind, call. cbn [bind crash_at]. rewrite E0. cbn [bind crash_at]. rewrite E1. reflexivity. }
  cbv zeta. destruct n as [|n].
  { rewrite crash_0. cbn [snd]. split; [assumption|]. split; [now apply P0|]. rewrite G0 by assumption. intuition lia. }
  destruct n as [|n]. { rewrite X1. split; [assumption|]. split; [now apply P0|]. rewrite G0 by assumption. intuition lia. }
  destruct n as [|n].
  { rewrite X2. split; [exact He|]. split; [now apply P0|]. rewrite G0 by assumption. split; [intros [K|K]; discriminate K|lia]. }
  rewrite X. clear X X1 X2 E0 E1 E2.
  assert (He2: open_env cf f2) by exact He. assert (M2: metas f2 = []) by exact M0.
  destruct n as [|n]. { rewrite crash_0. cbn [snd]. split; [assumption|]. split; [now apply P0|]. rewrite G0 by assumption. cbn [f2 set_fmeta f_meta]. intuition lia. }
  assert (Q: f_order f2 (entries f2) = [metadata_name]).
  { assert (P: Permutation (f_order f2 (entries f2)) [metadata_name]).
    { eapply perm_trans; [apply Hord|]. unfold entries. cbn [f2 f1 set_fmeta f_meta f_dirs]. rewrite DD. apply Permutation_refl. }
    apply Permutation_sym, Permutation_length_1_inv in P. exact P. }
  assert (R: exists r, forM (read_entry cf) [metadata_name] = Ret (Ok r)).
  { cbn [forM]. unfold read_entry. rewrite extract_exact by (assumption || apply metadata_plain). rewrite surplus_ascii by assumption.
    change (skipn (Z.to_nat 0) metadata_name) with metadata_name. destruct (decode_chunk_dir metadata_name) as [[s e]|x|] eqn:D; [exfalso; revert D; vm_compute; discriminate|..]; eexists; reflexivity. }
  destruct R as (r & R).
  assert (Y: exists old, forall k, crash_at fhandler (S k) (let? old := read_existing_chunk cf in let! now := call FClock in let? cur := create_chunk cf now in Ret (Ok (old, cur))) f2 =
    crash_at fhandler k (let! now := call FClock in let? cur := create_chunk cf now in Ret (Ok (old, cur))) f2).
  { eexists. intros k. unfold read_existing_chunk, qbind, call. cbn [bind crash_at]. rewrite E3. cbn [bind]. rewrite Q, R. cbn [bind]. reflexivity. }
  destruct Y as (old & Y). rewrite Y. destruct n as [|n].
  { rewrite crash_0. cbn [snd]. split; [assumption|]. split; [now apply P0|]. rewrite G0 by assumption. cbn [f2 set_fmeta f_meta]. intuition lia. }
  rewrite (crash_call fhandler FClock _ f2 _ _ n eq_refl). set (now := f_clock f2 (f_ticks f2)). set (f3 := tick f2).
  assert (U: 0 <= now /\ now + cf_size cf < 2 ^ 64) by (split; [apply Hclk|apply Hend]).
  assert (N3: ~ In (encode_chunk_dir now (now + cf_size cf)) (map fst (f_dirs f3))) by (cbn [f3 f2 f1 tick set_fmeta f_dirs]; rewrite DD; intros []).
  destruct (tail_crash cf now old f3 n Hf (proj1 U) Hsz (proj2 U) N3) as (o & C1 & C2 & C3). cbv zeta in C1, C2, C3. set (g := snd _) in *.
  assert (Hen: u64 now /\ u64 (now + cf_size cf)) by (unfold u64; lia). destruct Hen as (Hn1 & Hn2).
  split; [apply (env_same cf f2 g He2); exact C3|]. split.
  { eapply plain_add; [exact N3|apply hex_plain; lia|apply encode_not_metadata; assumption|exact C1|apply P0; exact M0]. }
  assert (H3: healthy cf f3) by (apply G0; [exact M0|now right]).
  rewrite (crash_healthy cf f3 g _ n o now (now + cf_size cf) H3 (decode_encode _ _ Hn1 Hn2) C2 C1). lia.
Qed.

Lemma run_ticks {A} (p : prog fcmd A) : forall f a g, run fhandler p f = Some (a, g) -> (f_ticks f <= f_ticks g)%nat.
Proof.
  induction p as [a|X c k IH]; intros f b g H; cbn [run] in H; [assert (g = f) by congruence; subst; lia|].
  destruct (fhandler X c f) as [[x f1]|] eqn:E; [|discriminate]. apply IH in H. enough (f_ticks f <= f_ticks f1)%nat by lia. clear - E.
  assert (N: f_ticks (next_fault f) = f_ticks f) by (destruct f as [? ? ? ? ? ? ? [|]]; reflexivity).
  destruct c; cbn [fhandler] in E; try destruct (hd false (f_faults f));
    match type of E with Some ?a = Some ?b => assert (Q: snd b = snd a) by congruence end; cbn [snd] in Q; subst f1;
    cbn [tick draw set_dirs set_fmeta f_ticks]; try rewrite N; lia.
Qed.

(** ** a later opening *)
Theorem crash_reopen cf f : open_env cf f -> plain_dir f -> healthy cf f -> f_meta f <> None ->
  (forall i, (f_ticks f <= i)%nat -> ~ In (encode_chunk_dir (f_clock f i) (f_clock f i + cf_size cf)) (map fst (f_dirs f))) ->
  exists k, forall n, let g := snd (crash_at fhandler n (db_new cf) f) in
    open_env cf g /\ plain_dir g /\ (healthy cf g <-> n <> k + 1 /\ n <> k + 2)%nat.
Proof.
  intros He Hp Hh Hm Fresh. pose proof He as ((Hord & Huid & Hclk & Hf) & Hb & Ha & Hsz & Hend).
  assert (Em: f_meta f = Some (Written (own_meta cf))) by (destruct (proj1 Hh); [contradiction|assumption]).
  assert (E0: fhandler _ FReadMeta f = Some (f_meta f, f)) by (cbn [fhandler]; rewrite Hf; cbn [hd]; rewrite no_fault by assumption; reflexivity).
  assert (X: forall k, crash_at fhandler (S k) (db_new cf) f =
    crash_at fhandler k (let? old := read_existing_chunk cf in let! now := call FClock in let? cur := create_chunk cf now in Ret (Ok (old, cur))) f).
  { intros k. unfold db_new, read_or_create_metadata, qbind, call. cbn [bind crash_at]. rewrite E0, Em. rewrite !bytes_eqb_refl. reflexivity. }
  assert (Like: forall g, meta_like f g -> open_env cf g /\ plain_dir g /\ healthy cf g).
  { intros g (L1 & L2 & L3). split; [eapply env_same; eassumption|]. split; [apply (plain_metas f); [now rewrite L1|assumption]|].
    rewrite healthy_metas in *. now rewrite L1, L2. }
  set (names := f_order f (entries f)).
  assert (E1: fhandler _ FReadDir f = Some (Ok names, f)) by (cbn [fhandler]; rewrite Hf; cbn [hd]; rewrite no_fault by assumption; reflexivity).
  destruct Hp as (Hok & Nm).
  assert (Hin: forall x, In x names -> x = metadata_name \/ In x (map fst (f_dirs f))).
  { intros x Hx. apply (Permutation_in _ (Hord _)) in Hx. unfold entries in Hx. apply in_app_or in Hx as [Hx|Hx]; [|now right].
    destruct (f_meta f); [|destruct Hx]. destruct Hx as [<-|[]]. now left. }
  assert (Calm: calm (map fst (f_dirs f)) (forM (read_entry cf) names)).
  { apply calm_forM. intros x Hx. destruct (Hin x Hx) as [->|Hx'].
    - apply calm_read_entry; auto. apply metadata_plain.
    - apply calm_read_entry; auto. destruct Hok as (_ & PL). rewrite Forall_forall in PL. auto. }
  assert (Pre: forall n, meta_like f (snd (crash_at fhandler n (read_existing_chunk cf) f))).
  { intros [|n]; [rewrite crash_0; apply meta_refl|]. unfold read_existing_chunk. rewrite (crash_qcall fhandler FReadDir _ f names f n E1).
    apply (calm_crash (map fst (f_dirs f))); [|assumption|apply incl_refl]. apply calm_qbind; [exact Calm|]. intros; constructor. }
  destruct (forM_iff cf names Hb Ha f Hf Hok Hin) as [I1 _]. destruct I1 as (rs & g1 & R1 & L1).
  { intros x Hx Nx. destruct (Hin x Hx) as [|Hx']; [contradiction|]. revert x Hx' Nx Hx. intros x Hx' _ _. 
    apply (proj2 (good_healthy f (proj1 Hok)) (proj2 Hh)). assumption. }
  assert (R: exists old, run fhandler (read_existing_chunk cf) f = Some (Ok old, g1)).
  { unfold read_existing_chunk. rewrite run_qbind, run_call, E1. rewrite run_qbind, R1. cbn [run]. eauto. }
  destruct R as (old & R). set (K := cost fhandler (read_existing_chunk cf) f). exists (K + 3)%nat. intros n. cbv zeta.
  destruct n as [|n]. { rewrite crash_0. cbn [snd]. destruct (Like f (meta_refl f)) as (A & B & C). split; [assumption|]. split; [assumption|]. split; [lia|intros _; exact C]. }
  rewrite X. destruct (Nat.le_gt_cases n K) as [L|L].
  { rewrite crash_qbefore by assumption. destruct (Like _ (Pre n)) as (A & B & C). split; [exact A|]. split; [exact B|]. split; [lia|intros _; exact C]. }
  remember (n - K)%nat as j0 eqn:Ej. assert (n = K + j0)%nat as -> by lia. unfold K at 1 2 3. rewrite (crash_qafter fhandler _ _ f _ _ R). fold K.
  destruct j0 as [|j]; [lia|]. rewrite (crash_call fhandler FClock _ g1 _ _ j eq_refl).
  set (now := f_clock g1 (f_ticks g1)). set (f3 := tick g1).
  assert (L3: meta_like f f3) by exact L1. destruct (Like f3 L3) as (A3 & B3 & C3).
  assert (Ecl: f_clock g1 = f_clock f) by apply L1.
  assert (U: 0 <= now /\ now + cf_size cf < 2 ^ 64) by (unfold now; rewrite Ecl; split; [apply Hclk|apply Hend]).
  assert (N3: ~ In (encode_chunk_dir now (now + cf_size cf)) (map fst (f_dirs f3))).
  { rewrite (like_names _ _ L3). unfold now. rewrite Ecl. apply Fresh. exact (run_ticks _ _ _ _ R). }
  destruct (tail_crash cf now old f3 j (like_faults _ _ L3 Hf) (proj1 U) Hsz (proj2 U) N3) as (o & C4 & C5 & C6). cbv zeta in C4, C5, C6. set (g := snd _) in *.
  assert (Hen: u64 now /\ u64 (now + cf_size cf)) by (unfold u64; lia). destruct Hen as (Hn1 & Hn2).
  split; [exact (env_same cf f3 g A3 C6)|]. split.
  { eapply plain_add; [exact N3|apply hex_plain; lia|apply encode_not_metadata; assumption|exact C4|exact B3]. }
  rewrite (crash_healthy cf f3 g _ j o now (now + cf_size cf) C3 (decode_encode _ _ Hn1 Hn2) C5 C4). lia.
Qed.

(** ** a swap *)
Inductive nofs {A} : prog dcmd A -> Prop :=
| nofs_ret a : nofs (Ret a)
| nofs_do X (c : dcmd X) k : match c with DF _ => False | _ => True end -> (forall x, nofs (k x)) -> nofs (Do c k).
Lemma nofs_bind {A B} (p : prog dcmd A) (k : A -> prog dcmd B) : nofs p -> (forall a, nofs (k a)) -> nofs (bind p k).
Proof. induction 1 as [a|X c q Q H IH]; intros K; cbn [bind]; [apply K|]. constructor; [assumption|]. intros x. now apply IH. Qed.
Lemma nofs_call {X} (c : dcmd X) : match c with DF _ => False | _ => True end -> nofs (call c).
Proof. intros H. constructor; [assumption|]. intros x. constructor. Qed.
Lemma nofs_lift {A} i (p : prog ccmd A) : nofs (lift (fun X c => @DC X i c) p).
Proof. induction p as [a|X c k IH]; cbn [lift]; constructor; [exact I|]. exact IH. Qed.
Lemma nofs_crash {A} (p : prog dcmd A) : nofs p -> forall n w, d_fs (snd (crash_at dhandler n p w)) = d_fs w.
Proof.
  induction 1 as [a|X c k Q H IH]; intros [|n] w; try reflexivity. cbn [crash_at]. destruct (dhandler X c w) as [[x w']|] eqn:E; [|reflexivity].
  rewrite IH. destruct c; cbn [dhandler] in E; try contradiction;
    repeat match type of E with context [match ?x with _ => _ end] => destruct x; try discriminate E end;
    match type of E with Some (_, ?a) = Some (_, ?b) => assert (a = b) as <- by congruence end; reflexivity.
Qed.
Lemma crash_lift {A} (p : prog fcmd A) : forall n w,
  snd (crash_at dhandler n (lift (@DF) p) w) = set_fs w (snd (crash_at fhandler n p (d_fs w))).
Proof.
  induction p as [a|X c k IH]; intros [|n] w; try (destruct w; reflexivity). cbn [lift crash_at dhandler].
  destruct (fhandler X c (d_fs w)) as [[x f']|] eqn:E; [|destruct w; reflexivity]. rewrite IH. reflexivity.
Qed.
Lemma cost_lift {A} (p : prog fcmd A) : forall w, cost dhandler (lift (@DF) p) w = cost fhandler p (d_fs w).
Proof.
  induction p as [a|X c k IH]; intros w; [reflexivity|]. cbn [lift cost dhandler].
  destruct (fhandler X c (d_fs w)) as [[x f']|] eqn:E; [|reflexivity]. now rewrite IH.
Qed.
Lemma run_lift_fs {A} (p : prog fcmd A) : forall w a f', run fhandler p (d_fs w) = Some (a, f') -> run dhandler (lift (@DF) p) w = Some (a, set_fs w f').
Proof.
  induction p as [a|X c k IH]; intros w b f' H; cbn [run] in H.
  - assert (b = a) by congruence. assert (f' = d_fs w) by congruence. subst. cbn [lift run]. destruct w; reflexivity.
  - cbn [lift run dhandler]. destruct (fhandler X c (d_fs w)) as [[x f1]|]; [|discriminate]. rewrite (IH x (set_fs w f1) b f'); [reflexivity|exact H].
Qed.
Lemma swap_fs cf start w d f' n : run fhandler (create_chunk cf start) (d_fs w) = Some (Ok d, f') ->
  d_fs (snd (crash_at dhandler n (db_swap cf start) w)) = snd (crash_at fhandler n (create_chunk cf start) (d_fs w)).
Proof.
  intros R. unfold db_swap, qbind at 1. set (p := lift (@DF) (create_chunk cf start)).
  destruct (Nat.le_gt_cases n (cost dhandler p w)) as [L|L].
  - rewrite crash_before by assumption. unfold p. now rewrite crash_lift.
  - replace n with (cost dhandler p w + (n - cost dhandler p w))%nat at 1 by lia.
    unfold p. rewrite (crash_after dhandler _ _ w _ _ (run_lift_fs _ w _ _ R)). cbv beta iota. fold p.
    rewrite (crash_end fhandler _ _ _ _ R n) by (unfold p in L; rewrite cost_lift in L; lia).
    rewrite nofs_crash; [reflexivity|].
    apply nofs_bind; [apply nofs_call; exact I|]. intros new. unfold qbind. apply nofs_bind.
    { unfold with_current. apply nofs_bind; [apply nofs_call; exact I|]. intros (ps & i & ch). destruct ps.
      - apply nofs_bind; [apply nofs_call; exact I|]. intros; constructor.
      - apply nofs_bind.
        + apply nofs_bind; [apply nofs_call; exact I|]. intros [|]; (apply nofs_bind; [apply nofs_call; exact I|]); intros; [constructor|].
          apply nofs_bind; [apply nofs_call; exact I|]. intros; constructor.
        + intros r. apply nofs_bind; [apply nofs_call; exact I|]. intros; constructor. }
    intros [a|e|]; [|constructor..]. apply nofs_bind; [apply nofs_call; exact I|]. intros (ps & i & ch). destruct ps.
    + apply nofs_bind; [apply nofs_call; exact I|]. intros; constructor.
    + apply nofs_bind; [apply nofs_lift|]. intros [a'|e|]; (apply nofs_bind; [apply nofs_call; exact I|]); intros; [|constructor..].
      apply nofs_bind; [apply nofs_call; exact I|]. intros; constructor.
Qed.
Lemma stopped_metas cf w : metas (stopped cf w) = metas (d_fs w) /\ f_meta (stopped cf w) = f_meta (d_fs w) /\ same_env (d_fs w) (stopped cf w).
Proof.
  unfold stopped, left_behind. split; [|repeat split]. unfold metas. cbn [set_dirs f_dirs]. rewrite map_map. apply map_ext. intros e.
  destruct (find _ _); reflexivity.
Qed.
Theorem crash_swap cf w start n : open_env cf (d_fs w) -> plain_dir (d_fs w) -> healthy cf (d_fs w) ->
  0 <= start -> start + cf_size cf < 2 ^ 64 ->
  ~ In (encode_chunk_dir start (start + cf_size cf)) (map fst (f_dirs (d_fs w))) ->
  let g := stopped cf (snd (crash_at dhandler n (db_swap cf start) w)) in
  open_env cf g /\ plain_dir g /\ (healthy cf g <-> n <> 2 /\ n <> 3)%nat.
Proof.
  intros He Hp Hh H0 Hend Hn. pose proof He as ((Hord & Huid & Hclk & Hf) & Hb & Ha & Hsz & Hcl). cbv zeta.
  destruct (stopped_metas cf (snd (crash_at dhandler n (db_swap cf start) w))) as (S1 & S2 & S3).
  destruct (create_ok cf start (d_fs w) Hf H0 Hsz Hend) as (d & f' & R). rewrite (swap_fs cf start w d f' n R) in S1, S2, S3.
  destruct (create_crash cf start (d_fs w) n Hf H0 Hsz Hend Hn) as (o & C1 & C2 & C3). set (g := stopped _ _) in *.
  assert (Hen: u64 start /\ u64 (start + cf_size cf)) by (unfold u64; lia). destruct Hen as (Hn1 & Hn2).
  split; [eapply env_same; [exact He|eapply same_env_trans; eassumption]|]. rewrite C1 in S1. rewrite C2 in S2. split.
  { eapply plain_add; [exact Hn|apply hex_plain; lia|apply encode_not_metadata; assumption|exact S1|exact Hp]. }
  exact (crash_healthy cf (d_fs w) g _ n o start (start + cf_size cf) Hh (decode_encode _ _ Hn1 Hn2) S2 S1).
Qed.

Lemma F2_in_l {A B} (R : A -> B -> Prop) l l' x : Forall2 R l l' -> In x l -> exists y, In y l' /\ R x y.
Proof. induction 1 as [|a b l l' H F IH]; intros Hin; [destruct Hin|]. destruct Hin as [->|Hin]; [exists b; split; [now left|assumption]|].
  destruct (IH Hin) as (y & ? & ?). exists y. split; [now right|assumption]. Qed.
(* a running database *)
Lemma state_healthy cf w l : state cf w l -> plain_dir (d_fs w) /\ healthy cf (d_fs w) /\ f_meta (d_fs w) <> None.
Proof.
  intros (l0 & c & A & h0 & d & -> & [H1 H2 H3 H4 H5 H6 H7 H8 H9 H10 H11 H12]).
  assert (N: NoDup (map fst (f_dirs (d_fs w)))).
  { rewrite (F2_fst _ dc_name _ _ (fun e d H => proj1 H) H11). exact (names_distinct cf _ _ H11 H12). }
  assert (D: forall n m, In (n, m) (f_dirs (d_fs w)) -> (exists s e, u64 s /\ u64 e /\ n = encode_chunk_dir s e) /\ exists o, cd_meta m = Some (Written o)).
  { intros n m Hin. destruct (F2_in_l _ _ _ _ H11 Hin) as (x & _ & (E1 & (o & st & ix & E2) & E3 & (en & E4 & E5 & _) & _)). cbn [fst snd] in *.
    split; [exists (c_start (dc_chunk x)), en; repeat split; try apply E3; try apply E4; congruence|]. exists o. rewrite E2. reflexivity. }
  split; [split; [split; [assumption|]|]|split; [split|]].
  - apply Forall_forall. intros n Hn. apply in_map_iff in Hn as ([n' m] & <- & Hin). destruct (D _ _ Hin) as ((s & e & Hs & He & ->) & _). cbn [fst]. apply hex_plain; [apply Hs|apply He].
  - intros Hn. apply in_map_iff in Hn as ([n' m] & E & Hin). cbn [fst] in E. destruct (D _ _ Hin) as ((s & e & Hs & He & Q) & _). subst n'.
    apply (encode_not_metadata s e Hs He). congruence.
  - right. assumption.
  - intros n m s e Hin _. apply (D n m Hin).
  - rewrite H10. discriminate.
Qed.

(** ** crashes after a history *)
Lemma attempts_of cf g m : open_env cf g -> plain_dir g -> ~ healthy cf g -> exists g', attempts m cf g = Some g'.
Proof. intros He (H1 & H2) B. now apply open_never. Qed.

Theorem new_crash_points cf f n : open_env cf f -> empty_dir f ->
  let g := snd (crash_at fhandler n (db_new cf) f) in
  ((exists w, db_open cf g = Some (Ok tt, w)) <-> ~ In n [2; 7; 8]%nat) /\
  (In n [2; 7; 8]%nat -> forall m, exists g', attempts m cf g = Some g').
Proof.
  intros He Hd. cbv zeta. destruct (crash_new cf f n He Hd) as (A & B & C). split.
  - rewrite (open_ok_iff cf _ A B), C. cbn [In]. intuition lia.
  - intros Hn m. apply attempts_of; [assumption..|]. rewrite C. cbn [In] in Hn. intuition lia.
Qed.

Lemma ops_split cf t0 ops st : ops_ok cf t0 (ops ++ [OpSwap st]) ->
  ops_ok cf t0 ops /\ last_start t0 ops < st /\ st + cf_size cf < 2 ^ 64.
Proof.
  intros (K1 & K2 & K3 & K4 & K5 & K6 & K7).
  assert (W: written (ops ++ [OpSwap st]) = written ops).
  { clear. induction ops as [|[? ?|? ?|?] ops IH]; cbn [app written]; [reflexivity|now rewrite IH..]. }
  rewrite W in *.
  assert (K8: starts_ok cf t0 ops /\ last_start t0 ops < st /\ st + cf_size cf < 2 ^ 64).
  { clear - K5. revert K5. generalize t0. induction ops as [|[? ?|? ?|?] ops IH]; intros t; cbn [app starts_ok last_start]; [tauto|auto|auto|].
    intros (A & B & C). destruct (IH _ C) as (D & E & F). auto. }
  destruct K8 as (K8 & K9 & K10). split; [|split; assumption]. repeat split; assumption.
Qed.
Lemma state_fresh cf w l st en : state cf w l -> u64 st -> u64 en -> (forall c, In c l -> c_start (fst c) < st) ->
  ~ In (encode_chunk_dir st en) (map fst (f_dirs (d_fs w))).
Proof.
  intros (l0 & c & A & h0 & d & -> & [H1 H2 H3 H4 H5 H6 H7 H8 H9 H10 H11 H12]) Hs He Hl Hin.
  apply in_map_iff in Hin as ([n m] & E & Hin). cbn [fst] in E. subst n.
  destruct (F2_in_l _ _ _ _ H11 Hin) as (x & Hx & (E1 & _ & E3 & (en' & E4 & E5 & _) & _)). cbn [fst] in E1.
  rewrite E5 in E1. apply encode_inj in E1; [|assumption..]. destruct E1 as [E1 _].
  assert (HR: hrel (h0 ++ [d]) (l0 ++ [(c, A)])).
  { apply Forall2_app; [assumption|]. constructor; [|constructor]. split; [exact H7|]. now apply crep_crd. }
  destruct (F2_in_l _ _ _ _ HR Hx) as (y & Hy & ((_ & E6 & _) & _)). specialize (Hl y Hy). lia.
Qed.

Theorem swap_crash_points cf f ops st n : open_env cf f -> empty_dir f ->
  let t0 := f_clock f (f_ticks f) in
  ops_ok cf t0 (ops ++ [OpSwap st]) ->
  exists rs w, db_after cf f ops = Some (rs, w) /\
    let g := stopped cf (snd (crash_at dhandler n (db_swap cf st) w)) in
    ((exists w', db_open cf g = Some (Ok tt, w')) <-> ~ In n [2; 3]%nat) /\
    (In n [2; 3]%nat -> forall m, exists g', attempts m cf g = Some g').
Proof.
  intros He Hd t0 Ho. destruct (ops_split _ _ _ _ Ho) as (Ho' & Hst & Hend). pose proof He as (Henv & Hb & Ha & Hsz & Hcl).
  pose proof Ho' as (_ & H0 & _ & Hend0 & Hs & Hw & HL).
  destruct (open_run cf f Henv Hd Hb Hsz Hend0) as (w0 & E0 & S0 & T0 & N0 & _). fold t0 in S0.
  destruct (hist_from cf ops Hsz t0 [] w0 [] S0 Hs Hw HL) as (w & E & St & T & N). cbn [app] in St.
  exists (outcomes cf t0 ops), w. split; [unfold db_after; rewrite E0; exact E|]. cbv zeta.
  destruct (state_healthy _ _ _ St) as (P1 & P2 & _).
  assert (He': open_env cf (d_fs w)) by (apply (env_same cf f); [assumption|eapply same_env_trans; eassumption]).
  assert (G: 0 <= last_start t0 ops) by (pose proof (last_start_ge _ _ _ Hs); lia).
  destruct (crash_swap cf w st n He' P1 P2) as (A & B & C).
  { lia. } { assumption. }
  { apply (state_fresh cf w (parts cf t0 ops)); [assumption|unfold u64; lia|unfold u64; lia|].
    intros c Hc. pose proof (starts_bound cf ops t0 [] c Hs Hc). lia. }
  split.
  - rewrite (open_ok_iff cf _ A B), C. cbn [In]. intuition lia.
  - intros Hn m. apply attempts_of; [assumption..|]. rewrite C. cbn [In] in Hn. intuition lia.
Qed.

Theorem reopen_crash_points cf f ops : open_env cf f -> empty_dir f ->
  let t0 := f_clock f (f_ticks f) in
  ops_ok cf t0 ops -> (forall i, (f_ticks f < i)%nat -> last_start t0 ops < f_clock f i) ->
  exists rs w k, db_after cf f ops = Some (rs, w) /\ forall n,
    let g := snd (crash_at fhandler n (db_new cf) (stopped cf w)) in
    ((exists w', db_open cf g = Some (Ok tt, w')) <-> ~ In n [k + 1; k + 2]%nat) /\
    (In n [k + 1; k + 2]%nat -> forall m, exists g', attempts m cf g = Some g').
Proof.
  intros He Hd t0 Ho Hclk. pose proof He as (Henv & Hb & Ha & Hsz & Hcl).
  pose proof Ho as (_ & H0 & _ & Hend0 & Hs & Hw & HL).
  destruct (open_run cf f Henv Hd Hb Hsz Hend0) as (w0 & E0 & S0 & T0 & N0 & _). fold t0 in S0.
  destruct (hist_from cf ops Hsz t0 [] w0 [] S0 Hs Hw HL) as (w & E & St & T & N). cbn [app] in St.
  destruct (state_healthy _ _ _ St) as (P1 & P2 & P3). destruct (stopped_metas cf w) as (Q1 & Q2 & Q3).
  assert (Ec: f_clock (stopped cf w) = f_clock f).
  { destruct Q3 as (_ & -> & _), N as (_ & -> & _), N0 as (_ & -> & _). reflexivity. }
  assert (Et: f_ticks (stopped cf w) = S (f_ticks f)) by (change (f_ticks (stopped cf w)) with (f_ticks (d_fs w)); congruence).
  assert (G: 0 <= last_start t0 ops) by (pose proof (last_start_ge _ _ _ Hs); lia).
  destruct (crash_reopen cf (stopped cf w)) as (k & K).
  - apply (env_same cf f); [assumption|]. eapply same_env_trans; [eapply same_env_trans; eassumption|assumption].
  - apply (plain_metas (d_fs w)); [now rewrite Q1|assumption].
  - rewrite healthy_metas in *. now rewrite Q1, Q2.
  - now rewrite Q2.
  - rewrite Ec, Et. intros i Hi. rewrite metas_names, Q1, <- metas_names. pose proof (Hcl i). specialize (Hclk i ltac:(lia)).
    apply (state_fresh cf w (parts cf t0 ops)); [assumption|unfold u64; lia|unfold u64; lia|].
    intros c Hc. pose proof (starts_bound cf ops t0 [] c Hs Hc). lia.
  - exists (outcomes cf t0 ops), w, k. split; [unfold db_after; rewrite E0; exact E|]. intros n. cbv zeta. destruct (K n) as (A & B & C). split.
    + rewrite (open_ok_iff cf _ A B), C. cbn [In]. intuition lia.
    + intros Hn m. apply attempts_of; [assumption..|]. rewrite C. cbn [In] in Hn. intuition lia.
Qed.
