(* Proofs: chunks over a shared TiKV; identifiers; poisoning; dropped writes. *)
From Coq Require Import ZifyBool ZifyNat Permutation.
From Verif Require Import Rust StringProofs BitsProofs Prog Gorilla GorillaSpec Storage StorageSpec StorageProofs Labels IndexSpec Indexer
  LabelProofs IndexProofs Chunk ChunkSpec ChunkProofs ChunkFacts TiKvInit TiKvShared TiKvSpec.

(** ** identifiers *)
Lemma nil_len : length nil_uuid = 16%nat.
Proof. reflexivity. Qed.

Lemma low16_app a b : length a = 16%nat -> low16 (a ++ b) = Ok a.
Proof.
  intros L. unfold low16. rewrite app_length, L. replace (16 <=? 16 + length b)%nat with true by lia.
  rewrite <- L, firstn_app, Nat.sub_diag, firstn_all. cbn [firstn]. now rewrite app_nil_r.
Qed.
Lemma high16_app a b : length a = 16%nat -> high16 (a ++ b) = Ok b.
Proof.
  intros L. unfold high16. rewrite app_length, L. replace (16 <=? 16 + length b)%nat with true by lia.
  rewrite <- L, skipn_app, Nat.sub_diag, skipn_all. reflexivity.
Qed.

Theorem ids_new s cid u1 u2 lo hi : kv_get s cid = None -> length u1 = 16%nat -> length u2 = 16%nat ->
  exists s', krun (tikv_chunk_new cid u1 u2 lo hi) s = (Ok (mkChunk (TiKvStorage []) (TiKvIndexer (u2 ++ nil_uuid)) lo hi), s') /\
    (forall k, k <> cid -> kv_get s' k = kv_get s k) /\
    forall lo' hi', krun (tikv_chunk_open cid lo' hi') s' = (Ok (Some (mkChunk (TiKvStorage nil_uuid) (TiKvIndexer u2) lo' hi')), s').
Proof.
  intros G L1 L2. exists (kv_set (kv_set s cid (nil_uuid ++ u1)) cid (u2 ++ nil_uuid)).
  assert (E: krun (tikv_chunk_new cid u1 u2 lo hi) s =
    (Ok (mkChunk (TiKvStorage []) (TiKvIndexer (u2 ++ nil_uuid)) lo hi), kv_set (kv_set s cid (nil_uuid ++ u1)) cid (u2 ++ nil_uuid))).
  { unfold tikv_chunk_new. 
    assert (E1: krun (init_component cid false u1) s = (Ok [], kv_set s cid (nil_uuid ++ u1))).
    { unfold init_component. rewrite (krun_qbind _ _ s _ s (krun_get _ _)), G. cbn beta iota zeta.
      assert (high16 (nil_uuid ++ nil_uuid) = Ok nil_uuid) as -> by reflexivity. reflexivity. }
    rewrite (krun_qbind _ _ _ _ _ E1).
    assert (E2: krun (init_component cid true u2) (kv_set s cid (nil_uuid ++ u1)) = (Ok (u2 ++ nil_uuid), kv_set (kv_set s cid (nil_uuid ++ u1)) cid (u2 ++ nil_uuid))).
    { unfold init_component. rewrite (krun_qbind _ _ _ _ _ (krun_get _ _)). cbn [kv_get kv_set]. rewrite bytes_eqb_refl. cbn beta iota zeta.
      rewrite low16_app by reflexivity.
      reflexivity. }
    rewrite (krun_qbind _ _ _ _ _ E2). reflexivity. }
  split; [exact E|]. split.
  { intros k Hk. cbn [kv_get kv_set]. destruct (bytes_eqb cid k) eqn:Q; [|reflexivity]. apply bytes_eqb_spec in Q. congruence. }
  intros lo' hi'. unfold tikv_chunk_open, tikv_storage_read, tikv_indexer_read.
  assert (GV: kv_get (kv_set (kv_set s cid (nil_uuid ++ u1)) cid (u2 ++ nil_uuid)) cid = Some (u2 ++ nil_uuid)) by (cbn [kv_get kv_set]; now rewrite bytes_eqb_refl).
  set (t := kv_set _ _ _) in *.
  assert (H: high16 (u2 ++ nil_uuid) = Ok nil_uuid) by (now apply high16_app).
  assert (W: low16 (u2 ++ nil_uuid) = Ok u2) by (now apply low16_app).
  erewrite krun_qbind.
  2:{ rewrite (krun_qbind _ _ _ _ _ (krun_get _ _)), GV. cbn [krun]. rewrite H. reflexivity. }
  erewrite krun_qbind.
  2:{ rewrite (krun_qbind _ _ _ _ _ (krun_get _ _)), GV. cbn [krun]. rewrite W. reflexivity. }
  reflexivity.
Qed.

(** ** which keys a program touches *)
Definition kkey {X} (c : kcmd X) : bytes := match c with KGet k => k | KSet k _ => k end.
Definition ckey_ok (P Q : bytes -> Prop) {X} (c : ccmd X) : Prop :=
  match c with CSt c => P (kkey c) | CIx c => Q (kkey c) | _ => True end.
Fixpoint uses (P Q : bytes -> Prop) {A} (p : prog ccmd A) : Prop :=
  match p with Ret _ => True | Do c k => ckey_ok P Q c /\ forall x, uses P Q (k x) end.
Fixpoint kuses (P : bytes -> Prop) {A} (p : prog kcmd A) : Prop :=
  match p with Ret _ => True | Do c k => P (kkey c) /\ forall x, kuses P (k x) end.

Lemma uses_bind (P Q : bytes -> Prop) {A B} (p : prog ccmd A) (f : A -> prog ccmd B) : uses P Q p -> (forall a, uses P Q (f a)) -> uses P Q (bind p f).
Proof. induction p as [a|X c k IH]; intros H F; cbn [bind uses] in *; [apply F|]. split; [apply H|]. intros x. apply IH; [apply H|assumption]. Qed.
Lemma uses_qbind (P Q : bytes -> Prop) {A B} (p : prog ccmd (res A)) (f : A -> prog ccmd (res B)) : uses P Q p -> (forall a, uses P Q (f a)) -> uses P Q (qbind p f).
Proof. intros H F. apply uses_bind; [assumption|]. intros [a|e|]; [apply F|exact I|exact I]. Qed.
Lemma uses_st (P Q : bytes -> Prop) {A} (p : prog kcmd A) : kuses P p -> uses P Q (lift (@CSt) p).
Proof. induction p as [a|X c k IH]; intros H; cbn [lift uses kuses ckey_ok] in *; [exact I|]. split; [apply H|]. intros x. apply IH, H. Qed.
Lemma uses_ix (P Q : bytes -> Prop) {A} (p : prog kcmd A) : kuses Q p -> uses P Q (lift (@CIx) p).
Proof. induction p as [a|X c k IH]; intros H; cbn [lift uses kuses ckey_ok] in *; [exact I|]. split; [apply H|]. intros x. apply IH, H. Qed.
Lemma uses_call (P Q : bytes -> Prop) {X} (c : ccmd X) : ckey_ok P Q c -> uses P Q (call c).
Proof. intros H. split; [exact H|]. intros; exact I. Qed.
Lemma kuses_bind (P : bytes -> Prop) {A B} (p : prog kcmd A) (f : A -> prog kcmd B) : kuses P p -> (forall a, kuses P (f a)) -> kuses P (bind p f).
Proof. induction p as [a|X c k IH]; intros H F; cbn [bind kuses] in *; [apply F|]. split; [apply H|]. intros x. apply IH; [apply H|assumption]. Qed.
Lemma kuses_qbind (P : bytes -> Prop) {A B} (p : prog kcmd (res A)) (f : A -> prog kcmd (res B)) : kuses P p -> (forall a, kuses P (f a)) -> kuses P (qbind p f).
Proof. intros H F. apply kuses_bind; [assumption|]. intros [a|e|]; [apply F|exact I|exact I]. Qed.
Lemma kuses_call (P : bytes -> Prop) {X} (c : kcmd X) : P (kkey c) -> kuses P (call c).
Proof. intros H. split; [exact H|]. intros; exact I. Qed.
Lemma uses_forM (P Q : bytes -> Prop) {A B} (f : A -> prog ccmd (res B)) l : (forall a, uses P Q (f a)) -> uses P Q (forM f l).
Proof.
  intros F. induction l as [|a l IH]; [exact I|]. cbn [forM]. apply uses_qbind; [apply F|]. intros b. apply uses_qbind; [exact IH|]. intros; exact I.
Qed.

(* the keys of a TiKV chunk *)
Definition pkey (si k : bytes) : Prop := exists id, k = si ++ be_bytes 8 id.
Definition xkey (ii k : bytes) : Prop := exists r, k = ii ++ r.

Lemma insert_uses si ii lo hi ls p : let ch := mkChunk (TiKvStorage si) (TiKvIndexer ii) lo hi in
  uses (pkey si) (xkey ii) (chunk_insert ch ls p).
Proof.
  cbv zeta. unfold chunk_insert, with_write_lock. apply uses_bind; [apply uses_call; exact I|]. intros [|].
  { apply uses_bind; [apply uses_call; exact I|]. intros; exact I. }
  apply uses_bind; [|intros r; apply uses_bind; [apply uses_call; exact I|intros; exact I]].
  unfold insert_body. destruct (negb _); [exact I|].
  assert (W: forall id, kuses (pkey si) (write_time_point (TiKvStorage si) id (tp_ts p) (tp_val p))).
  { intros id. cbn [write_time_point]. unfold tikv_write. apply kuses_qbind; [apply kuses_call; eexists; reflexivity|]. intros [b|].
    - destruct (_ <? 16)%nat; [exact I|]. destruct (decode_time_point _); try exact I. destruct (_ <=? _); [exact I|].
      apply kuses_qbind; [apply kuses_call; eexists; reflexivity|]. intros; exact I.
    - apply kuses_qbind; [apply kuses_call; eexists; reflexivity|]. intros; exact I. }
  apply uses_qbind.
  { apply uses_ix. cbn [c_indexer series_id_by_labels]. unfold tikv_by_labels. apply kuses_qbind; [apply kuses_call; eexists; reflexivity|]. intros; exact I. }
  intros [id|].
  - apply uses_bind; [apply uses_st, W|]. intros; exact I.
  - apply uses_bind; [apply uses_call; exact I|]. intros id. apply uses_qbind.
    + apply uses_ix. cbn [c_indexer create_index]. unfold tikv_create. apply kuses_bind; [apply kuses_call; eexists; reflexivity|]. intros _.
      apply kuses_bind; [apply kuses_call; eexists; reflexivity|]. intros _. apply kuses_bind; [|intros; exact I].
      induction ls as [|l ls IH]; [exact I|]. cbn [tikv_add_reverse]. apply kuses_bind; [apply kuses_call; eexists; reflexivity|].
      intros [v|e|]; (apply kuses_bind; [|intros; apply IH]); try exact I. apply kuses_bind; [apply kuses_call; eexists; reflexivity|]. intros; exact I.
    + intros _. apply uses_qbind; [apply uses_st, W|]. intros; exact I.
Qed.
Lemma query_uses si ii lo hi bs o q s e : let ch := mkChunk (TiKvStorage si) (TiKvIndexer ii) lo hi in
  uses (pkey si) (xkey ii) (chunk_query ch bs o q s e).
Proof.
  cbv zeta. unfold chunk_query. apply uses_bind; [apply uses_call; exact I|]. intros [|]; [exact I|]. destruct (negb _); [exact I|].
  apply uses_qbind.
  - apply uses_ix. cbn [c_indexer series_metadata_contains_labels]. unfold tikv_metadata. apply kuses_qbind.
    + unfold tikv_contains. apply kuses_bind; [|intros; exact I].
      assert (K: forall keys, Forall (xkey ii) keys -> kuses (xkey ii) (tikv_gets keys)).
      { induction 1 as [|k ks H F IH]; [exact I|]. cbn [tikv_gets]. apply kuses_bind; [apply kuses_call; exact H|]. intros r. apply kuses_bind; [exact IH|]. intros; exact I. }
      apply K. rewrite Forall_forall. intros k Hk. apply in_map_iff in Hk as (l & <- & _). eexists; reflexivity.
    + intros ids. apply kuses_bind; [|intros; exact I]. induction ids as [|i ids IH]; [exact I|]. cbn [tikv_metas].
      apply kuses_bind; [apply kuses_call; eexists; reflexivity|]. intros r. apply kuses_bind; [exact IH|]. intros; exact I.
  - intros m. apply uses_qbind; [|intros; exact I]. apply uses_forM. intros c. apply uses_qbind; [|intros; exact I]. apply uses_st.
    cbn [c_storage read_time_series]. unfold tikv_read. apply kuses_qbind; [apply kuses_call; eexists; reflexivity|]. intros; exact I.
Qed.

(** ** a shared store seen as two *)
Record view (P Q : bytes -> Prop) (v w : cworld) : Prop := mkView {
  vw_st : forall k, P k -> kv_get (w_st v) k = kv_get (w_st w) k;
  vw_ix : forall k, Q k -> kv_get (w_st v) k = kv_get (w_ix w) k;
  vw_next : w_next v = w_next w; vw_closed : w_closed v = w_closed w; vw_locked : w_locked v = w_locked w;
  vw_poison : w_poisoned v = w_poisoned w; vw_faults : w_faults v = w_faults w }.

Lemma view_run si ii lo hi (P Q : bytes -> Prop) {A} (p : prog ccmd A) : let ch := mkChunk (TiKvStorage si) (TiKvIndexer ii) lo hi in
  (forall k, P k -> Q k -> False) -> uses P Q p -> forall v w, view P Q v w ->
  match run (chandler ch) p w with
  | Some (a, w') => exists v', run (shandler ch) p v = Some (a, v') /\ view P Q v' w' /\
      forall k, ~ P k -> ~ Q k -> kv_get (w_st v') k = kv_get (w_st v) k
  | None => run (shandler ch) p v = None
  end.
Proof.
  intros ch D. induction p as [a|X c k IH]; intros U v w V; cbn [run].
  { exists v. auto. }
  destruct U as [U1 U2].
  assert (GO: forall x w' v', view P Q v' w' -> (forall k, ~ P k -> ~ Q k -> kv_get (w_st v') k = kv_get (w_st v) k) ->
    match run (chandler ch) (k x) w' with
    | Some (a, w'') => exists v'', run (shandler ch) (k x) v' = Some (a, v'') /\ view P Q v'' w'' /\
        forall k, ~ P k -> ~ Q k -> kv_get (w_st v'') k = kv_get (w_st v) k
    | None => run (shandler ch) (k x) v' = None
    end).
  { intros x w' v' V' K. specialize (IH x (U2 x) v' w' V'). destruct (run (chandler ch) (k x) w') as [[a w'']|]; [|assumption].
    destruct IH as (v'' & E & V'' & K'). exists v''. split; [assumption|]. split; [assumption|]. intros k0 H1 H2. rewrite K', K by assumption. reflexivity. }
  pose proof V as [V1 V2 V3 V4 V5 V6 V7].
  assert (ES: storage_err (c_storage ch) = TiKvErr) by reflexivity. assert (EI: indexer_err (c_indexer ch) = TiKvErr) by reflexivity.
  destruct c as [X c|X c| | |u| | |]; cbn [chandler shandler ckey_ok] in *.
  - rewrite ES, V7. destruct c as [key|key val]; cbn [kv_fault_handler kkey] in *.
    + rewrite (V1 _ U1). apply GO; [|auto]. constructor; cbn; auto.
    + destruct (hd Works (w_faults w)); (apply GO; [|]);
        try (constructor; cbn [set_st w_st w_ix w_next w_closed w_locked w_poisoned w_faults];
             first [assumption|reflexivity|intros k0 H0; cbn [kv_get kv_set]; destruct (bytes_eqb key k0) eqn:Q0; auto; apply bytes_eqb_spec in Q0; subst; exfalso; eauto]);
        intros k0 N1 N2; cbn [set_st w_st kv_get kv_set]; try reflexivity; destruct (bytes_eqb key k0) eqn:Q0; try reflexivity; apply bytes_eqb_spec in Q0; subst; contradiction.
  - rewrite EI, V7. destruct c as [key|key val]; cbn [kv_fault_handler kkey] in *.
    + rewrite (V2 _ U1). apply GO; [|auto]. constructor; cbn; auto.
    + destruct (hd Works (w_faults w)); (apply GO; [|]);
        try (constructor; cbn [set_st set_ix w_st w_ix w_next w_closed w_locked w_poisoned w_faults];
             first [assumption|reflexivity|intros k0 H0; cbn [kv_get kv_set]; destruct (bytes_eqb key k0) eqn:Q0; auto; apply bytes_eqb_spec in Q0; subst; exfalso; eauto]);
        intros k0 N1 N2; cbn [set_st w_st kv_get kv_set]; try reflexivity; destruct (bytes_eqb key k0) eqn:Q0; try reflexivity; apply bytes_eqb_spec in Q0; subst; contradiction.
  - rewrite V3. apply GO; [|auto]. constructor; cbn; auto.
  - rewrite V5, V6. destruct (w_locked w) eqn:Lw; [reflexivity|]. apply GO; [|auto]. constructor; cbn; auto; congruence.
  - rewrite V6. apply GO; [|auto]. constructor; cbn; auto.
  - rewrite V5, V6. destruct (w_locked w) eqn:Lw; [reflexivity|]. apply GO; [|auto]. constructor; cbn; auto; congruence.
  - apply GO; [|auto]. constructor; cbn; auto.
  - rewrite V4. apply GO; [|auto]. constructor; cbn; auto.
Qed.

(** ** one chunk over a shared store *)
Lemma keys_apart ii : (8 < length ii)%nat -> forall k, pkey [] k -> xkey ii k -> False.
Proof. intros L k (id & ->) (r & E). apply (f_equal (@length Z)) in E. rewrite !app_length, length_be_bytes in E. cbn [length] in E. lia. Qed.

Lemma rep_agree i s s' R : (forall r, kv_get s' (i ++ r) = kv_get s (i ++ r)) -> rep (TiKvIndexer i) s R -> rep (TiKvIndexer i) s' R.
Proof.
  intros H (H1 & H2 & H3). split; [|split].
  - intros ls Hl. unfold lkey, pfx. rewrite H. now apply H1.
  - intros l Hl. unfold rkey, pfx. rewrite H. now apply H2.
  - intros id Hid. unfold ikey, pfx. rewrite H. now apply H3.
Qed.
Lemma rep_fresh i s : (forall r, kv_get s (i ++ r) = None) -> rep (TiKvIndexer i) s [].
Proof.
  intros H. split; [|split].
  - intros ls Hl. apply H.
  - intros l Hl. apply H.
  - intros id Hid. apply H.
Qed.
Lemma holds_agree si s s' f : (forall id, 0 <= id < 2 ^ 64 -> kv_get s' (si ++ be_bytes 8 id) = kv_get s (si ++ be_bytes 8 id)) ->
  holds_series (TiKvStorage si) s f -> holds_series (TiKvStorage si) s' f.
Proof. intros H K id Hid. destruct (K id Hid) as [K1 K2]. split; [assumption|]. rewrite <- K2. exact (H id Hid). Qed.

(* a store is a view of itself *)
Definition twice (v : cworld) : cworld := set_ix v (w_st v) (w_faults v).
Lemma view_self P Q v : view P Q v (twice v).
Proof. constructor; destruct v; cbn; auto. Qed.
Lemma view_trans_get P Q v w k : view P Q v w -> (P k -> kv_get (w_st v) k = kv_get (w_st w) k) /\ (Q k -> kv_get (w_st v) k = kv_get (w_ix w) k).
Proof. intros []. auto. Qed.

Lemma crep_view si ii lo hi v w A : let ch := mkChunk (TiKvStorage si) (TiKvIndexer ii) lo hi in
  view (pkey si) (xkey ii) v w -> crep ch w A -> crep ch (twice v) A.
Proof.
  intros ch [V1 V2 V3 V4 V5 V6 V7] [C1 C2 C3 C4 C5 C6 C7]. constructor; destruct v as [vs vx vn vc vl vp vf]; cbn in *; try congruence.
  - apply (rep_agree ii (w_ix w)); [|assumption]. intros r. apply V2. now exists r.
  - apply (holds_agree si (w_st w)); [|assumption]. intros id _. apply V1. now exists id.
Qed.

Lemma safter_run ii lo hi h : (8 < length ii)%nat -> let ch := mkChunk (TiKvStorage []) (TiKvIndexer ii) lo hi in
  forall v A, crep ch (twice v) A -> Forall ireq_ok h -> Z.of_nat (length A + length h) < 2 ^ 64 ->
  exists v', safter_from ch h v = Some v' /\ crep ch (twice v') (fold_left (ins ch) h A) /\ w_closed v' = w_closed v /\
    forall k, length k <> 8%nat -> ~ xkey ii k -> kv_get (w_st v') k = kv_get (w_st v) k.
Proof.
  intros Li ch. induction h as [|[ls p] h IH]; intros v A R H L; [exists v; auto|].
  inversion H as [|x xs [H1 H2] H3]; subst. cbn [fst snd] in *. cbn [safter_from fold_left fst snd]. cbn [length] in L.
  pose proof (insert_run ch (twice v) A ls p R H1 H2 ltac:(lia)) as K.
  pose proof (view_run [] ii lo hi (pkey []) (xkey ii) (chunk_insert ch ls p) (keys_apart ii Li) (insert_uses [] ii lo hi ls p) v (twice v) (view_self _ _ v)) as W.
  fold ch in W. unfold crun in K. unfold srun. unfold ins at 2. cbn [fst snd].
  assert (NP: forall k, length k <> 8%nat -> ~ pkey [] k) by (intros k N (id & ->); apply N; cbn [app]; apply length_be_bytes).
  destruct (in_windowb ch (tp_ts p)).
  - destruct K as (w1 & E & R1 & C1). rewrite E in W. destruct W as (v1 & E1 & V1 & N1). rewrite E1.
    destruct (IH v1 (add_point (c_storage ch) A ls p)) as (v' & E' & R' & C' & N'); [eapply crep_view; eassumption|assumption|pose proof (add_length (c_storage ch) A ls p); lia|].
    exists v'. split; [assumption|]. split; [assumption|]. split.
    { rewrite C'. rewrite (vw_closed _ _ _ _ V1), C1. destruct v; reflexivity. }
    intros k N2 N3. rewrite N' by assumption. apply N1; auto.
  - rewrite K in W. destruct W as (v1 & E1 & V1 & N1). rewrite E1.
    destruct (IH v1 A) as (v' & E' & R' & C' & N'); [eapply crep_view; eassumption|assumption|lia|].
    exists v'. split; [assumption|]. split; [assumption|]. split.
    { rewrite C'. rewrite (vw_closed _ _ _ _ V1). destruct v; reflexivity. }
    intros k N2 N3. rewrite N' by assumption. apply N1; auto.
Qed.

Lemma squery_run ii lo hi bs o v A q s e : (8 < length ii)%nat -> let ch := mkChunk (TiKvStorage []) (TiKvIndexer ii) lo hi in
  crd ch (twice v) A -> Z.of_nat (length A) < 2 ^ 64 -> Forall lab_ok q ->
  exists v', srun ch (chunk_query ch bs o q s e) v =
    Some (if (e <? lo) || (hi <? s) then Err (OutOfRangeErr lo hi) else collect (reader bs s e) (matching A q), v').
Proof.
  intros Li ch R L Hq. pose proof (query_crd ch bs o _ A q s e R L Hq) as K. unfold crun in K.
  pose proof (view_run [] ii lo hi (pkey []) (xkey ii) _ (keys_apart ii Li) (query_uses [] ii lo hi bs o q s e) v (twice v) (view_self _ _ v)) as W.
  fold ch in W. rewrite K in W. destruct W as (v' & E & V & N). exists v'. exact E.
Qed.

(** ** a fresh chunk *)
Lemma fresh_crep ii lo hi s : (forall r, kv_get s (ii ++ r) = None) -> no_points s ->
  crep (mkChunk (TiKvStorage []) (TiKvIndexer ii) lo hi) (twice (new_world s [])) [].
Proof.
  intros H1 H2. constructor; try reflexivity.
  - now apply rep_fresh.
  - intros id Hid. unfold pts_of. assert (F: nth_error (@nil (list label * list tp)) (Z.to_nat (id - 1)) = None) by (destruct (Z.to_nat (id - 1)); reflexivity).
    assert ((if 1 <=? id then match nth_error (@nil (list label * list tp)) (Z.to_nat (id - 1)) with Some e => snd e | None => [] end else []) = []) as ->
      by (rewrite F; destruct (1 <=? id); reflexivity).
    split; [constructor|]. apply H2. cbn [series_key app]. unfold tikv_series_key. cbn [app]. apply length_be_bytes.
  - constructor; [constructor|constructor|]. intros [|i] j a b H; discriminate.
Qed.

Section fresh.
Variables (s : kv) (cid u1 u2 : bytes) (lo hi : Z).
Hypothesis (U : unused s cid u2).
Hypothesis (L1 : length u1 = 16%nat).
Lemma new_facts : exists s', krun (tikv_chunk_new cid u1 u2 lo hi) s = (Ok (mkChunk (TiKvStorage []) (TiKvIndexer (u2 ++ nil_uuid)) lo hi), s') /\
  (forall k, k <> cid -> kv_get s' k = kv_get s k) /\
  (forall lo' hi', krun (tikv_chunk_open cid lo' hi') s' = (Ok (Some (mkChunk (TiKvStorage nil_uuid) (TiKvIndexer u2) lo' hi')), s')) /\
  (forall r, r <> [] -> kv_get s' (u2 ++ r) = None) /\ (no_points s -> no_points s').
Proof.
  destruct U as (Lc & L2 & G & N). destruct (ids_new s cid u1 u2 lo hi G L1 L2) as (s' & E & K & O). exists s'. split; [exact E|]. split; [exact K|]. split; [exact O|].
  split.
  - intros r Hr. rewrite K; [now apply N|]. intros Q. apply (f_equal (@length Z)) in Q. rewrite app_length, Lc, L2 in Q. destruct r; [contradiction|]. cbn [length] in Q. lia.
  - intros H k Hk. rewrite K by (intros ->; lia). now apply H.
Qed.
End fresh.

Theorem shared_refines s cid u1 u2 lo hi bs o h q a b : unused s cid u2 -> length u1 = 16%nat -> no_points s -> bs_contract bs -> Forall ireq_ok h ->
  Z.of_nat (length h) < 2 ^ 64 -> Forall lab_ok q ->
  exists ch s', krun (tikv_chunk_new cid u1 u2 lo hi) s = (Ok ch, s') /\ c_start ch = lo /\ c_end ch = hi /\
    exists w w', safter ch h s' = Some w /\ (a <= b -> srun ch (chunk_query ch bs o q a b) w = Some (query_spec ch (content_of ch h) q a b, w')).
Proof.
  intros U L1 NP Hb Hh HL Hq. destruct (new_facts s cid u1 u2 lo hi U L1) as (s' & E & K & _ & N & P). eexists _, s'. split; [exact E|]. split; [reflexivity|]. split; [reflexivity|].
  assert (Li: (8 < length (u2 ++ nil_uuid))%nat) by (rewrite app_length, nil_len; lia).
  assert (F: forall r, kv_get s' ((u2 ++ nil_uuid) ++ r) = None) by (intros r; rewrite <- app_assoc; apply N; discriminate).
  destruct (safter_run (u2 ++ nil_uuid) lo hi h Li (new_world s' []) [] (fresh_crep _ lo hi s' F (P NP)) Hh) as (w & Ew & R & _); [cbn [length Nat.add]; assumption|].
  change (fold_left (ins ?c) h []) with (content_of c h) in R. set (ch := mkChunk _ _ _ _) in *.
  pose proof (content_length ch h) as LA.
  destruct (squery_run (u2 ++ nil_uuid) lo hi bs o w _ q a b Li (crep_crd _ _ _ R) ltac:(lia) Hq) as (w' & Eq).
  exists w, w'. split; [exact Ew|]. intros Hab. pose proof (tikv_content_increasing ch [] h eq_refl) as Hi. fold ch in Eq. rewrite Eq. unfold query_spec. cbn [c_start c_end ch].
  destruct (_ || _); [reflexivity|]. do 2 f_equal. apply collect_ext.
  intros x Hx. apply matching_pts in Hx as (_ & _ & Hin & _). unfold all_increasing in Hi. rewrite Forall_forall in Hi.
  apply reader_spec; auto.
Qed.

(** ** a chunk opened again answers nothing *)
Lemma tikv_gets_none keys s : (forall k, In k keys -> kv_get s k = None) -> krun (tikv_gets keys) s = ([], s).
Proof.
  intros H. rewrite tikv_gets_run. f_equal. induction keys as [|k ks IH]; [reflexivity|]. cbn [map somes flat_map].
  rewrite (H k ltac:(now left)). apply IH. intros; apply H; now right.
Qed.
Lemma query_none si ii lo hi bs o q a b v : let ch := mkChunk (TiKvStorage si) (TiKvIndexer ii) lo hi in
  (forall r, hd_error r = Some 76 -> kv_get (w_st v) (ii ++ r) = None) ->
  w_locked v = false -> w_poisoned v = false -> w_faults v = [] ->
  exists v', srun ch (chunk_query ch bs o q a b) v =
    Some (if (b <? lo) || (hi <? a) then Err (OutOfRangeErr lo hi) else Ok [], v').
Proof.
  intros ch H Lk Po Fa. unfold srun, chunk_query. rewrite run_bind. cbn [run call shandler]. rewrite Lk, Po. cbn beta iota.
  unfold is_with_range, is_duration_overlap. rewrite negb_involutive. cbn [c_start c_end ch].
  destruct ((b <? lo) || (hi <? a)); [eexists; reflexivity|].
  assert (RS: forall {A} (p : prog kcmd A) w, w_faults w = [] ->
    run (shandler ch) (lift (@CIx) p) w = Some (fst (krun p (w_st w)), set_st w (snd (krun p (w_st w))) [])).
  { clear. intros A p. induction p as [a|X c k IH]; intros w Hw.
    - cbn. destruct w; cbn in *. now subst.
    - cbn [lift run]. unfold shandler at 1. rewrite Hw. destruct c as [key|key v]; cbn [kv_fault_handler hd tl krun]; rewrite IH by reflexivity; reflexivity. }
  rewrite run_qbind, RS by assumption. cbn [c_indexer ch series_metadata_contains_labels].
  unfold tikv_metadata.
  assert (E: krun (tikv_contains ii o q) (w_st v) = (Ok [], w_st v)).
  { unfold tikv_contains. rewrite krun_bind, tikv_gets_none; [reflexivity|].
    intros k Hk. apply in_map_iff in Hk as (l & <- & _). apply H. reflexivity. }
  rewrite (krun_qbind _ _ _ _ _ E). cbn. eexists. reflexivity.
Qed.

Definition open_val (v : option bytes) (lo hi : Z) : res (option chunk) :=
  let* si := match v with Some b => rmap Some (high16 b) | None => Ok None end in
  let* ii := match v with Some b => rmap Some (low16 b) | None => Ok None end in
  Ok match si, ii with
     | Some si, Some ii => Some (mkChunk (TiKvStorage si) (TiKvIndexer ii) lo hi)
     | _, _ => None
     end.
Lemma open_eval cid lo hi s : krun (tikv_chunk_open cid lo hi) s = (open_val (kv_get s cid) lo hi, s).
Proof.
  unfold tikv_chunk_open, tikv_storage_read, tikv_indexer_read, open_val. cbn [krun qbind bind call].
  destruct (kv_get s cid) as [v|] eqn:G; cbn [rmap rbind]; [|cbn; rewrite G; reflexivity].
  destruct (high16 v) as [x|?|]; cbn; try reflexivity. rewrite G. destruct (low16 v); reflexivity.
Qed.
Theorem reopened_empty s cid u1 u2 lo hi lo' hi' bs o h q a b : unused s cid u2 -> length u1 = 16%nat -> no_points s -> Forall ireq_ok h ->
  Z.of_nat (length h) < 2 ^ 64 ->
  exists ch s' w ch' w', krun (tikv_chunk_new cid u1 u2 lo hi) s = (Ok ch, s') /\ safter ch h s' = Some w /\
    krun (tikv_chunk_open cid lo' hi') (w_st w) = (Ok (Some ch'), w_st w) /\ c_start ch' = lo' /\ c_end ch' = hi' /\
    srun ch' (chunk_query ch' bs o q a b) (new_world (w_st w) []) =
      Some (if (b <? lo') || (hi' <? a) then Err (OutOfRangeErr lo' hi') else Ok [], w').
Proof.
  intros U L1 NP Hh HL. pose proof U as (Lc & L2 & G & _). destruct (new_facts s cid u1 u2 lo hi U L1) as (s' & E & K & O & N & P).
  assert (Li: (8 < length (u2 ++ nil_uuid))%nat) by (rewrite app_length, nil_len; lia).
  assert (F: forall r, kv_get s' ((u2 ++ nil_uuid) ++ r) = None) by (intros r; rewrite <- app_assoc; apply N; discriminate).
  destruct (safter_run (u2 ++ nil_uuid) lo hi h Li (new_world s' []) [] (fresh_crep _ lo hi s' F (P NP)) Hh) as (w & Ew & R & _ & KW); [cbn [length Nat.add]; assumption|].
  cbn [w_st new_world] in KW.
  assert (Gc: kv_get (w_st w) cid = kv_get s' cid).
  { apply KW; [lia|]. intros (r & Q). apply (f_equal (@length Z)) in Q. rewrite !app_length, Lc, L2, nil_len in Q. lia. }
  destruct (query_none nil_uuid u2 lo' hi' bs o q a b (new_world (w_st w) [])) as (w' & Eq); try reflexivity.
  { intros r Hr. cbn [w_st new_world]. rewrite KW; [apply N; intros ->; discriminate| |].
    - rewrite app_length, L2. lia.
    - intros (r' & Q). rewrite <- app_assoc in Q. apply app_inv_head in Q. subst r. discriminate. }
  eexists _, s', w, _, w'. split; [exact E|]. split; [exact Ew|]. split.
  { specialize (O lo' hi'). rewrite open_eval in O |- *. rewrite Gc. now rewrite (f_equal fst O : open_val (kv_get s' cid) lo' hi' = _). }
  split; [reflexivity|]. split; [reflexivity|]. exact Eq.
Qed.

(** ** two chunks over a shared store *)
Lemma insert_new_run ch w R f ls p : rep (c_indexer ch) (w_ix w) R -> holds_series (c_storage ch) (w_st w) f -> ids_ok R ->
  w_locked w = false -> w_poisoned w = false -> w_faults w = [] -> 0 <= w_next w < 2 ^ 64 - 1 -> set_ok ls -> tp_ok p ->
  lookup_set R ls = None -> in_window ch (tp_ts p) ->
  exists w', crun ch (chunk_insert ch ls p) w = Some (if keeps (c_storage ch) (f (w_next w)) p then Ok tt else Err InternalErr, w') /\
    rep (c_indexer ch) (w_ix w') (R ++ [(w_next w, ls)]) /\
    holds_series (c_storage ch) (w_st w') (fun i => if i =? w_next w then (if keeps (c_storage ch) (f (w_next w)) p then f (w_next w) ++ [p] else f (w_next w)) else f i) /\
    w_locked w' = false /\ w_poisoned w' = false /\ w_faults w' = [].
Proof.
  intros Hix Hst Hi Hl Hpo Hf Hn Hls Hp E Hin. unfold crun, chunk_insert. rewrite with_lock_run by assumption.
  unfold insert_body, is_in_range. fold (in_windowb ch (tp_ts p)).
  assert (in_windowb ch (tp_ts p) = true) as -> by (now apply in_window_spec). cbn [negb].
  rewrite run_qbind, run_ix by (cbn; assumption). cbn [w_ix set_lock].
  rewrite (by_labels_run _ _ R) by assumption. cbn [fst snd]. rewrite E. cbn [option_map].
  rewrite run_bind. cbn [run call chandler w_next set_ix set_lock set_next].
  assert (Hidok: id_ok (w_next w)) by (unfold id_ok; lia).
  rewrite run_qbind, run_ix by reflexivity. cbn [w_ix set_next set_ix set_lock].
  destruct (create_ok (c_indexer ch) (w_ix w) R ls (w_next w) Hix Hls Hidok E) as (s1 & Ec & Hrep).
  rewrite Ec. cbn [fst snd]. rewrite run_qbind, run_st by reflexivity. cbn [w_st set_ix set_next set_lock].
  destruct (write_ok (c_storage ch) (w_st w) f (w_next w) p Hst Hidok Hp) as (r & s' & Ew & Er & H').
  rewrite Ew. cbn [fst snd]. rewrite Er. destruct (keeps (c_storage ch) (f (w_next w)) p); cbn [run];
    (eexists; split; [reflexivity|]; cbn [is_panic orb set_lock w_poisoned set_st set_ix w_st w_ix w_next w_closed w_faults set_next]; auto).
Qed.

Lemma keeps_later i pts p : increasing pts -> (keeps (TiKvStorage i) pts p = true <-> forall q, In q pts -> tp_ts q < tp_ts p).
Proof.
  intros Hi. cbn [keeps]. destruct pts as [|q0 pts]; [split; [intros _ ? []|reflexivity]|]. split.
  - intros K q Hq. pose proof (increasing_last _ q0 q Hi Hq). lia.
  - intros K. specialize (K (last (q0 :: pts) q0) ). assert (In (last (q0 :: pts) q0) (q0 :: pts)).
    { clear. assert (L: forall l (d x : tp), In (last (x :: l) d) (x :: l)); [|apply L].
      induction l as [|y l IH]; intros d x; [now left|]. right. apply (IH d y). }
    specialize (K H). lia.
Qed.

Lemma first_eq {A} (a b c d : list A) : length a = length c -> a ++ b = c ++ d -> a = c.
Proof. intros L E. apply (f_equal (firstn (length a))) in E. rewrite firstn_app, Nat.sub_diag, firstn_O, app_nil_r, firstn_all in E.
  rewrite L, firstn_app, Nat.sub_diag, firstn_O, app_nil_r, firstn_all in E. exact E. Qed.

Theorem chunks_mix s cid u1 u2 lo hi ch s1 h ls pts rest cid' u1' u2' lo' hi' ls' p bs o q a b :
  unused s cid u2 -> length u1 = 16%nat -> no_points s -> Forall ireq_ok h -> Z.of_nat (length h) < 2 ^ 64 ->
  krun (tikv_chunk_new cid u1 u2 lo hi) s = (Ok ch, s1) -> content_of ch h = (ls, pts) :: rest ->
  unused s cid' u2' -> length u1' = 16%nat -> cid' <> cid -> u2' <> u2 ->
  set_ok ls' -> tp_ok p -> lo' < tp_ts p < hi' -> bs_contract bs -> Forall lab_ok q -> a <= b ->
  exists w ch' s2 w' r w'', safter ch h s1 = Some w /\
    krun (tikv_chunk_new cid' u1' u2' lo' hi') (w_st w) = (Ok ch', s2) /\
    srun ch' (chunk_insert ch' ls' p) (new_world s2 []) = Some (r, w') /\
    srun ch (chunk_query ch bs o q a b) (set_st w (w_st w') []) = Some w'' /\
    ((forall x, In x pts -> tp_ts x < tp_ts p) -> r = Ok tt /\ fst w'' = query_spec ch ((ls, pts ++ [p]) :: rest) q a b) /\
    (~ (forall x, In x pts -> tp_ts x < tp_ts p) -> r = Err InternalErr /\ fst w'' = query_spec ch ((ls, pts) :: rest) q a b).
Proof.
  intros U L1 NP Hh HL En EA U' L1' Nc Nu Hls Hp Hw Hb Hq Hab.
  pose proof U as (Lc & L2 & G & _). destruct (new_facts s cid u1 u2 lo hi U L1) as (s1' & E & K & _ & N & P).
  assert (s1' = s1) as -> by congruence. assert (ch = mkChunk (TiKvStorage []) (TiKvIndexer (u2 ++ nil_uuid)) lo hi) as Ech by congruence. clear En.
  assert (Li: (8 < length (u2 ++ nil_uuid))%nat) by (rewrite app_length, nil_len; lia).
  assert (F: forall r, kv_get s1 ((u2 ++ nil_uuid) ++ r) = None) by (intros r; rewrite <- app_assoc; apply N; discriminate).
  destruct (safter_run (u2 ++ nil_uuid) lo hi h Li (new_world s1 []) [] (fresh_crep _ lo hi s1 F (P NP)) Hh) as (w & Ew & R & _ & KW); [cbn [length Nat.add]; assumption|].
  cbn [w_st new_world] in KW. change (fold_left (ins ?c) h []) with (content_of c h) in R. rewrite <- Ech in Ew, R.
  pose proof U' as (Lc' & L2' & G' & N').
  assert (UB: unused (w_st w) cid' u2').
  { split; [assumption|]. split; [assumption|]. split.
    - rewrite KW; [|lia|intros (r & Q); apply (f_equal (@length Z)) in Q; rewrite !app_length, Lc', L2, nil_len in Q; lia]. rewrite K by assumption. assumption.
    - intros r Hr. rewrite KW; [|rewrite app_length, L2'; lia|].
      + rewrite K; [now apply N'|]. intros Q. apply (f_equal (@length Z)) in Q. rewrite app_length, Lc, L2' in Q. destruct r; [contradiction|]. cbn [length] in Q. lia.
      + intros (r' & Q). apply Nu. rewrite <- app_assoc in Q. eapply first_eq; [|exact Q]. congruence. }
  destruct (new_facts (w_st w) cid' u1' u2' lo' hi' UB L1') as (s2 & E2 & K2 & _ & N2 & _). set (ii' := u2' ++ nil_uuid) in *.
  assert (Li': (8 < length ii')%nat) by (unfold ii'; rewrite app_length, nil_len; lia).
  set (ch' := mkChunk (TiKvStorage []) (TiKvIndexer ii') lo' hi') in *.
  pose proof R as [R1 R2 R3 R4 R5 R6 R7].
  assert (H0: holds_series (TiKvStorage []) s2 (pts_of (content_of ch h))).
  { apply (holds_agree [] (w_st w)).
    - intros id _. apply K2. cbn [app]. intros Q. apply (f_equal (@length Z)) in Q. rewrite length_be_bytes, Lc' in Q. lia.
    - rewrite Ech in R2 |- *. destruct w; exact R2. }
  destruct (insert_new_run ch' (twice (new_world s2 [])) [] (pts_of (content_of ch h)) ls' p) as (w1 & E3 & X1 & X2 & X3 & X4 & X5); try reflexivity; try assumption.
  { apply rep_fresh. intros r. unfold ii'. rewrite <- app_assoc. apply N2. discriminate. }
  { constructor. } { cbn. lia. }
  assert (P1: pts_of (content_of ch h) 1 = pts) by (rewrite EA; reflexivity).
  unfold crun in E3. cbn [twice new_world set_ix w_next c_storage ch'] in E3, X2. rewrite P1 in E3, X2.
  pose proof (view_run [] ii' lo' hi' (pkey []) (xkey ii') _ (keys_apart ii' Li') (insert_uses [] ii' lo' hi' ls' p) (new_world s2 []) _ (view_self _ _ _)) as W.
  fold ch' in W. cbn [twice new_world set_ix w_st w_faults w_next w_closed w_locked w_poisoned] in W. rewrite E3 in W. destruct W as (v & Ev & V & NV).
  pose proof (tikv_content_increasing ch [] h ltac:(rewrite Ech; reflexivity)) as Hi. rewrite EA in Hi, R7, R1, X2.
  assert (Hpi: increasing pts) by (inversion Hi; assumption).
  set (pts' := if keeps (TiKvStorage []) pts p then pts ++ [p] else pts) in *.
  assert (Hpi': increasing pts').
  { unfold pts'. destruct (keeps _ pts p) eqn:Kp; [|assumption]. apply increasing_snoc; [assumption|]. now apply (keeps_later []). }
  assert (RQ: crd ch (twice (set_st w (w_st v) [])) ((ls, pts') :: rest)).
  { rewrite Ech in *. constructor; destruct w as [ws wx wn wc wl wp wf]; cbn [twice set_st set_ix w_st w_ix w_next w_closed w_locked w_poisoned w_faults c_indexer c_storage new_world] in *; try assumption; try reflexivity.
    - assert (regs ((ls, pts') :: rest) = regs ((ls, pts) :: rest)) as -> by reflexivity.
      apply (rep_agree _ ws); [|assumption]. intros r. rewrite NV; cbn [w_st new_world].
      + apply K2. intros Q. apply (f_equal (@length Z)) in Q. rewrite !app_length, L2, Lc', nil_len in Q. lia.
      + intros (id & Q). apply (f_equal (@length Z)) in Q. cbn [app] in Q. rewrite length_be_bytes, !app_length, L2 in Q. lia.
      + intros (r' & Q). apply Nu. unfold ii' in Q. rewrite <- !app_assoc in Q. symmetry. eapply first_eq; [|exact Q]. congruence.
    - apply (holds_agree [] (w_st w1)).
      + intros id _. apply (vw_st _ _ _ _ V). now exists id.
      + eapply holds_ext; [|exact X2]. intros id. cbn beta.
        pose proof (pts_of_at [] ls pts rest pts' id) as Q. cbn [app length Z.of_nat Z.add] in Q. rewrite Q. reflexivity.
    - destruct R7 as [W1 W2 W3]. constructor.
      + apply Forall_cons_iff in W1 as [B1 B2]. constructor; assumption.
      + apply Forall_cons_iff in W2 as [B2 B3]. constructor; [|assumption]. cbn [snd] in *. unfold pts'. destruct (keeps _ pts p); [|auto].
        apply Forall_app. split; [assumption|]. constructor; [assumption|constructor].
      + intros i j x y Hx Hy Hxy. destruct i as [|i], j as [|j]; cbn [nth_error] in *; [reflexivity| | |].
        * assert (x = (ls, pts')) by congruence; subst x. exact (W3 0%nat (S j) (ls, pts) y eq_refl Hy Hxy).
        * assert (y = (ls, pts')) by congruence; subst y. exact (W3 (S i) 0%nat x (ls, pts) Hx eq_refl Hxy).
        * exact (W3 (S i) (S j) x y Hx Hy Hxy). }
  pose proof (content_length ch h) as LA. rewrite EA in LA.
  assert (SQ: exists v', srun ch (chunk_query ch bs o q a b) (set_st w (w_st v) []) = Some (query_spec ch ((ls, pts') :: rest) q a b, v')).
  { rewrite Ech in RQ |- *. destruct (squery_run (u2 ++ nil_uuid) lo hi bs o _ _ q a b Li RQ ltac:(cbn [length] in *; lia) Hq) as (w' & Eq).
    exists w'. rewrite Eq. unfold query_spec. cbn [c_start c_end]. destruct (_ || _); [reflexivity|]. do 2 f_equal. apply collect_ext.
    intros x Hx. apply matching_pts in Hx as (_ & _ & Hin & _). apply reader_spec; auto.
    apply Forall_cons_iff in Hi as [B1 B2]. destruct Hin as [<-|Hin]; [exact Hpi'|]. rewrite Forall_forall in B2. now apply B2. }
  destruct SQ as (v' & SQ).
  exists w, ch', s2, v. eexists _, _. split; [exact Ew|]. split; [exact E2|]. split; [exact Ev|]. split; [exact SQ|]. cbn [fst].
  unfold pts'. split; intros Hlt.
  - apply (keeps_later [] pts p Hpi) in Hlt. rewrite Hlt. auto.
  - destruct (keeps (TiKvStorage []) pts p) eqn:Kp; [|auto]. exfalso. apply Hlt. now apply (keeps_later [] pts p Hpi).
Qed.
