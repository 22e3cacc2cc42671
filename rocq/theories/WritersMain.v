(* Proofs about clients, queries and the swap thread interleaved: from the opening on. *)
From Coq Require Import ZifyBool ZifyNat Permutation.
From Verif Require Import Rust StringProofs Prog Gorilla GorillaSpec Storage StorageSpec StorageProofs Labels IndexSpec Indexer
  LabelProofs IndexProofs Chunk ChunkSpec ChunkProofs ChunkFacts Conc Utils DirSpec DirProofs TiKvInit Db DbSpec MapProofs
  DbProofs DbHist DbFacts ReopenProofs SwapSpec SwapProofs SwapConc SwapMain WritersSpec WritersProofs WritersConc.
Local Notation plain := SwapProofs.plain.

(** ** inserts that do not panic *)
Definition stq (st : storage) (s : kv) : Prop :=
  match st with SledStorage => True | TiKvStorage _ => forall k b, kv_get s k = Some b -> (16 <= length b)%nat end.
Definition ixq (ix : indexer) (s : kv) : Prop :=
  match ix with
  | SledIndexer => True
  | TiKvIndexer i => forall ls b, set_ok ls -> kv_get s (i ++ encode_labels ls true) = Some b -> length b = 8%nat
  end.
Lemma be_len n v : length (be_bytes n v) = n.
Proof. apply BitsProofs.length_be_bytes. Qed.
Lemma write_quiet st id ts v s : stq st s -> fst (krun (write_time_point st id ts v) s) <> Panic /\ stq st (snd (krun (write_time_point st id ts v) s)).
Proof.
  destruct st as [|ident]; cbn [stq write_time_point].
  - intros _. split; [|exact I]. unfold sled_write, qbind. cbn [bind call krun]. destruct (kv_get s (sled_series_key id)); cbn [bind call krun fst]; discriminate.
  - intros H. unfold tikv_write, qbind. cbn [bind call krun]. set (key := tikv_series_key ident id). destruct (kv_get s key) as [b|] eqn:E; cbn [bind call krun].
    + pose proof (H _ _ E) as Hb. destruct (Nat.ltb_spec (length b) 16) as [L|_]; [lia|].
      assert (EL: length (skipn (length b - 16) b) = 16%nat) by (rewrite skipn_length; lia).
      unfold decode_time_point. rewrite EL. cbn [Nat.eqb negb]. cbn beta iota.
      match goal with |- context [if ?c then _ else _] => destruct c end; cbn [bind call krun fst snd]; (split; [discriminate|]); [exact H|].
      intros k b'. rewrite kv_get_set. destruct (bytes_eqb key k); [|apply H]. intros X. assert (b' = b ++ encode_time_point ts v) as -> by congruence. rewrite app_length. lia.
    + split; [discriminate|]. intros k b'. cbn [snd]. rewrite kv_get_set. destruct (bytes_eqb key k); [|apply H]. intros X. assert (b' = encode_time_point ts v) as -> by congruence.
      unfold encode_time_point. rewrite app_length, !be_len. lia.
Qed.
Lemma find_quiet ix ls s : ixq ix s -> ix = SledIndexer \/ set_ok ls ->
  fst (krun (series_id_by_labels ix ls) s) <> Panic /\ snd (krun (series_id_by_labels ix ls) s) = s.
Proof.
  destruct ix as [|i]; cbn [ixq series_id_by_labels]; intros H HL.
  - unfold sled_by_labels, qbind. cbn [bind call krun]. destruct (kv_get s (encode_labels ls true)) as [b|]; cbn [bind call krun fst snd]; (split; [|reflexivity]); [|discriminate].
    unfold parse_id. destruct (parse_u 64 10 b); discriminate.
  - destruct HL as [HL|HL]; [discriminate|]. unfold tikv_by_labels, qbind. cbn [bind call krun].
    destruct (kv_get s (i ++ encode_labels ls true)) as [b|] eqn:E; cbn [bind call krun fst snd]; (split; [|reflexivity]); [|discriminate].
    unfold id_of_bytes. rewrite (H ls b HL E). discriminate.
Qed.
Lemma app_ne {A} (i a b : list A) : a <> b -> i ++ a <> i ++ b.
Proof. intros H E. apply H. now apply app_inv_head in E. Qed.
Lemma create_quiet ix ls id s : ixq ix s -> ix = SledIndexer \/ set_ok ls ->
  fst (krun (create_index ix ls id) s) <> Panic /\ ixq ix (snd (krun (create_index ix ls id) s)).
Proof.
  destruct ix as [|i]; cbn [ixq create_index]; intros H HL.
  - split; [|exact I]. unfold sled_create. rewrite (krun_qbind _ _ s (kv_get s (encode_labels ls true)) s) by reflexivity.
    destruct (kv_get s (encode_labels ls true)); [discriminate|]. rewrite krun_bind, krun_set, krun_bind, krun_set.
    assert (F: forall l s', exists x s'', krun (forM (sled_add_reverse id) l) s' = (Ok x, s'')).
    { induction l as [|a l IH]; intros s'; cbn [forM]; [cbn; eauto|]. unfold sled_add_reverse at 1, qbind. cbn [bind call krun].
      match goal with |- context [krun (bind (forM _ l) _) ?t] => destruct (IH t) as (x & s'' & E); rewrite krun_bind, E end. cbn. eauto. }
    cbn [fst snd]. destruct (F ls (kv_set (kv_set s (encode_labels ls true) (to_dec id)) (encode_time_series_id id) (encode_labels ls false))) as (x & s'' & E).
    rewrite (krun_qbind _ _ _ x s'' E). discriminate.
  - destruct HL as [HL|HL]; [discriminate|]. unfold tikv_create. rewrite krun_bind, krun_set, krun_bind, krun_set, krun_bind. cbn [fst snd].
    set (s2 := kv_set _ _ _).
    assert (H2: forall ls' b, set_ok ls' -> kv_get s2 (i ++ encode_labels ls' true) = Some b -> length b = 8%nat).
    { intros ls' b K. unfold s2. rewrite kv_get_set. destruct (bytes_eqb (i ++ encode_labels ls true) (i ++ encode_labels ls' true)).
      - intros X. assert (b = be_bytes 8 id) as -> by congruence. apply be_len.
      - rewrite kv_get_set_other by apply app_ne, key_I_L. now apply H. }
    clearbody s2. assert (FL: Forall lab_ok ls) by apply HL. clear - H2 FL. destruct (krun (tikv_add_reverse i id ls) s2) as [[] s3] eqn:E. cbn [krun fst snd]. split; [discriminate|].
    revert s2 H2 E. induction FL as [|l ls Hl FL IH]; intros s2 H2; cbn [tikv_add_reverse].
    + intros E. assert (s3 = s2) as -> by (cbn in E; congruence). exact H2.
    + cbn [bind call krun]. apply IH. intros ls' b K. rewrite kv_get_set_other by (apply app_ne; intros X; symmetry in X; revert X; now apply key_L_LR). now apply H2.
Qed.

Section DB.
  Variable cf : config.
  (* the label sets that may be written *)
  Definition may (ls : list label) (p : tp) : Prop := cf_ix cf = Sled \/ set_ok ls.
  Definition good (d : dchunk) : Prop :=
    plain d /\ stq (c_storage (dc_chunk d)) (w_st (dc_world d)) /\ ixq (c_indexer (dc_chunk d)) (w_ix (dc_world d)) /\
    (cf_ix cf = Sled -> c_indexer (dc_chunk d) = SledIndexer).
  Definition fok (f : fworld) : Prop := forall n, length (f_uuid f n) = 16%nat.
  Lemma good_plain d : good d -> plain d.
  Proof. intros H. apply H. Qed.
  Lemma body_quiet ch ls p w r w' : (c_indexer ch = SledIndexer \/ set_ok ls) -> stq (c_storage ch) (w_st w) -> ixq (c_indexer ch) (w_ix w) -> w_faults w = [] ->
    run (chandler ch) (insert_body ch ls p) w = Some (r, w') ->
    r <> Panic /\ stq (c_storage ch) (w_st w') /\ ixq (c_indexer ch) (w_ix w') /\ w_faults w' = [] /\ w_poisoned w' = w_poisoned w.
  Proof.
    intros HL Hs Hi Hf. unfold insert_body. destruct (negb (is_in_range ch (tp_ts p))).
    { cbn [run]. intros H. assert (r = Err (OutOfRangeErr (c_start ch) (c_end ch))) as -> by congruence. assert (w = w') as -> by congruence. split; [discriminate|]. auto. }
    rewrite run_qbind, run_ix by assumption. destruct (find_quiet (c_indexer ch) ls (w_ix w) Hi HL) as [F1 F2]. rewrite F2.
    destruct (fst (krun (series_id_by_labels (c_indexer ch) ls) (w_ix w))) as [[id|]|e|]; [| | |congruence].
    - rewrite run_bind, run_st by reflexivity. cbn [set_ix w_st]. destruct (write_quiet (c_storage ch) id (tp_ts p) (tp_val p) (w_st w) Hs) as [W1 W2].
      cbn [run]. intros H. injection H as <- <-. split.
      { destruct (fst _); [discriminate|discriminate|congruence]. }
      cbn [set_st set_ix w_st w_ix w_faults w_poisoned]. auto.
    - rewrite run_bind. cbn [run call chandler]. rewrite run_qbind, run_ix by reflexivity. cbn [set_next set_ix w_ix w_next].
      match goal with |- context [create_index _ ls ?n] => destruct (create_quiet (c_indexer ch) ls n (w_ix w) Hi HL) as [C1 C2] end.
      match goal with |- context [create_index _ ls ?n] => set (new := n) in * end.
      destruct (fst (krun (create_index (c_indexer ch) ls new) (w_ix w))) as [u|e|]; [| |congruence].
      + rewrite run_qbind, run_st by reflexivity. cbn [set_next set_ix set_st w_st w_ix w_faults w_poisoned].
        destruct (write_quiet (c_storage ch) new (tp_ts p) (tp_val p) (w_st w) Hs) as [W1 W2].
        destruct (fst (krun (write_time_point (c_storage ch) new (tp_ts p) (tp_val p)) (w_st w))) as [u'|e|]; [| |congruence].
        * cbn [run]. intros H. injection H as <- <-. split; [discriminate|]. cbn. auto.
        * intros H. injection H as <- <-. split; [discriminate|]. cbn. auto.
      + intros H. injection H as <- <-. split; [discriminate|]. cbn. auto.
    - intros H. injection H as <- <-. split; [discriminate|]. cbn. auto.
  Qed.
  Lemma good_insert d ls p r w' : good d -> may ls p ->
    crun (dc_chunk d) (chunk_insert (dc_chunk d) ls p) (dc_world d) = Some (r, w') -> r <> Panic /\ good (mkDc (dc_chunk d) w' (dc_name d)).
  Proof.
    intros ((P1 & P2 & P3) & Hs & Hi & Hx) HM. unfold crun, chunk_insert. rewrite with_lock_run by assumption.
    destruct (run (chandler (dc_chunk d)) (insert_body (dc_chunk d) ls p) (set_lock (dc_world d) true false)) as [[r1 w1]|] eqn:E; [|discriminate].
    assert (HL: c_indexer (dc_chunk d) = SledIndexer \/ set_ok ls) by (destruct HM; auto).
    destruct (body_quiet _ _ _ (set_lock (dc_world d) true false) _ _ HL Hs Hi P3 E) as (B1 & B2 & B3 & B4 & B5).
    intros H. assert (r1 = r) as -> by congruence. assert (w' = set_lock w1 false (w_poisoned w1 || is_panic r)) as -> by congruence.
    split; [exact B1|]. split; [|cbn [dc_chunk dc_world set_lock w_st w_ix]; auto]. split; [reflexivity|]. cbn [dc_world set_lock w_poisoned w_faults]. split; [|exact B4].
    rewrite B5. cbn [set_lock w_poisoned orb]. now destruct r.
  Qed.

  (** ** what a file program may return *)
  Fixpoint leaves {A} (P : A -> Prop) (p : prog fcmd A) : Prop :=
    match p with
    | Ret a => P a
    | @Do _ _ X c k => match c in fcmd X return (X -> prog fcmd A) -> Prop with
                       | FUuid => fun k => forall u, length u = 16%nat -> leaves P (k u)
                       | _ => fun k => forall x, leaves P (k x)
                       end k
    end.
  Lemma leaves_bind {A B} (Q : A -> Prop) (P : B -> Prop) p (f : A -> prog fcmd B) : leaves Q p -> (forall a, Q a -> leaves P (f a)) -> leaves P (bind p f).
  Proof.
    intros H F. induction p as [a|X c k IH]; cbn [bind]; [now apply F|]. destruct c; cbn [leaves] in *; intros x; try (apply IH, H). intros L. apply IH. now apply H.
  Qed.
  Definition okay {A} (P : A -> Prop) (r : res A) : Prop := match r with Ok a => P a | _ => True end.
  Lemma leaves_qbind {A B} (Q : A -> Prop) (P : B -> Prop) p (f : A -> prog fcmd (res B)) : leaves (okay Q) p -> (forall a, Q a -> leaves (okay P) (f a)) -> leaves (okay P) (qbind p f).
  Proof. intros H F. unfold qbind. eapply leaves_bind; [exact H|]. intros [a|e|] Ha; [now apply F|exact I|exact I]. Qed.
  Lemma leaves_any {A} (p : prog fcmd A) : leaves (fun _ => True) p.
  Proof. induction p as [a|X c k IH]; [exact I|]. destruct c; cbn [leaves]; auto. Qed.
  Lemma leaves_mono {A} (P Q : A -> Prop) p : leaves P p -> (forall a, P a -> Q a) -> leaves Q p.
  Proof. intros H F. induction p as [a|X c k IH]; cbn [leaves] in *; [now apply F|]. destruct c; intros x; try (apply IH, H). intros L. apply IH. now apply H. Qed.
  Lemma fok_step X (c : fcmd X) f x f' : fok f -> fhandler X c f = Some (x, f') -> fok f'.
  Proof.
    intros H E. assert (f_uuid f' = f_uuid f); [|intros n; now rewrite H0].
    destruct c; cbn [fhandler] in E; try (injection E as _ <-; reflexivity); destruct (hd false (f_faults f)); injection E as _ <-; reflexivity.
  Qed.
  Lemma leaves_run {A} (P : A -> Prop) p : leaves P p -> forall f a f', fok f -> run fhandler p f = Some (a, f') -> P a /\ fok f'.
  Proof.
    intros H. induction p as [b|X c k IH]; intros f a f' Hf E; cbn [run] in E.
    - assert (b = a) as -> by congruence. assert (f = f') as -> by congruence. auto.
    - destruct (fhandler X c f) as [[x f1]|] eqn:E1; [|discriminate]. refine (IH x _ f1 a f' _ E); [|now apply (fok_step X c f x)].
      destruct c; cbn [leaves] in H; try apply H. cbn [fhandler] in E1. injection E1 as <- _. apply Hf.
  Qed.
  Lemma create_leaves s : leaves (okay good) (create_chunk cf s).
  Proof.
    unfold create_chunk. cbn [bind call leaves]. intros ident Hid. destruct (arith_u (cf_dbg cf) 64 (s + cf_size cf)) as [en|e|]; [|exact I|exact I].
    eapply leaves_bind; [apply leaves_any|]. intros [u|e|] _; [|exact I|exact I].
    eapply (leaves_qbind (fun st => stq (fst st) (snd st))).
    - unfold build_storage. destruct (cf_st cf).
      + eapply (leaves_qbind (fun _ => True)); [cbn [call leaves]; intros [x|e|]; exact I|]. intros a _. exact I.
      + eapply (leaves_qbind (fun _ => True)); [cbn [call leaves]; intros [x|e|]; exact I|]. intros a _. cbn [bind call leaves]. intros uu Hu.
        cbn [okay rmap fst snd stq]. intros k b. cbn [o_ident]. intros E. change (kv_get (kv_set [] ident (skipn 16 (nil_uuid ++ nil_uuid) ++ uu)) k = Some b) in E.
        rewrite kv_get_set in E. destruct (bytes_eqb ident k); [|discriminate]. assert (b = skipn 16 (nil_uuid ++ nil_uuid) ++ uu) as -> by congruence. rewrite app_length, Hu. lia.
    - intros [st sst] Hst. cbn [fst snd] in Hst.
      eapply (leaves_qbind (fun ix => ixq (fst ix) (snd ix) /\ (cf_ix cf = Sled -> fst ix = SledIndexer))).
      + unfold build_indexer. destruct (cf_ix cf).
        * eapply (leaves_qbind (fun _ => True)); [cbn [call leaves]; intros [x|e|]; exact I|]. intros a _. split; [exact I|reflexivity].
        * eapply (leaves_qbind (fun _ => True)); [cbn [call leaves]; intros [x|e|]; exact I|]. intros a _. cbn [bind call leaves]. intros uu Hu.
          split; [|discriminate]. cbn [fst snd ixq]. intros ls b _ X. exfalso. change (kv_get [(ident, uu ++ firstn 16 (nil_uuid ++ nil_uuid))] ((uu ++ firstn 16 (nil_uuid ++ nil_uuid)) ++ encode_labels ls true) = Some b) in X.
          rewrite kv_one_len in X; [discriminate|]. rewrite !app_length, Hid, Hu. cbn [firstn nil_uuid repeat app length]. lia.
      + intros [ix six] [Hix Hx]. cbn [leaves okay]. split; [split; [reflexivity|split; reflexivity]|]. cbn [dc_chunk dc_world c_storage c_indexer new_world w_st w_ix fst snd]. auto.
  Qed.
  Lemma good_new s f r g : fok f -> run fhandler (create_chunk cf s) f = Some (r, g) -> fok g /\ forall nd, r = Ok nd -> good nd.
  Proof. intros Hf E. destruct (leaves_run _ _ (create_leaves s) _ _ _ Hf E) as [H1 H2]. split; [exact H2|]. intros nd ->. exact H1. Qed.
  Lemma entry_leaves name : leaves (okay (fun o => forall d, o = Some d -> plain d)) (read_entry cf name).
  Proof.
    unfold read_entry. destruct (extract_name (join (cf_base cf) name)) as [dn|e|]; [|exact I|exact I].
    destruct (decode_chunk_dir dn) as [[a b]|e|]; cbn [leaves okay]; try (intros d H; discriminate).
    eapply (leaves_qbind (fun _ => True)); [eapply leaves_mono; [apply leaves_any|intros [x|e|] _; exact I]|]. intros o _. cbn [bind call leaves]. intros now.
    eapply (leaves_qbind (fun _ => True)); [eapply leaves_mono; [apply leaves_any|intros [x|e|] _; exact I]|]. intros st _.
    eapply (leaves_qbind (fun _ => True)); [eapply leaves_mono; [apply leaves_any|intros [x|e|] _; exact I]|]. intros ix _. cbn [leaves okay].
    destruct st as [[st ss]|]; [|discriminate]. destruct ix as [[ix si]|]; [|discriminate]. intros d H. injection H as <-. split; [reflexivity|split; reflexivity].
  Qed.
  Lemma new_leaves : leaves (okay (fun r => Forall plain (fst r) /\ good (snd r))) (db_new cf).
  Proof.
    unfold db_new. eapply (leaves_qbind (fun _ => True)); [eapply leaves_mono; [apply leaves_any|intros [x|e|] _; exact I]|]. intros _ _.
    eapply (leaves_qbind (Forall plain)).
    - unfold read_existing_chunk. eapply (leaves_qbind (fun _ => True)); [eapply leaves_mono; [apply leaves_any|intros [x|e|] _; exact I]|]. intros names _.
      eapply (leaves_qbind (Forall (fun o => forall d, o = Some d -> plain d))).
      + induction names as [|n names IH]; cbn [forM]; [constructor|]. eapply leaves_qbind; [apply entry_leaves|]. intros o Ho. eapply leaves_qbind; [exact IH|].
        intros os Hos. constructor; assumption.
      + intros l Hl. cbn [leaves okay]. rewrite Forall_forall in Hl |- *. intros d Hd. apply (Permutation_in _ (sort_chunks_perm _)) in Hd.
        apply (Hl (Some d)); [|reflexivity]. clear - Hd. induction l as [|[x|] l IH]; cbn in Hd; [contradiction| |]; [destruct Hd as [->|Hd]; [now left|]|]; right; auto.
    - intros old Ho. cbn [bind call leaves]. intros now. eapply leaves_qbind; [apply create_leaves|]. intros cur Hc. cbn [leaves okay fst snd]. auto.
  Qed.
  Lemma open_vok f w : fok f -> db_open cf f = Some (Ok tt, w) -> vok good fok w.
  Proof.
    intros Hf. unfold db_open. destruct (run fhandler (db_new cf) f) as [[[[old cur]|e|] f']|] eqn:E; try discriminate. intros H. injection H as <-.
    destruct (leaves_run _ _ new_leaves _ _ _ Hf E) as [[H1 H2] H3]. cbn [fst snd] in H1, H2. unfold opened. cbn [fst snd]. constructor; try reflexivity.
    - exists cur. split; [|exact H2]. cbn [d_heap d_cur]. rewrite nth_error_app2 by lia. now rewrite Nat.sub_diag.
    - cbn [d_heap d_sec]. apply Forall_forall. intros i Hi. apply in_seq in Hi. rewrite app_length. cbn [length]. lia.
    - apply Forall_app. split; [exact H1|]. constructor; [apply good_plain; exact H2|constructor].
    - exact H3.
  Qed.
End DB.

Lemma calls_may cf cs : calls_ok cf cs -> Forall (Forall (wcall_in (may cf))) cs.
Proof.
  intros H. apply Forall_forall. intros c Hc. apply Forall_forall. intros x Hx.
  assert (M: forall p, may cf (call_labels x) p).
  { intros p. destruct H as [H|H]; [now left|right]. rewrite Forall_forall in H. specialize (H c Hc). rewrite Forall_forall in H. now apply H. }
  destruct x as [ls p|ls pts]; cbn [wcall_in call_labels] in *; [apply M|]. apply Forall_forall. intros p _. apply M.
Qed.

(** ** after any history *)
Lemma run_alone {C W A} (h : handler C W) (p : prog C A) : forall w a w' i (ts : list (prog C A)), run h p w = Some (a, w') -> nth_error ts i = Some p ->
  exists n, interleave h (repeat i n) ts w = (upd ts i (Ret a), w').
Proof.
  induction p as [b|X c k IH]; intros w a w' i ts E N; cbn [run] in E.
  - injection E as <- <-. exists 0%nat. cbn [repeat interleave]. f_equal. symmetry. now apply upd_self.
  - destruct (h X c w) as [[x w1]|] eqn:E1; [|discriminate]. assert (Li: (i < length ts)%nat) by (apply nth_error_Some; congruence).
    destruct (IH x w1 a w' i (upd ts i (k x)) E) as (n & Hn); [rewrite nth_upd, Nat.eqb_refl by assumption; reflexivity|].
    exists (S n). cbn [repeat interleave]. rewrite N. cbn [step]. rewrite E1, Hn. f_equal. now apply upd_upd.
Qed.
Lemma op_vok cf o w r w' : ops_fit cf [o] -> vok (good cf) fok w -> drun (dop_prog cf o) w = Some (r, w') -> vok (good cf) fok w'.
Proof.
  intros HO V E.
  assert (CASE: forall starts cs i p a, nth_error (threads cf starts cs []) i = Some p -> calls_ok cf cs -> run dhandler p w = Some (a, w') ->
    (forall q, In q (upd (threads cf starts cs []) i (Ret a)) -> finished q) -> vok (good cf) fok w').
  { intros starts cs i p a N HC Hr FI. destruct (run_alone dhandler p w a w' i _ Hr N) as (n & Hn).
    apply (all_serial cf (may cf) (good cf) fok (good_plain cf) (good_insert cf) (good_new cf) w starts cs [] _ _ _ V (calls_may cf cs HC) Hn FI). }
  assert (RUN: forall (p : prog dcmd (res unit)) (f : list (res unit) -> prog dcmd wanswer), run dhandler p w = Some (r, w') -> exists a, run dhandler (bind (sequence [p]) f) w = run dhandler (f a) w').
  { intros p f Hp. cbn [sequence]. rewrite run_bind, run_bind, Hp. destruct r as [u|e|]; cbn [run bind]; eauto. }
  destruct o as [ls p|ls pts|s]; cbn [dop_prog] in E.
  - destruct (RUN (db_write_point ls p) (fun rs => Ret (Wrote rs)) E) as (a & Ha). cbn [run] in Ha.
    apply (CASE [] [[WPoint ls p]] 1%nat (client [WPoint ls p]) (Wrote a)); [reflexivity| |exact Ha|].
    + destruct HO as [HO|HO]; [now left|right]. inversion HO; subst. constructor; [constructor; [assumption|constructor]|constructor].
    + intros q [<-|[<-|[]]]; eexists; reflexivity.
  - destruct (RUN (db_write_points ls pts) (fun rs => Ret (Wrote rs)) E) as (a & Ha). cbn [run] in Ha.
    apply (CASE [] [[WBatch ls pts]] 1%nat (client [WBatch ls pts]) (Wrote a)); [reflexivity| |exact Ha|].
    + destruct HO as [HO|HO]; [now left|right]. inversion HO; subst. constructor; [constructor; [assumption|constructor]|constructor].
    + intros q [<-|[<-|[]]]; eexists; reflexivity.
  - destruct (RUN (db_swap cf s) (fun rs => Ret (Rotated rs)) E) as (a & Ha). cbn [run] in Ha.
    apply (CASE [s] [] 0%nat (rotator cf [s]) (Rotated a)); [reflexivity| |exact Ha|].
    + right. constructor.
    + intros q [<-|[]]; eexists; reflexivity.
Qed.
Lemma ops_fit_cons cf o ops : ops_fit cf (o :: ops) -> ops_fit cf [o] /\ ops_fit cf ops.
Proof. intros [H|H]; [split; now left|]. inversion H; subst. split; right; [constructor; [assumption|constructor]|assumption]. Qed.
Lemma after_vok cf ops : forall w rs w', ops_fit cf ops -> vok (good cf) fok w -> db_after_from cf ops w = Some (rs, w') -> vok (good cf) fok w'.
Proof.
  induction ops as [|o ops IH]; intros w rs w' HO V E; cbn [db_after_from] in E; [injection E as _ <-; exact V|].
  apply ops_fit_cons in HO as [H1 H2]. destruct (drun (dop_prog cf o) w) as [[r w1]|] eqn:E1; [|discriminate].
  destruct (db_after_from cf ops w1) as [[rs1 w2]|] eqn:E2; [|discriminate]. injection E as _ <-. apply (IH w1 rs1 w2 H2); [|exact E2]. now apply (op_vok cf o w r).
Qed.

Theorem writers_serial cf f w0 ops rs0 w starts cs qs sched ts w' : uuids_ok f -> db_open cf f = Some (Ok tt, w0) ->
  ops_fit cf ops -> db_after_from cf ops w0 = Some (rs0, w) -> calls_ok cf cs ->
  interleave dhandler sched (threads cf starts cs qs) w = (ts, w') -> (forall p, In p ts -> finished p) ->
  exists E, length E = length sched /\
    (forall n i, nth_error sched n = Some i -> returned (threads cf starts cs qs) w sched n i -> nth_error E n = Some []) /\
    let log := logged sched E in
    one_by_one cf log w w' /\ Forall (fun e => e_who e <= length cs)%nat log /\
    (exists rs, nth_error ts 0 = Some (Ret (Rotated rs)) /\ rotations starts (of_thread 0 log) rs) /\
    forall i c, nth_error cs i = Some c -> exists rs, nth_error ts (S i) = Some (Ret (Wrote rs)) /\ session c (of_thread (S i) log) rs.
Proof.
  intros Hf Ho HO Ha Hc E FI. pose proof (after_vok cf ops w0 rs0 w HO (open_vok cf f w0 Hf Ho) Ha) as V.
  destruct (all_serial cf (may cf) (good cf) fok (good_plain cf) (good_insert cf) (good_new cf) w starts cs qs sched ts w' V (calls_may cf cs Hc) E FI) as (_ & EE & H1 & H2 & H3).
  exists EE. split; [exact H1|]. split; [|exact H3]. intros n i Hn (a & Hi). exact (H2 n i a Hn Hi).
Qed.
Theorem writers_finish cf f w0 ops rs0 w starts cs qs sched : uuids_ok f -> db_open cf f = Some (Ok tt, w0) ->
  ops_fit cf ops -> db_after_from cf ops w0 = Some (rs0, w) -> calls_ok cf cs ->
  exists more, forall p, In p (fst (interleave dhandler (sched ++ more) (threads cf starts cs qs) w)) -> finished p.
Proof.
  intros Hf Ho HO Ha Hc. apply (all_finish cf (may cf) (good cf) fok (good_plain cf) (good_insert cf) (good_new cf)); [|now apply calls_may].
  exact (after_vok cf ops w0 rs0 w HO (open_vok cf f w0 Hf Ho) Ha).
Qed.

(** ** real time *)
Lemma logged_app s1 s2 E1 E2 : length s1 = length E1 -> logged (s1 ++ s2) (E1 ++ E2) = logged s1 E1 ++ logged s2 E2.
Proof.
  revert E1. induction s1 as [|i s1 IH]; intros [|e E1] H; try discriminate; [reflexivity|]. cbn [length] in H. injection H as H.
  unfold logged in *. cbn [app combine map concat fst snd]. now rewrite IH, app_assoc.
Qed.
Lemma of_logged i s E : (forall n, nth_error s n = Some i -> nth_error E n = Some [] \/ nth_error E n = None) -> of_thread i (logged s E) = [].
Proof.
  revert E. induction s as [|j s IH]; intros E H; [reflexivity|]. destruct E as [|e E]; [reflexivity|]. unfold logged. cbn [combine map concat fst snd].
  unfold of_thread. rewrite filter_app, map_app. assert (X: of_thread i (logged s E) = []) by (apply IH; intros n Hn; exact (H (S n) Hn)).
  unfold of_thread, logged in X. rewrite X, app_nil_r. destruct (Nat.eq_dec j i) as [->|Nj].
  - destruct (H 0%nat eq_refl) as [K|K]; cbn in K; [|discriminate]. injection K as ->. reflexivity.
  - unfold evs. clear - Nj. induction e as [|x e IH]; [reflexivity|]. cbn [map filter e_who]. destruct (Nat.eqb_spec j i); [congruence|exact IH].
Qed.
Lemma ret_stays {C W A} (h : handler C W) sched : forall (ts : list (prog C A)) w i a, nth_error ts i = Some (Ret a) -> nth_error (fst (interleave h sched ts w)) i = Some (Ret a).
Proof.
  induction sched as [|j sched IH]; intros ts w i a N; cbn [interleave]; [exact N|]. destruct (nth_error ts j) as [p|] eqn:Nj; [|now apply IH].
  destruct (step h p w) as [[p' w']|] eqn:St; [|now apply IH]. apply IH. rewrite nth_upd by (apply nth_error_Some; congruence).
  destruct (Nat.eqb_spec i j) as [->|_]; [|exact N]. assert (p = Ret a) as -> by congruence. discriminate.
Qed.
Lemma nth_skip {X} n : forall (l : list X) m, nth_error (skipn n l) m = nth_error l (n + m).
Proof. induction n as [|n IH]; intros [|x l] m; cbn [skipn nth_error Nat.add]; try reflexivity; [now destruct m|apply IH]. Qed.
Theorem writers_real_time cf f w0 ops rs0 w starts cs qs sched ts w' : uuids_ok f -> db_open cf f = Some (Ok tt, w0) ->
  ops_fit cf ops -> db_after_from cf ops w0 = Some (rs0, w) -> calls_ok cf cs ->
  interleave dhandler sched (threads cf starts cs qs) w = (ts, w') -> (forall p, In p ts -> finished p) ->
  exists log, one_by_one cf log w w' /\ Forall (fun e => e_who e <= length cs)%nat log /\
    (exists rs, nth_error ts 0 = Some (Ret (Rotated rs)) /\ rotations starts (of_thread 0 log) rs) /\
    (forall i c, nth_error cs i = Some c -> exists rs, nth_error ts (S i) = Some (Ret (Wrote rs)) /\ session c (of_thread (S i) log) rs) /\
    forall n, exists before since, log = before ++ since /\
      (forall i, returned (threads cf starts cs qs) w sched n i -> of_thread i since = []) /\
      (forall i, ~ In i (firstn n sched) -> of_thread i before = []).
Proof.
  intros Hf Ho HO Ha Hc E FI. destruct (writers_serial cf f w0 ops rs0 w starts cs qs sched ts w' Hf Ho HO Ha Hc E FI) as (EE & L & HR & H1 & H2 & H3 & H4).
  exists (logged sched EE). split; [exact H1|]. split; [exact H2|]. split; [exact H3|]. split; [exact H4|].
  intros n. exists (logged (firstn n sched) (firstn n EE)), (logged (skipn n sched) (skipn n EE)). split; [|split].
  - rewrite <- logged_app by (rewrite !firstn_length; lia). now rewrite !firstn_skipn.
  - intros i (a & Hi). apply of_logged. intros m Hm. left. rewrite nth_skip in Hm. rewrite nth_skip. apply (HR (n + m)%nat i Hm). exists a.
    rewrite <- (firstn_skipn n (firstn (n + m) sched)). rewrite interleave_app. rewrite firstn_firstn, Nat.min_l by lia.
    destruct (interleave dhandler (firstn n sched) (threads cf starts cs qs) w) as [t1 w1] eqn:E1. now apply ret_stays.
  - intros i Hi. apply of_logged. intros m Hm. exfalso. apply Hi. eapply nth_error_In. exact Hm.
Qed.
