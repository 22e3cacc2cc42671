(* The insert with its flushes does what the insert without them does; how much of the index is
   not flushed. *)
From Coq Require Import ZifyBool ZifyNat.
From Verif Require Import Rust Prog Gorilla GorillaSpec Storage StorageSpec StorageProofs Labels Indexer IndexSpec
  LabelProofs IntersectProofs IndexProofs Chunk ChunkSpec ChunkProofs ChunkFacts ConcSpec Conc CrashProofs ReadsSpec ReadsMay ReadsCrash ReadsConc
  Flush LossSpec.
Ltac Zify.zify_post_hook ::= Z.div_mod_to_equations.

(** ** dropping the flushes *)
Inductive erases {A} : prog lcmd A -> prog ccmd A -> Prop :=
| Er_ret a : erases (Ret a) (Ret a)
| Er_do X (c : ccmd X) k k' : (forall x, erases (k x) (k' x)) -> erases (Do (LC c) k) (Do c k')
| Er_flush k p : (forall r, erases (k r) p) -> erases (Do LFlush k) p.

Lemma er_bind {A B} (p : prog lcmd A) p' (f : A -> prog lcmd B) f' : erases p p' -> (forall a, erases (f a) (f' a)) ->
  erases (bind p f) (bind p' f').
Proof. intros H F. induction H as [a|X c k k' H IH|k p H IH]; cbn [bind]; [apply F|constructor; exact IH|constructor; exact IH]. Qed.
Lemma er_qbind {A B} (p : prog lcmd (res A)) p' (f : A -> prog lcmd (res B)) f' : erases p p' -> (forall a, erases (f a) (f' a)) ->
  erases (qbind p f) (qbind p' f').
Proof. intros H F. apply er_bind; [assumption|]. intros [a|e|]; [apply F|constructor..]. Qed.
Lemma er_call {X} (c : ccmd X) : erases (call (LC c)) (call c).
Proof. constructor. intros x. constructor. Qed.
Lemma er_ix {A} (p : prog kcmd A) : erases (lift lix p) (lift (@CIx) p).
Proof. induction p as [a|X c k IH]; cbn [lift]; [constructor|]. unfold lix at 1. constructor. exact IH. Qed.
Lemma er_st {A} (p : prog kcmd A) : erases (lift lst p) (lift (@CSt) p).
Proof. induction p as [a|X c k IH]; cbn [lift]; [constructor|]. unfold lst at 1. constructor. exact IH. Qed.

(* the same for index programs *)
Inductive erases_k {A} : prog lcmd A -> prog kcmd A -> Prop :=
| Ek_ret a : erases_k (Ret a) (Ret a)
| Ek_do X (c : kcmd X) k k' : (forall x, erases_k (k x) (k' x)) -> erases_k (Do (lix X c) k) (Do c k')
| Ek_flush k p : (forall r, erases_k (k r) p) -> erases_k (Do LFlush k) p.
Lemma ek_bind {A B} (p : prog lcmd A) p' (f : A -> prog lcmd B) f' : erases_k p p' -> (forall a, erases_k (f a) (f' a)) ->
  erases_k (bind p f) (bind p' f').
Proof. intros H F. induction H as [a|X c k k' H IH|k p H IH]; cbn [bind]; [apply F|constructor; exact IH|constructor; exact IH]. Qed.
Lemma ek_qbind {A B} (p : prog lcmd (res A)) p' (f : A -> prog lcmd (res B)) f' : erases_k p p' -> (forall a, erases_k (f a) (f' a)) ->
  erases_k (qbind p f) (qbind p' f').
Proof. intros H F. apply ek_bind; [assumption|]. intros [a|e|]; [apply F|constructor..]. Qed.
Lemma ek_call {X} (c : kcmd X) : erases_k (call (lix X c)) (call c).
Proof. constructor. intros x. constructor. Qed.
Lemma ek_er {A} (p : prog lcmd A) p' : erases_k p p' -> erases p (lift (@CIx) p').
Proof. induction 1 as [a|X c k k' H IH|k p H IH]; cbn [lift]; [constructor| |constructor; exact IH]. unfold lix. constructor. exact IH. Qed.
Lemma ek_lift {A} (p : prog kcmd A) : erases_k (lift lix p) p.
Proof. induction p as [a|X c k IH]; cbn [lift]; [constructor|]. constructor. exact IH. Qed.

Lemma ek_reverse id l : erases_k (sled_add_reverse_f id l) (sled_add_reverse id l).
Proof.
  unfold sled_add_reverse_f, sled_add_reverse. apply ek_qbind; [apply ek_call|]. intros v. apply ek_bind; [apply ek_call|].
  intros _. cbn [bind call]. constructor. intros _. constructor.
Qed.
Lemma ek_reverses id ls : erases_k (forM (sled_add_reverse_f id) ls) (forM (sled_add_reverse id) ls).
Proof.
  induction ls as [|l ls IH]; [constructor|]. cbn [forM]. apply ek_qbind; [apply ek_reverse|]. intros u.
  apply ek_qbind; [exact IH|]. intros. constructor.
Qed.
Lemma ek_create ix ls id : erases_k (create_index_f ix ls id) (create_index ix ls id).
Proof.
  destruct ix as [|i]; cbn [create_index_f create_index]; [|apply ek_lift]. unfold sled_create_f, sled_create.
  apply ek_qbind; [apply ek_call|]. intros [v|]; [constructor|]. apply ek_bind; [apply ek_call|]. intros _. apply ek_bind; [apply ek_call|].
  intros _. apply ek_qbind; [apply ek_reverses|]. intros. constructor.
Qed.
Theorem insert_erases ch ls p : erases (chunk_insert_f ch ls p) (chunk_insert ch ls p).
Proof.
  unfold chunk_insert_f, chunk_insert, with_write_lock. apply er_bind; [apply er_call|]. intros [|].
  - apply er_bind; [apply er_call|]. intros. constructor.
  - apply er_bind; [|intros r; apply er_bind; [apply er_call|intros; constructor]].
    unfold insert_body_f, insert_body. destruct (negb _); [constructor|]. apply er_qbind; [apply er_ix|]. intros [id|].
    + apply er_bind; [apply er_st|]. intros. constructor.
    + apply er_bind; [apply er_call|]. intros id. apply er_qbind; [apply ek_er, ek_create|]. intros _.
      apply er_qbind; [apply er_st|]. intros. constructor.
Qed.

Lemma er_run ch {A} (pf : prog lcmd A) p : erases pf p -> forall w n,
  match run (chandler ch) p w with
  | Some (a, w1) => exists n1, run (lhandler ch) pf (w, n) = Some (a, (w1, n1))
  | None => run (lhandler ch) pf (w, n) = None
  end.
Proof.
  induction 1 as [a|X c k k' H IH|k p H IH]; intros w n; cbn [run lhandler fst snd].
  - eauto.
  - destruct (chandler ch X c w) as [[x w1]|]; [|reflexivity]. apply IH.
  - apply IH.
Qed.

(** ** the index store only grows *)
Lemma step_log ch X (c : ccmd X) w x w' : chandler ch X c w = Some (x, w') -> w_faults w = [] ->
  exists L, w_ix w' = L ++ w_ix w /\ map fst L = iset_of c.
Proof.
  destruct c as [X c|X c| | |b| | |]; cbn [chandler iset_of]; intros E Hf; rewrite ?Hf in E.
  - destruct (kv_fault_handler _ X c (w_st w, [])) as [[y [s fs]]|]; [|discriminate]. injection E as <- <-. exists []. auto.
  - destruct c as [key|key v]; cbn [kv_fault_handler hd tl] in E; injection E as <- <-; cbn [w_ix set_ix]; [exists []; auto|].
    exists [(key, v)]. auto.
  - injection E as <- <-. exists []. auto.
  - destruct (w_locked w); [discriminate|]. injection E as <- <-. exists []. auto.
  - injection E as <- <-. exists []. auto.
  - destruct (w_locked w); [discriminate|]. injection E as <- <-. exists []. auto.
  - injection E as <- <-. exists []. auto.
  - injection E as <- <-. exists []. auto.
Qed.
Lemma iset_rev {X} (c : ccmd X) : rev (iset_of c) = iset_of c.
Proof. destruct c as [X c|X c| | |b| | |]; cbn [iset_of]; try reflexivity. destruct c; reflexivity. Qed.
Lemma run_log ch {A} (p : prog ccmd A) : forall w a w1, run (chandler ch) p w = Some (a, w1) -> w_faults w = [] ->
  exists L, w_ix w1 = L ++ w_ix w /\ map fst L = rev (isets ch p w).
Proof.
  induction p as [b|X c k IH]; intros w a w1 E Hf; cbn [run isets] in *.
  - injection E as <- <-. exists []. auto.
  - destruct (chandler ch X c w) as [[x w']|] eqn:F; [|discriminate]. destruct (step_log ch X c w x w' F Hf) as (L1 & E1 & K1).
    destruct (IH x w' a w1 E (step_faults _ _ _ _ _ _ F Hf)) as (L2 & E2 & K2). exists (L2 ++ L1).
    rewrite E2, E1, <- app_assoc. split; [reflexivity|]. rewrite map_app, K2, K1, rev_app_distr, iset_rev. reflexivity.
Qed.
(* stopping part way *)
Lemma crash_log ch {A} (p : prog ccmd A) : forall n w a w1, run (chandler ch) p w = Some (a, w1) -> w_faults w = [] ->
  let w' := snd (crash_at (chandler ch) n p w) in
  exists L1 L2, w_ix w' = L1 ++ w_ix w /\ w_ix w1 = L2 ++ w_ix w'.
Proof.
  cbv zeta. intros n. revert p. induction n as [|n IH]; intros p w a w1 E Hf.
  - destruct (run_log ch p w a w1 E Hf) as (L & E1 & _). exists [], L. auto.
  - destruct p as [b|X c k]; cbn [crash_at run] in *.
    + injection E as <- <-. exists [], []. auto.
    + destruct (chandler ch X c w) as [[x w']|] eqn:F; [|discriminate]. destruct (step_log ch X c w x w' F Hf) as (L0 & E0 & _).
      destruct (IH (k x) w' a w1 E (step_faults _ _ _ _ _ _ F Hf)) as (L1 & L2 & E1 & E2). exists (L1 ++ L0), L2.
      rewrite E1, E0, <- app_assoc. split; [reflexivity|]. rewrite E2, E1, E0. reflexivity.
Qed.
Lemma er_crash ch {A} (pf : prog lcmd A) p : erases pf p -> forall c w n, w_faults w = [] ->
  let wn := snd (crash_at (lhandler ch) c pf (w, n)) in
  exists c', fst wn = snd (crash_at (chandler ch) c' p w) /\
    exists L, w_ix (fst wn) = L ++ w_ix w /\ (snd wn <= n + List.length L)%nat.
Proof.
  cbv zeta. induction 1 as [a|X c0 k k' H IH|k p H IH]; intros c w n Hf.
  - exists O. cbn [crash_at]. assert (E: crash_at (lhandler ch) c (Ret a : prog lcmd A) (w, n) = (Ret a, (w, n))) by (destruct c; reflexivity).
    rewrite E. cbn [fst snd]. split; [reflexivity|]. exists []. cbn [app List.length]. split; [reflexivity|lia].
  - destruct c as [|c].
    + exists O. cbn [crash_at fst snd]. split; [reflexivity|]. exists []. cbn [app List.length]. split; [reflexivity|lia].
    + cbn [crash_at lhandler fst snd]. destruct (chandler ch X c0 w) as [[x w']|] eqn:F.
      * destruct (step_log ch X c0 w x w' F Hf) as (L0 & E0 & _).
        destruct (IH x c w' (n + (List.length (w_ix w') - List.length (w_ix w)))%nat (step_faults _ _ _ _ _ _ F Hf)) as (c' & E & L & EL & LL).
        exists (S c'). cbn [crash_at]. rewrite F. split; [exact E|]. exists (L ++ L0). rewrite <- app_assoc, <- E0. split; [exact EL|].
        rewrite E0, !app_length in *. lia.
      * exists O. cbn [crash_at fst snd]. split; [reflexivity|]. exists []. cbn [app List.length]. split; [reflexivity|lia].
  - destruct c as [|c].
    + exists O. cbn [crash_at fst snd]. split; [reflexivity|]. exists []. cbn [app List.length]. split; [reflexivity|lia].
    + cbn [crash_at lhandler fst snd]. destruct (IH (Ok tt) c w O Hf) as (c' & E & L & EL & LL). exists c'. split; [exact E|]. exists L. split; [exact EL|lia].
Qed.

(** ** what is not flushed after an insert *)
Lemma run_call {C W A} (h : handler C W) (c : C A) w : run h (call c) w = h A c w.
Proof. unfold call. cbn [run]. destruct (h A c w) as [[x w']|]; reflexivity. Qed.
Lemma lst_run ch {A} (p : prog kcmd A) : forall w n, run (lhandler ch) (lift lst p) (w, n) =
  match run (chandler ch) (lift (@CSt) p) w with Some (a, w') => Some (a, (w', n)) | None => None end.
Proof.
  induction p as [a|X c k IH]; intros w n; [reflexivity|]. cbn [lift run]. unfold lst at 1. cbn [lhandler fst snd].
  destruct (chandler ch X (CSt c) w) as [[x w']|] eqn:F; [|reflexivity]. rewrite IH.
  cbn [chandler] in F. destruct (kv_fault_handler _ X c (w_st w, w_faults w)) as [[y [s fs]]|]; [|discriminate]. injection F as <- <-.
  cbn [w_ix set_st]. rewrite Nat.sub_diag, Nat.add_0_r. reflexivity.
Qed.
Lemma lix_run ch {A} (p : prog kcmd A) : gets p -> forall w n, run (lhandler ch) (lift lix p) (w, n) =
  match run (chandler ch) (lift (@CIx) p) w with Some (a, w') => Some (a, (w', n)) | None => None end.
Proof.
  induction 1 as [a|key k Hk IH]; intros w n; [reflexivity|]. cbn [lift run]. unfold lix at 1. cbn [lhandler fst snd].
  cbn [chandler kv_fault_handler]. cbn [w_ix set_ix]. rewrite Nat.sub_diag, Nat.add_0_r. apply IH.
Qed.
Lemma reverse_flushed ch id l w n : w_faults w = [] -> exists s, run (lhandler ch) (sled_add_reverse_f id l) (w, n) = Some (Ok tt, (set_ix w s [], O)).
Proof.
  intros Hf. unfold sled_add_reverse_f. cbn [qbind bind call run lhandler lix fst snd chandler kv_fault_handler]. rewrite Hf. cbn [hd tl].
  cbn [bind run lhandler fst snd chandler kv_fault_handler set_ix w_ix w_faults hd tl]. eexists. reflexivity.
Qed.
Lemma reverses_flushed ch id ls : forall w n, w_faults w = [] -> exists us s,
  run (lhandler ch) (forM (sled_add_reverse_f id) ls) (w, n) = Some (Ok us, (set_ix w s [], match ls with [] => n | _ => O end)).
Proof.
  induction ls as [|l ls IH]; intros w n Hf.
  - exists [], (w_ix w). cbn [forM run]. do 3 f_equal. destruct w; cbn in *. now subst.
  - cbn [forM]. destruct (reverse_flushed ch id l w n Hf) as (s & E). rewrite run_qbind, E.
    destruct (IH (set_ix w s []) O eq_refl) as (us & s' & E'). rewrite run_qbind, E'. cbn [run]. eexists _, s'. do 3 f_equal.
    destruct ls; reflexivity.
Qed.
Lemma insert_flushed ch ls p w r wn : c_indexer ch = SledIndexer -> ls <> [] -> w_faults w = [] ->
  run (lhandler ch) (chunk_insert_f ch ls p) (w, O) = Some (r, wn) -> snd wn = O.
Proof.
  intros Hi Hls Hf. unfold chunk_insert_f. rewrite run_bind, run_call. cbn [lhandler fst snd chandler].
  destruct (w_locked w); [discriminate|]. cbn [w_ix set_lock]. rewrite Nat.sub_diag. cbn [Nat.add]. destruct (w_poisoned w).
  { rewrite run_bind, run_call. cbn [lhandler fst snd chandler run w_ix set_lock]. rewrite Nat.sub_diag. intros E. now injection E as <- <-. }
  rewrite run_bind. set (w1 := set_lock w true false).
  assert (B: forall r2 wn2, run (lhandler ch) (insert_body_f ch ls p) (w1, O) = Some (r2, wn2) -> snd wn2 = O).
  { intros r2 wn2. unfold insert_body_f. destruct (negb _); [cbn [run]; intros E; now injection E as <- <-|]. rewrite Hi. cbn [series_id_by_labels create_index_f].
    rewrite run_qbind, lix_run by (unfold sled_by_labels; apply gets_qbind; [apply gets_call|constructor]).
    rewrite run_ix by (unfold w1; cbn; assumption). destruct (fst (krun _ _)) as [[id|]|e|]; try (intros E; now injection E as <- <-).
    - rewrite run_bind, lst_run. destruct (run (chandler ch) _ _) as [[a w2]|]; [|discriminate]. cbn [run]. intros E; now injection E as <- <-.
    - rewrite run_bind, run_call. cbn [lhandler fst snd chandler w_ix set_ix set_next]. rewrite Nat.sub_diag. cbn [Nat.add]. rewrite run_qbind.
      assert (C: forall id w2 n2 r3 wn3, w_faults w2 = [] -> run (lhandler ch) (sled_create_f ls id) (w2, n2) = Some (r3, wn3) ->
        (match r3 with Ok _ => snd wn3 = O | _ => snd wn3 = n2 end)).
      { clear -Hls. intros id w2 n2 r3 wn3 Hf. unfold sled_create_f. rewrite run_qbind, run_call. cbn [lhandler lix fst snd chandler kv_fault_handler]. rewrite Hf. cbn [hd tl].
        cbn [w_ix set_ix]. rewrite Nat.sub_diag, Nat.add_0_r. destruct (kv_get (w_ix w2) _); [cbn [run]; intros E; now injection E as <- <-|].
        rewrite run_bind, run_call. cbn [lhandler lix fst snd chandler kv_fault_handler set_ix w_faults hd tl w_ix].
        rewrite run_bind, run_call. cbn [lhandler lix fst snd chandler kv_fault_handler set_ix w_faults hd tl w_ix]. rewrite run_qbind.
        match goal with |- context [run _ (forM _ _) (?a, ?b)] => destruct (reverses_flushed ch id ls a b eq_refl) as (us & s & ->) end.
        cbn [run]. intros E. injection E as <- <-. cbn [snd]. destruct ls; [congruence|reflexivity]. }
      match goal with |- context [run _ (sled_create_f ls ?i) (?a, ?b)] => destruct (run (lhandler ch) (sled_create_f ls i) (a, b)) as [[r3 wn3]|] eqn:E3;
        [|discriminate]; pose proof (C i a b r3 wn3 eq_refl E3) as C3 end.
      destruct r3 as [u|e|]; try (intros E; injection E as <- <-; exact C3). destruct wn3 as [w3 n3]. cbn [snd] in C3. subst n3.
      rewrite run_qbind, lst_run. destruct (run (chandler ch) _ _) as [[[a|e|] w4]|]; try discriminate; cbn [run]; intros E; now injection E as <- <-. }
  destruct (run (lhandler ch) (insert_body_f ch ls p) (w1, O)) as [[r2 [w2 n2]]|] eqn:E2; [|discriminate].
  pose proof (B _ _ eq_refl) as B2. cbn [snd] in B2. subst n2. rewrite run_bind, run_call. cbn [lhandler fst snd chandler run w_ix set_lock]. rewrite Nat.sub_diag.
  intros E. now injection E as <- <-.
Qed.

Theorem index_flushed ch h : c_indexer ch = SledIndexer -> Forall ireq_ok h -> Forall (fun r => fst r <> []) h -> Z.of_nat (length h) < 2 ^ 64 ->
  exists w, after ch h = Some w /\ after_f ch h = Some (w, O).
Proof.
  intros Hi. induction h as [|r h IH] using rev_ind; intros Hh Hn HL.
  - exists (new_world [] []). split; reflexivity.
  - apply Forall_app in Hh as [Hh Hr]. inversion Hr as [|x l Hr' _]; subst. apply Forall_app in Hn as [Hn Hnr]. inversion Hnr as [|x l Hnr' _]; subst.
    rewrite app_length in HL. cbn [length] in HL. destruct (IH Hh Hn ltac:(lia)) as (w & E1 & E2).
    destruct (after_content ch h Hh ltac:(lia)) as (w0 & E0 & R). assert (w0 = w) as -> by congruence.
    destruct (after_content ch (h ++ [r])) as (w1 & Ew1 & _); [apply Forall_app; split; assumption|rewrite app_length; cbn [length]; lia|].
    exists w1. split; [exact Ew1|].
    assert (S1: forall h' wn, after_f_from ch (h' ++ [r]) wn = match after_f_from ch h' wn with Some wn' => after_f_from ch [r] wn' | None => None end).
    { clear. induction h' as [|a h' IH]; intros wn; [reflexivity|]. cbn [app after_f_from]. destruct (run _ _ wn) as [[x wn']|]; [apply IH|reflexivity]. }
    assert (S2: after ch (h ++ [r]) = match crun ch (chunk_insert ch (fst r) (snd r)) w with Some (_, w') => Some w' | None => None end).
    { destruct (crun ch (chunk_insert ch (fst r) (snd r)) w) as [[x w']|] eqn:E; [eapply after_snoc; eassumption|].
      pose proof (insert_run ch w (content_of ch h) (fst r) (snd r) R (proj1 Hr') (proj2 Hr')) as I.
      pose proof (content_length ch h). specialize (I ltac:(lia)). destruct (in_windowb ch (tp_ts (snd r))); [destruct I as (? & I & _)|]; congruence. }
    unfold after_f. rewrite S1. unfold after_f in E2. rewrite E2. cbn [after_f_from].
    pose proof (er_run ch _ _ (insert_erases ch (fst r) (snd r)) w O) as ER. unfold crun in S2.
    destruct (run (chandler ch) (chunk_insert ch (fst r) (snd r)) w) as [[x w']|]; [|congruence].
    destruct ER as (n1 & ER). rewrite ER. pose proof (insert_flushed ch _ _ w x _ Hi Hnr' (cr_faults _ _ _ R) ER) as Z0. cbn [snd] in Z0. subst n1.
    congruence.
Qed.
