(* Proofs about clients, queries and the swap thread interleaved: the parts, one thread at a time. *)
From Coq Require Import ZifyBool ZifyNat Permutation.
From Verif Require Import Rust StringProofs Prog Gorilla GorillaSpec Storage StorageSpec StorageProofs Labels IndexSpec Indexer
  LabelProofs IndexProofs Chunk ChunkSpec ChunkProofs ChunkFacts Conc Utils DirSpec DirProofs TiKvInit Db DbSpec MapProofs
  DbProofs DbHist DbFacts SwapSpec SwapProofs SwapConc SwapMain WritersSpec.

(** ** programs that do the same *)
Inductive peq {C : Type -> Type} {A} : prog C A -> prog C A -> Prop :=
| Q_ret a : peq (Ret a) (Ret a)
| Q_do X (c : C X) k k' : (forall x, peq (k x) (k' x)) -> peq (Do c k) (Do c k').
Lemma peq_refl {C A} (p : prog C A) : peq p p.
Proof. induction p; constructor; auto. Qed.
Lemma peq_do_inv {C A X} (p : prog C A) (c : C X) k : peq p (Do c k) -> exists k', p = Do c k' /\ forall x, peq (k' x) (k x).
Proof.
  intros H. exact (match H in peq p q return match q with @Do _ _ X c k => exists k', p = Do c k' /\ forall x, peq (k' x) (k x) | Ret _ => True end with
    | Q_ret a => I
    | Q_do X c k k' Hk => ex_intro _ k (conj eq_refl Hk) end).
Qed.
Lemma peq_ret_inv {C A} (p : prog C A) a : peq p (Ret a) -> p = Ret a.
Proof.
  intros H. exact (match H in peq p q return match q with Ret a => p = Ret a | @Do _ _ X c k => True end with
    | Q_ret a => eq_refl
    | Q_do X c k k' Hk => I end).
Qed.
Lemma peq_trans {C A} (p q r : prog C A) : peq p q -> peq q r -> peq p r.
Proof.
  intros H. revert r. induction H as [a|X c k k' Hk IH]; intros r Hr; [exact Hr|].
  assert (Hr': match r with Ret _ => False | @Do _ _ Y c2 k2 => exists E : X = Y, (match E in _ = Y return C Y with eq_refl => c end = c2) /\
    forall y, peq (k' (match E in _ = Y return Y -> X with eq_refl => fun y => y end y)) (k2 y) end).
  { exact (match Hr in peq q r return match q with Ret _ => True | @Do _ _ X c k' => match r with Ret _ => False | @Do _ _ Y c2 k2 => exists E : X = Y, (match E in _ = Y return C Y with eq_refl => c end = c2) /\
    forall y, peq (k' (match E in _ = Y return Y -> X with eq_refl => fun y => y end y)) (k2 y) end end with
    | Q_ret a => I
    | Q_do X c k k' Hk => ex_intro _ eq_refl (conj eq_refl Hk) end). }
  destruct r as [a|Y c2 k2]; [contradiction|]. destruct Hr' as (E & Ec & Hk2). subst Y. cbn in Ec. subst c2. constructor. intros x. apply IH. apply Hk2.
Qed.
Lemma peq_bind {C A B} (p q : prog C A) (f g : A -> prog C B) : peq p q -> (forall a, peq (f a) (g a)) -> peq (bind p f) (bind q g).
Proof. intros H F. induction H as [a|X c k k' Hk IH]; cbn [bind]; [apply F|]. constructor. exact IH. Qed.
Lemma peq_assoc {C A B D} (p : prog C A) (f : A -> prog C B) (g : B -> prog C D) : peq (bind (bind p f) g) (bind p (fun x => bind (f x) g)).
Proof. induction p as [a|X c k IH]; cbn [bind]; [apply peq_refl|]. constructor. exact IH. Qed.
Lemma peq_run {C W A} (h : handler C W) (p q : prog C A) w : peq p q -> run h p w = run h q w.
Proof. intros H. revert w. induction H as [a|X c k k' Hk IH]; intros w; cbn [run]; [reflexivity|]. destruct (h X c w) as [[x w']|]; [apply IH|reflexivity]. Qed.
(* one step of a program known up to peq *)
Lemma step_peq {C W A X} (h : handler C W) (p : prog C A) (c : C X) k w p' w' : peq p (Do c k) -> step h p w = Some (p', w') ->
  exists x, h X c w = Some (x, w') /\ peq p' (k x).
Proof.
  intros H St. apply peq_do_inv in H as (k' & -> & Hk). cbn [step] in St. destruct (h X c w) as [[x w2]|]; [|discriminate].
  exists x. assert (p' = k' x) as -> by congruence. assert (w2 = w') as -> by congruence. auto.
Qed.
Lemma step_peq_none {C W A X} (h : handler C W) (p : prog C A) (c : C X) k w : peq p (Do c k) -> step h p w = None -> h X c w = None.
Proof.
  intros H St. apply peq_do_inv in H as (k' & -> & Hk). cbn [step] in St. destruct (h X c w) as [[x w2]|]; [discriminate|reflexivity].
Qed.

(** ** chunk calls that have the lock *)
Lemma holding_runs {A} ch (q : prog ccmd A) : holding q -> forall w, exists r w', run (chandler ch) q w = Some (r, w').
Proof.
  induction 1 as [b k r Hk|X c k Hc Hk IH]; intros w.
  - cbn [run chandler]. rewrite Hk. cbn [run]. eauto.
  - cbn [run]. destruct (plain_runs ch X c w Hc) as (x & w' & -> & _). apply IH.
Qed.
Lemma insert_locking ch ls p : locking (chunk_insert ch ls p).
Proof. apply with_lock_locking, insert_plain. Qed.

Definition conv (b : bool) (r : res unit) : res unit :=
  if b then match r with Ok _ => Ok tt | Err _ => Err InternalErr | Panic => Panic end else r.
Definition put (b : bool) (ls : list label) (q : tp) : dop := if b then OpBatch ls [q] else OpPoint ls q.
Definition goal := list (dop * res unit) -> wanswer -> Prop.

Section CLIENT.
  (* the points that may be written *)
  Variable R : list label -> tp -> Prop.
  (* a client thread without or with the read guard, and what it has still to do *)
  Inductive cli : prog dcmd wanswer -> option (nat * chunk) -> goal -> Prop :=
  | C_ret a (D : goal) : D [] a -> cli (Ret a) None D
  | C_read k D : (forall i ch, cli (k (false, (i, ch))) (Some (i, ch)) D) -> cli (Do DCurRead k) None D
  | C_skip p i ch ls q (D : goal) : batch_passes ch q = false -> cli p (Some (i, ch)) (fun es a => D ((put true ls q, Ok tt) :: es) a) -> cli p (Some (i, ch)) D
  | C_insert i ch b ls q k (D : goal) : R ls q -> (b = true -> batch_passes ch q = true) ->
      (forall r, r <> Panic -> cli (k r) (Some (i, ch)) (fun es a => D ((put b ls q, conv b r) :: es) a)) ->
      cli (bind (lift (fun X c => @DC X i c) (chunk_insert ch ls q)) k) (Some (i, ch)) D
  | C_unread k i ch D : cli (k tt) None D -> cli (Do DCurUnread k) (Some (i, ch)) D
  | C_peq p q c D : peq p q -> cli q c D -> cli p c D.

  Definition skipped (ch : chunk) (es : list (dop * res unit)) : Prop :=
    Forall (fun e => exists ls q, e = (put true ls q, Ok tt) /\ batch_passes ch q = false) es.
  Inductive cnorm (p : prog dcmd wanswer) : option (nat * chunk) -> goal -> Prop :=
  | N_ret a (D : goal) : p = Ret a -> D [] a -> cnorm p None D
  | N_read k D : peq p (Do DCurRead k) -> (forall i ch, cli (k (false, (i, ch))) (Some (i, ch)) D) -> cnorm p None D
  | N_insert es i ch b ls q k (D : goal) : skipped ch es -> R ls q -> (b = true -> batch_passes ch q = true) ->
      peq p (bind (lift (fun X c => @DC X i c) (chunk_insert ch ls q)) k) ->
      (forall r, r <> Panic -> cli (k r) (Some (i, ch)) (fun es' a => D (es ++ (put b ls q, conv b r) :: es') a)) -> cnorm p (Some (i, ch)) D
  | N_unread es k i ch (D : goal) : skipped ch es -> peq p (Do DCurUnread k) -> cli (k tt) None (fun es' a => D (es ++ es') a) -> cnorm p (Some (i, ch)) D.
  Lemma cli_norm p c D : cli p c D -> cnorm p c D.
  Proof.
    induction 1 as [a D H|k D H IH|p i ch ls q D Hs H IH|i ch b ls q k D HR Hb H IH|k i ch D H IH|p q c D E H IH].
    - eapply N_ret; [reflexivity|assumption].
    - eapply N_read; [apply peq_refl|assumption].
    - inversion IH as [| |es i' ch' b ls' q' k D' Hsk HR Hb E H1|es k i' ch' D' Hsk E H1]; subst.
      + apply (N_insert p ((put true ls q, Ok tt) :: es) i ch b ls' q' k); try assumption. constructor; [eauto|assumption].
      + apply (N_unread p ((put true ls q, Ok tt) :: es) k); try assumption. constructor; [eauto|assumption].
    - apply (N_insert _ [] i ch b ls q k); try assumption; [constructor|apply peq_refl].
    - apply (N_unread _ [] k); [constructor|apply peq_refl|assumption].
    - inversion IH as [a D' E' H1|k D' E' H1|es i' ch' b ls' q' k D' Hsk HR Hb E' H1|es k i' ch' D' Hsk E' H1]; subst.
      + apply peq_ret_inv in E as ->. eapply N_ret; [reflexivity|assumption].
      + eapply N_read; [eapply peq_trans; eassumption|assumption].
      + eapply N_insert; try eassumption. eapply peq_trans; eassumption.
      + eapply N_unread; try eassumption. eapply peq_trans; eassumption.
  Qed.

  (* a client's program is such a thread *)
  Definition wcall_in (c : wcall) : Prop := match c with WPoint ls p => R ls p | WBatch ls pts => Forall (R ls) pts end.
  Lemma cli_mono p c D : cli p c D -> forall D' : goal, (forall es a, D es a -> D' es a) -> cli p c D'.
  Proof.
    induction 1 as [a D H|k D H IH|p i ch ls q D Hs H IH|i ch b ls q k D HR Hb H IH|k i ch D H IH|p q c D E H IH]; intros D' HD.
    - apply C_ret. auto.
    - apply C_read. auto.
    - eapply C_skip; [eassumption|]. apply IH. intros es a Hx. apply HD. exact Hx.
    - apply C_insert with (b := b); try assumption. intros r Hr. apply IH; [assumption|]. intros es a Hx. apply HD. exact Hx.
    - apply C_unread. auto.
    - eapply C_peq; [eassumption|]. auto.
  Qed.
  (* the points of a batch *)
  Definition batch_end (r : list (res unit)) : bool := existsb is_err r.
  Lemma write_all_cli i ch ls pts : Forall (R ls) pts -> forall (f : res bool -> prog dcmd wanswer) (D : goal),
    (forall us, length us = length pts ->
       cli (f (Ok (existsb is_err us))) (Some (i, ch)) (fun es a => D (map (fun pu => (OpBatch ls [fst pu], snd pu)) (combine pts us) ++ es) a)) ->
    cli (bind (write_all i ch ls pts) f) (Some (i, ch)) D.
  Proof.
    intros HR. induction HR as [|q pts Hq HR IH]; intros f D K.
    - cbn [write_all bind]. exact (K [] eq_refl).
    - cbn [write_all]. destruct (batch_passes ch q) eqn:Pq.
      + eapply C_peq; [apply peq_assoc|]. apply (C_insert i ch true ls q); [assumption|auto|]. intros r Hr. destruct r as [u|e|]; [| |congruence].
        * apply IH. intros us Hu. specialize (K (Ok tt :: us)). cbn [length existsb is_err orb combine map fst snd] in K. cbn [conv put]. apply K. lia.
        * unfold qbind. eapply C_peq; [apply peq_assoc|]. apply IH. intros us Hu. cbn [bind].
          specialize (K (Err InternalErr :: us)). cbn [length existsb is_err orb combine map fst snd] in K. cbn [conv put]. apply K. lia.
      + apply (C_skip _ i ch ls q); [assumption|]. apply IH. intros us Hu. specialize (K (Ok tt :: us)). cbn [length existsb is_err orb combine map fst snd] in K.
        cbn [put]. apply K. lia.
  Qed.
  Lemma wcall_cli c (f : res unit -> prog dcmd wanswer) (D : goal) : wcall_in c ->
    (forall es r, r <> Panic -> (forall cs es' rs, session cs es' rs -> session (c :: cs) (es ++ es') (r :: rs)) -> cli (f r) None (fun es' a => D (es ++ es') a)) ->
    cli (bind (wcall_prog c) f) None D.
  Proof.
    intros Hc K. destruct c as [ls p|ls pts]; cbn [wcall_prog]; unfold db_write_point, db_write_points, with_current; cbn [bind call]; apply C_read; intros i ch; cbn beta iota.
    - eapply C_peq; [apply peq_assoc|]. apply (C_insert i ch false ls p); [exact Hc|discriminate|]. intros r Hr. cbn [bind call]. apply C_unread.
      apply (K [(OpPoint ls p, r)] r Hr). intros cs es' rs Hs. cbn [app]. now constructor.
    - eapply C_peq; [eapply peq_trans; [apply peq_bind; [apply peq_assoc|intros; apply peq_refl]|eapply peq_trans; [apply peq_assoc|apply peq_refl]]|].
      apply write_all_cli; [exact Hc|]. intros us Hu. cbn [bind call]. apply C_unread. apply K.
      + destruct (existsb is_err us); discriminate.
      + intros cs es' rs Hs. constructor; [exact Hu|exact Hs].
  Qed.
  Lemma sequence_cli cs : Forall wcall_in cs -> forall (f : list (res unit) -> prog dcmd wanswer) (D : goal),
    (forall es rs, session cs es rs -> cli (f rs) None (fun es' a => D (es ++ es') a)) -> cli (bind (sequence (map wcall_prog cs)) f) None D.
  Proof.
    intros H. induction H as [|c cs Hc H IH]; intros f D K.
    - cbn [map sequence bind]. apply (K [] []). constructor.
    - cbn [map sequence]. eapply C_peq; [apply peq_assoc|]. apply wcall_cli; [exact Hc|]. intros es r Hr Hs.
      assert (X: cli (bind (bind (sequence (map wcall_prog cs)) (fun rs => Ret (r :: rs))) f) None (fun es' a => D (es ++ es') a)).
      { eapply C_peq; [apply peq_assoc|]. apply IH. intros es2 rs2 Hs2. cbn [bind].
        eapply cli_mono; [apply (K (es ++ es2) (r :: rs2)); now apply Hs|]. intros es3 a. cbn beta. now rewrite <- app_assoc. }
      destruct r; [exact X|exact X|congruence].
  Qed.
  Lemma client_cli cs : Forall wcall_in cs -> cli (client cs) None (fun es a => exists rs, a = Wrote rs /\ session cs es rs).
  Proof.
    intros H. unfold client. apply sequence_cli; [exact H|]. intros es rs Hs. apply C_ret. rewrite app_nil_r. eauto.
  Qed.
End CLIENT.

(** ** the swap thread *)
Section ROTATOR.
  Variable cf : config.
  Inductive rot : prog dcmd wanswer -> goal -> Prop :=
  | T_ret a (D : goal) : D [] a -> rot (Ret a) D
  | T_swap s k (D : goal) : (forall r, rot (k r) (fun es a => D ((OpSwap s, r) :: es) a)) -> rot (bind (db_swap cf s) k) D
  | T_peq p q D : peq p q -> rot q D -> rot p D.
  Lemma rot_norm p D : rot p D -> (exists a, p = Ret a /\ D [] a) \/
    (exists s k, peq p (bind (db_swap cf s) k) /\ forall r, rot (k r) (fun es a => D ((OpSwap s, r) :: es) a)).
  Proof.
    induction 1 as [a D H|s k D H IH|p q D E H IH].
    - left. eauto.
    - right. exists s, k. split; [apply peq_refl|assumption].
    - destruct IH as [(a & -> & HD)|(s & k & E' & Hk)].
      + apply peq_ret_inv in E as ->. left. eauto.
      + right. exists s, k. split; [eapply peq_trans; eassumption|assumption].
  Qed.
  Lemma rot_mono p D : rot p D -> forall D' : goal, (forall es a, D es a -> D' es a) -> rot p D'.
  Proof.
    induction 1 as [a D H|s k D H IH|p q D E H IH]; intros D' HD.
    - apply T_ret. auto.
    - apply T_swap. intros r. apply IH. intros es a Hx. apply HD. exact Hx.
    - eapply T_peq; [eassumption|]. auto.
  Qed.
  Lemma sequence_rot ss : forall (f : list (res unit) -> prog dcmd wanswer) (D : goal),
    (forall es rs, rotations ss es rs -> rot (f rs) (fun es' a => D (es ++ es') a)) -> rot (bind (sequence (map (db_swap cf) ss)) f) D.
  Proof.
    induction ss as [|s ss IH]; intros f D K.
    - cbn [map sequence bind]. apply (K [] []). constructor.
    - cbn [map sequence]. eapply T_peq; [apply peq_assoc|]. apply T_swap. intros r.
      assert (X: r <> Panic -> rot (bind (bind (sequence (map (db_swap cf) ss)) (fun rs => Ret (r :: rs))) f) (fun es a => D ((OpSwap s, r) :: es) a)).
      { intros Hr. eapply T_peq; [apply peq_assoc|]. apply IH. intros es2 rs2 Hs2. cbn [bind]. apply (K ((OpSwap s, r) :: es2) (r :: rs2)). now constructor. }
      destruct r as [u|e|]; [apply X; discriminate|apply X; discriminate|]. cbn [bind]. apply (K [(OpSwap s, Panic)] [Panic]). apply Ro_panic.
  Qed.
  Lemma rotator_rot ss : rot (rotator cf ss) (fun es a => exists rs, a = Rotated rs /\ rotations ss es rs).
  Proof. unfold rotator. apply sequence_rot. intros es rs Hs. apply T_ret. rewrite app_nil_r. eauto. Qed.
End ROTATOR.

(** ** query threads: they only read *)
Fixpoint rd {A} (p : prog dcmd A) (a b : bool) (n : nat) : Prop :=
  match p with
  | Ret _ => a = false /\ b = false
  | @Do _ _ X c k =>
      match c in dcmd X return (X -> prog dcmd A) -> Prop with
      | DCurRead => fun k => a = false /\ forall m po i ch, (n <= m)%nat -> (i < m)%nat -> rd (k (po, (i, ch))) true b m
      | DCurUnread => fun k => a = true /\ rd (k tt) false b n
      | DSecRead => fun k => b = false /\ forall m po cs, (n <= m)%nat -> Forall (fun c => fst c < m)%nat cs -> rd (k (po, cs)) a true m
      | DSecUnread => fun k => b = true /\ rd (k tt) a false n
      | @DC Y i c => fun k => readc Y c /\ (i < n)%nat /\ forall x, rd (k x) a b n
      | _ => fun _ => False
      end k
  end.
Lemma rd_mono {A} (p : prog dcmd A) : forall a b n m, rd p a b n -> (n <= m)%nat -> rd p a b m.
Proof.
  induction p as [x|X c k IH]; intros a b n m H L; [exact H|].
  destruct c; cbn [rd] in *; try contradiction.
  - destruct H as (H1 & H2 & H3). split; [exact H1|]. split; [lia|]. intros x. apply (IH x _ _ n); [apply H3|exact L].
  - destruct H as (H1 & H2). split; [exact H1|]. intros m' po i ch L1 L2. apply H2; lia.
  - destruct H as (H1 & H2). split; [exact H1|]. exact (IH _ _ _ _ _ H2 L).
  - destruct H as (H1 & H2). split; [exact H1|]. intros m' po cs L1 L2. apply H2; [lia|exact L2].
  - destruct H as (H1 & H2). split; [exact H1|]. exact (IH _ _ _ _ _ H2 L).
Qed.
Lemma rd_peq {A} (p q : prog dcmd A) : peq p q -> forall a b n, rd q a b n -> rd p a b n.
Proof.
  induction 1 as [x|X c k k' Hk IH]; intros a b n H; [exact H|]. destruct c; cbn [rd] in *; try contradiction.
  - destruct H as (H1 & H2 & H3). split; [exact H1|]. split; [exact H2|]. intros x. apply IH, H3.
  - destruct H as (H1 & H2). split; [exact H1|]. intros m po i ch L1 L2. now apply IH, H2.
  - destruct H as (H1 & H2). split; [exact H1|]. now apply IH.
  - destruct H as (H1 & H2). split; [exact H1|]. intros m po cs L1 L2. now apply IH, H2.
  - destruct H as (H1 & H2). split; [exact H1|]. now apply IH.
Qed.
Lemma rd_DC {A B} i (q : prog ccmd A) (f : A -> prog dcmd B) a b n : only readc q -> (i < n)%nat -> (forall x, rd (f x) a b n) ->
  rd (bind (lift (fun X c => @DC X i c) q) f) a b n.
Proof.
  intros H Hi Hf. induction q as [x|X c k IH]; cbn [lift bind]; [apply Hf|]. cbn [only] in H. destruct H as [H1 H2]. cbn [rd].
  split; [exact H1|]. split; [exact Hi|]. intros x. apply IH, H2.
Qed.
Lemma secs_rd {A} hs bs o ls s e n cs : Forall (fun c : nat * chunk => fst c < n)%nat cs -> forall m (f : res hmap -> prog dcmd A), (forall r, rd (f r) false true n) ->
  rd (bind (query_secondaries hs bs o ls s e cs m) f) false true n.
Proof.
  induction 1 as [|[i ch] cs Hi H IH]; intros m f Hf; cbn [query_secondaries bind]; [apply Hf|]. destruct (is_with_range ch s e); [|now apply IH].
  eapply rd_peq; [apply peq_assoc|]. apply rd_DC; [apply query_only|exact Hi|]. intros [l|x|].
  - destruct (merge (hm_append hs) m l); [now apply IH|apply Hf|apply Hf].
  - now apply IH.
  - apply Hf.
Qed.
Lemma query_rd {A} q (f : _ -> prog dcmd A) : forall n, (forall m r, (n <= m)%nat -> rd (f r) false false m) -> rd (bind (ask_prog q) f) false false n.
Proof.
  intros n Hf. unfold ask_prog, db_query, qbind. eapply rd_peq; [apply peq_assoc|]. unfold with_current. cbn [bind call rd].
  split; [reflexivity|]. intros m po i ch Lm Li. cbn beta iota. destruct po.
  - cbn [bind call rd]. split; [reflexivity|]. apply Hf. lia.
  - eapply rd_peq; [apply peq_assoc|]. cbn beta. eapply rd_peq; [apply peq_assoc|]. apply rd_DC; [apply query_only|exact Li|].
    intros r. cbn [bind call rd]. split; [reflexivity|]. destruct (match r with Ok l => merge (hm_insert (k_hs q)) [] l | Err _ => Ok [] | Panic => Panic end) as [hm|x|].
    + cbn [bind call rd]. split; [reflexivity|]. intros m2 po2 cs L2 Hcs. cbn beta iota. eapply rd_peq; [apply peq_assoc|].
      destruct po2.
      * cbn [bind call rd]. split; [reflexivity|]. apply Hf. lia.
      * apply secs_rd; [now apply Forall_rev|]. intros r2. cbn [bind call rd]. split; [reflexivity|]. apply Hf. lia.
    + apply Hf. lia.
    + apply Hf. lia.
Qed.
Lemma sequence_rd {A} qs : forall (f : _ -> prog dcmd A) n, (forall m rs, (n <= m)%nat -> rd (f rs) false false m) -> rd (bind (sequence (map ask_prog qs)) f) false false n.
Proof.
  induction qs as [|q qs IH]; intros f n Hf; cbn [map sequence].
  - apply Hf. lia.
  - eapply rd_peq; [apply peq_assoc|]. apply query_rd. intros m r Lm.
    assert (X: rd (bind (bind (sequence (map ask_prog qs)) (fun rs => Ret (r :: rs))) f) false false m).
    { eapply rd_peq; [apply peq_assoc|]. apply IH. intros m2 rs L2. cbn [bind]. apply Hf. lia. }
    destruct r; [exact X|exact X|]. cbn [bind]. apply Hf. lia.
Qed.
Lemma querier_rd qs n : rd (querier qs) false false n.
Proof. unfold querier. apply sequence_rd. intros m rs L. split; reflexivity. Qed.
