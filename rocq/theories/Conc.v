(* Proofs about interleaved use of one chunk and about crashes. *)
From Coq Require Import ZifyBool ZifyNat Permutation.
From Verif Require Import Rust Prog Gorilla GorillaSpec Storage StorageSpec StorageProofs Labels Indexer IndexSpec
  Chunk ChunkSpec ChunkProofs ConcSpec.
Ltac Zify.zify_post_hook ::= Z.div_mod_to_equations.

Lemma nth_upd {A} (l : list A) i x j : (i < length l)%nat ->
  nth_error (upd l i x) j = if Nat.eqb j i then Some x else nth_error l j.
Proof.
  revert i j. induction l as [|a l IH]; intros i j H; cbn [length] in H; [lia|]. unfold upd. destruct i as [|i]; cbn [firstn skipn app].
  - destruct j; reflexivity.
  - destruct j as [|j]; [reflexivity|]. cbn [nth_error Nat.eqb]. apply IH. lia.
Qed.
Lemma upd_length {A} (l : list A) i x : (i < length l)%nat -> length (upd l i x) = length l.
Proof.
  revert i. induction l as [|a l IH]; intros i H; cbn [length] in H; [lia|]. unfold upd. destruct i as [|i]; cbn [firstn skipn app length]; [reflexivity|].
  f_equal. apply IH. lia.
Qed.

(** ** serialisation *)
(* commands other than those on the lock *)
Inductive plain : forall X, ccmd X -> Prop :=
| P_st X c : plain X (CSt c)
| P_ix X c : plain X (CIx c)
| P_id : plain _ CNextId
| P_set : plain _ CSetClosed
| P_get : plain _ CGetClosed.
Inductive plainp {A} : prog ccmd A -> Prop :=
| PP_ret a : plainp (Ret a)
| PP_do X c k : plain X c -> (forall x, plainp (k x)) -> plainp (Do c k).
(* what is left of a call whose thread has the lock *)
Inductive holding {A} : prog ccmd A -> Prop :=
| Ho_unlock b k r : k tt = Ret r -> holding (Do (CWriteUnlock b) k)
| Ho_do X c k : plain X c -> (forall x, holding (k x)) -> holding (Do c k).

Lemma plain_runs ch X c w : plain X c -> exists x w', chandler ch X c w = Some (x, w') /\ w_locked w' = w_locked w.
Proof.
  intros []; cbn [chandler].
  - destruct c0 as [key|key v]; cbn [kv_fault_handler]; [eexists _, _; split; reflexivity|].
    destruct (hd Works (w_faults w)); eexists _, _; split; reflexivity.
  - destruct c0 as [key|key v]; cbn [kv_fault_handler]; [eexists _, _; split; reflexivity|].
    destruct (hd Works (w_faults w)); eexists _, _; split; reflexivity.
  - eexists _, _; split; reflexivity.
  - eexists _, _; split; reflexivity.
  - eexists _, _; split; reflexivity.
Qed.

Lemma plain_bind {A B} (p : prog ccmd A) (f : A -> prog ccmd B) : plainp p -> (forall a, plainp (f a)) -> plainp (bind p f).
Proof. intros H F. induction H as [a|X c k Hc Hk IH]; [apply F|]. constructor; [assumption|]. intros x. apply IH. Qed.
Lemma plain_qbind {A B} (p : prog ccmd (res A)) (f : A -> prog ccmd (res B)) : plainp p -> (forall a, plainp (f a)) -> plainp (qbind p f).
Proof. intros H F. apply plain_bind; [assumption|]. intros [a|e|]; [apply F|constructor..]. Qed.
Lemma plain_ix {A} (p : prog kcmd A) : plainp (lift (@CIx) p).
Proof. induction p as [a|X c k IH]; cbn [lift]; constructor; [constructor|assumption]. Qed.
Lemma plain_st {A} (p : prog kcmd A) : plainp (lift (@CSt) p).
Proof. induction p as [a|X c k IH]; cbn [lift]; constructor; [constructor|assumption]. Qed.
Lemma holding_bind {A B} (p : prog ccmd A) (f : A -> prog ccmd B) : plainp p -> (forall a, holding (f a)) -> holding (bind p f).
Proof. intros H F. induction H as [a|X c k Hc Hk IH]; [apply F|]. apply Ho_do; [assumption|]. intros x. apply IH. Qed.

Lemma insert_plain ch ls p : plainp (insert_body ch ls p).
Proof.
  unfold insert_body. destruct (negb _); [constructor|]. apply plain_qbind; [apply plain_ix|]. intros [id|].
  - apply plain_bind; [apply plain_st|]. intros r. constructor.
  - apply plain_bind; [constructor; [constructor|]; intros; constructor|]. intros id.
    apply plain_qbind; [apply plain_ix|]. intros _. apply plain_qbind; [apply plain_st|]. intros _. constructor.
Qed.
(* a call: take the lock, then hold it *)
Definition locking {A} (p : prog ccmd A) : Prop := exists k, p = Do CWriteLock k /\ forall b, holding (k b).
Lemma with_lock_locking {A} (body : prog ccmd (res A)) : plainp body -> locking (with_write_lock body).
Proof.
  intros H. unfold with_write_lock. cbn [bind call]. eexists. split; [reflexivity|]. intros [|]; cbn [bind].
  - eapply Ho_unlock. reflexivity.
  - apply holding_bind; [assumption|]. intros r. eapply Ho_unlock. reflexivity.
Qed.
Lemma lop_locking ch o : locking (lop_prog ch o).
Proof.
  destruct o; apply with_lock_locking; [apply insert_plain|].
  apply plain_bind; [constructor; [constructor|]; intros; constructor|]. intros _. constructor.
Qed.

Lemma serial_snoc ch ops order i o w rs w1 r w2 : serial ch ops order w = Some (rs, w1) ->
  nth_error ops i = Some o -> crun ch (lop_prog ch o) w1 = Some (r, w2) ->
  serial ch ops (order ++ [i]) w = Some (rs ++ [(i, r)], w2).
Proof.
  revert w rs. induction order as [|j order IH]; intros w rs H Hi Hr; cbn [serial app] in *.
  - assert (rs = []) as -> by congruence. assert (w = w1) as -> by congruence. now rewrite Hi, Hr.
  - destruct (nth_error ops j) as [o'|]; [|discriminate]. destruct (crun ch (lop_prog ch o') w) as [[r' w']|]; [|discriminate].
    destruct (serial ch ops order w') as [[rs' w'']|] eqn:E; [|discriminate].
    assert (rs = (j, r') :: rs') as -> by congruence. assert (w'' = w1) as -> by congruence.
    rewrite (IH _ _ E Hi Hr). reflexivity.
Qed.

(* the invariant of the interleaving *)
Definition settled ch (ops : list lop) (ts : list (prog ccmd (res unit))) (order : list nat) (rs : list (nat * res unit)) (skip : option nat) :=
  length ts = length ops /\ map fst rs = order /\ NoDup order /\
  (forall i r, In (i, r) rs -> nth_error ts i = Some (Ret r)) /\
  (forall i o, nth_error ops i = Some o -> ~ In i order -> skip <> Some i -> nth_error ts i = Some (lop_prog ch o)).
Inductive inv ch (ops : list lop) (w0 : cworld) (ts : list (prog ccmd (res unit))) (w : cworld) (order : list nat) : Prop :=
| I_free rs : w_locked w = false -> serial ch ops order w0 = Some (rs, w) -> settled ch ops ts order rs None -> inv ch ops w0 ts w order
| I_held order' rs w1 j o p : w_locked w = true -> order = order' ++ [j] -> ~ In j order' ->
    serial ch ops order' w0 = Some (rs, w1) -> settled ch ops ts order' rs (Some j) ->
    nth_error ops j = Some o -> nth_error ts j = Some p -> holding p ->
    crun ch (lop_prog ch o) w1 = run (chandler ch) p w -> inv ch ops w0 ts w order.

Lemma inv_step ch ops w0 ts w order i p p' w' : inv ch ops w0 ts w order ->
  nth_error ts i = Some p -> step (chandler ch) p w = Some (p', w') ->
  inv ch ops w0 (upd ts i p') w' (order ++ if wants_lock p then [i] else []).
Proof.
  intros Iv Hi St. assert (Li: (i < length ts)%nat) by (apply nth_error_Some; congruence). destruct Iv as [rs Fr Se (Le & Mp & Nd & Rs & Nw)|order' rs w1 j o q Lk Eo Nj Se (Le & Mp & Nd & Rs & Nw) Ej Tj Hq Rn].
  - destruct (in_dec Nat.eq_dec i order) as [Hin|Hin].
    { rewrite <- Mp in Hin. apply in_map_iff in Hin as ([i' r] & E & Hin). cbn in E. subst i'. apply Rs in Hin.
      assert (p = Ret r) by congruence. subst. discriminate. }
    destruct (nth_error ops i) as [o|] eqn:Eo.
    2:{ apply nth_error_None in Eo. lia. }
    assert (p = lop_prog ch o) as ->.
    { assert (X: nth_error ts i = Some (lop_prog ch o)) by (apply Nw; [assumption|assumption|discriminate]). congruence. }
    destruct (lop_locking ch o) as (k & Ek & Hk).
    assert (wants_lock (lop_prog ch o) = true) as -> by (rewrite Ek; reflexivity).
    assert (Hw: crun ch (lop_prog ch o) w = run (chandler ch) p' w' /\ holding p' /\ w_locked w' = true).
    { unfold crun. rewrite Ek in St |- *. cbn [step run] in *. cbn [chandler] in *. rewrite Fr in *.
      assert (p' = k (w_poisoned w)) as -> by congruence. assert (w' = set_lock w true (w_poisoned w)) as -> by congruence.
      split; [reflexivity|]. split; [apply Hk|reflexivity]. }
    destruct Hw as (Hw1 & Hw2 & Hw3).
    eapply (I_held ch ops w0 _ w' _ order rs w i o p'); try eassumption; try reflexivity.
    + split; [rewrite upd_length; assumption|]. split; [assumption|]. split; [assumption|]. split.
      * intros j r Hj. rewrite nth_upd by assumption. destruct (Nat.eqb_spec j i) as [->|N]; [|now apply Rs].
        exfalso. apply Hin. rewrite <- Mp. now apply (in_map fst) in Hj.
      * intros j o' Hj Nin Sk. rewrite nth_upd by assumption. destruct (Nat.eqb_spec j i) as [->|N]; [congruence|].
        apply Nw; [assumption|assumption|discriminate].
    + rewrite nth_upd by assumption. now rewrite Nat.eqb_refl.
  - destruct (Nat.eq_dec i j) as [->|Nij].
    + assert (q = p) by congruence. subst q. clear Tj. destruct Hq as [b k r Hk|X c k Hc Hk].
      * cbn [step chandler] in St. assert (p' = k tt) as -> by congruence.
        assert (w' = set_lock w false (w_poisoned w || b)) as -> by congruence. rewrite Hk. cbn [wants_lock]. rewrite app_nil_r.
        cbn [run chandler] in Rn. rewrite Hk in Rn. cbn [run] in Rn. subst order.
        eapply I_free; [reflexivity|eapply serial_snoc; eassumption|].
        split; [rewrite upd_length; assumption|]. split; [rewrite map_app; cbn; congruence|]. split; [|split].
        -- apply (Permutation_NoDup (l := j :: order')); [apply Permutation_cons_append|]. now constructor.
        -- intros i r' Hr. rewrite nth_upd by assumption. apply in_app_iff in Hr as [Hr|[Hr|[]]].
           ++ destruct (Nat.eqb_spec i j) as [->|N]; [|now apply Rs]. exfalso. apply Nj. rewrite <- Mp. now apply (in_map fst) in Hr.
           ++ assert (i = j) as -> by congruence. assert (r' = r) as -> by congruence. now rewrite Nat.eqb_refl.
        -- intros i o' Ho Nin _. rewrite nth_upd by assumption. destruct (Nat.eqb_spec i j) as [->|N].
           ++ exfalso. apply Nin. apply in_app_iff. right. now left.
           ++ apply Nw; [assumption| |congruence]. intros X. apply Nin. apply in_app_iff. now left.
      * destruct (plain_runs ch X c w Hc) as (x & w2 & E & El). cbn [step] in St. rewrite E in St.
        assert (p' = k x) as -> by congruence. assert (w' = w2) as -> by congruence.
        assert (wants_lock (Do c k) = false) as -> by (destruct Hc; reflexivity). rewrite app_nil_r.
        eapply (I_held ch ops w0 _ w2 _ order' rs w1 j o (k x)); try eassumption; [congruence| | | |].
        -- split; [rewrite upd_length; assumption|]. split; [assumption|]. split; [assumption|]. split.
           ++ intros i r Hr. rewrite nth_upd by assumption. destruct (Nat.eqb_spec i j) as [->|N]; [|now apply Rs].
              exfalso. apply Nj. rewrite <- Mp. now apply (in_map fst) in Hr.
           ++ intros i o' Ho Nin Sk. rewrite nth_upd by assumption. destruct (Nat.eqb_spec i j) as [->|N]; [congruence|].
              apply Nw; assumption.
        -- rewrite nth_upd by assumption. now rewrite Nat.eqb_refl.
        -- apply Hk.
        -- rewrite Rn. cbn [run]. now rewrite E.
    + (* a thread without the lock: finished, or waiting for it *)
      exfalso. destruct (in_dec Nat.eq_dec i order') as [Hin|Hin].
      { rewrite <- Mp in Hin. apply in_map_iff in Hin as ([i' r] & E & Hin). cbn in E. subst i'. apply Rs in Hin.
        assert (p = Ret r) by congruence. subst. discriminate. }
      destruct (nth_error ops i) as [o'|] eqn:Eo'.
      2:{ apply nth_error_None in Eo'. lia. }
      assert (p = lop_prog ch o') as ->.
      { assert (X: nth_error ts i = Some (lop_prog ch o')) by (apply Nw; [assumption|assumption|congruence]). congruence. }
      destruct (lop_locking ch o') as (k & Ek & Hk). rewrite Ek in St. cbn [step chandler] in St. rewrite Lk in St. discriminate.
Qed.

Lemma inv_sched ch ops w0 sched : forall ts w order, inv ch ops w0 ts w order ->
  inv ch ops w0 (fst (interleave (chandler ch) sched ts w)) (snd (interleave (chandler ch) sched ts w))
      (order ++ lock_order (chandler ch) sched ts w).
Proof.
  induction sched as [|i sched IH]; intros ts w order H; cbn [interleave lock_order].
  - now rewrite app_nil_r.
  - destruct (nth_error ts i) as [p|] eqn:Hi; [|now apply IH].
    destruct (step (chandler ch) p w) as [[p' w']|] eqn:St; [|now apply IH].
    rewrite app_assoc. apply IH. eapply inv_step; eassumption.
Qed.

Lemma inv_start ch ops w : w_locked w = false -> inv ch ops w (map (lop_prog ch) ops) w [].
Proof.
  intros H. eapply I_free; [assumption|reflexivity|]. split; [apply map_length|]. split; [reflexivity|]. split; [constructor|]. split; [intros i r []|].
  intros i o Ho _ _. now apply map_nth_error.
Qed.

Theorem calls_serialised ch ops sched w ts' w' rs : w_locked w = false ->
  interleave (chandler ch) sched (map (lop_prog ch) ops) w = (ts', w') -> ts' = map (@Ret ccmd (res unit)) rs ->
  let order := lock_order (chandler ch) sched (map (lop_prog ch) ops) w in
  Permutation order (seq 0 (length ops)) /\
  exists out, serial ch ops order w = Some (out, w') /\ map fst out = order /\
    forall i r, In (i, r) out -> nth_error rs i = Some r.
Proof.
  intros Hl E Et order. pose proof (inv_sched ch ops w sched _ _ _ (inv_start ch ops w Hl)) as Iv.
  rewrite E in Iv. cbn [fst snd app] in Iv. fold order in Iv. subst ts'.
  assert (NR: forall i o, nth_error (map (@Ret ccmd (res unit)) rs) i <> Some (lop_prog ch o)).
  { intros i o X. apply nth_error_In in X. apply in_map_iff in X as (r & X & _). destruct (lop_locking ch o) as (k & Ek & _). congruence. }
  destruct Iv as [out Fr Se (Le & Mp & Nd & Rs & Nw)|order' out w1 j o q Lk Eo Nj Se (Le & Mp & Nd & Rs & Nw) Ej Tj Hq Rn].
  - split.
    + apply NoDup_Permutation; [assumption|apply seq_NoDup|]. intros i. rewrite in_seq. split.
      * intros Hi. rewrite <- Mp in Hi. apply in_map_iff in Hi as ([i' r] & F & Hi). cbn in F. subst i'. apply Rs in Hi.
        assert (i < length (map (@Ret ccmd (res unit)) rs))%nat by (apply nth_error_Some; congruence). lia.
      * intros [_ Hi]. destruct (in_dec Nat.eq_dec i order) as [G|G]; [assumption|exfalso].
        destruct (nth_error ops i) as [o|] eqn:Eo; [|apply nth_error_None in Eo; lia].
        apply (NR i o). apply Nw; [assumption|assumption|discriminate].
    + exists out. split; [assumption|]. split; [assumption|]. intros i r Hr. apply Rs in Hr.
      destruct (nth_error rs i) as [r'|] eqn:Er.
      * rewrite (map_nth_error _ _ _ Er) in Hr. congruence.
      * exfalso. apply nth_error_None in Er. assert (i < length (map (@Ret ccmd (res unit)) rs))%nat by (apply nth_error_Some; congruence).
        rewrite map_length in *. lia.
  - exfalso. apply nth_error_In in Tj. apply in_map_iff in Tj as (r & Tj & _). subst q. inversion Hq.
Qed.

(* no deadlock: as long as a call has not returned some thread can move *)
Theorem calls_progress ch ops sched w ts' w' : w_locked w = false ->
  interleave (chandler ch) sched (map (lop_prog ch) ops) w = (ts', w') ->
  (exists i p, nth_error ts' i = Some p /\ forall r, p <> Ret r) ->
  exists i p q w'', nth_error ts' i = Some p /\ step (chandler ch) p w' = Some (q, w'').
Proof.
  intros Hl E (i & p & Hi & Hn). pose proof (inv_sched ch ops w sched _ _ _ (inv_start ch ops w Hl)) as Iv.
  rewrite E in Iv. cbn [fst snd app] in Iv.
  destruct Iv as [out Fr Se (Le & Mp & Nd & Rs & Nw)|order' out w1 j o q Lk Eo Nj Se (Le & Mp & Nd & Rs & Nw) Ej Tj Hq Rn].
  - set (order := lock_order _ _ _ _) in *. destruct (in_dec Nat.eq_dec i order) as [G|G].
    { rewrite <- Mp in G. apply in_map_iff in G as ([i' r] & F & G). cbn in F. subst i'. apply Rs in G.
      exfalso. apply (Hn r). congruence. }
    destruct (nth_error ops i) as [o|] eqn:Eo.
    2:{ apply nth_error_None in Eo. assert (i < length ts')%nat by (apply nth_error_Some; congruence). lia. }
    assert (T: nth_error ts' i = Some (lop_prog ch o)) by (apply Nw; [assumption|assumption|discriminate]).
    destruct (lop_locking ch o) as (k & Ek & _). exists i, (lop_prog ch o). rewrite Ek. cbn [step chandler]. rewrite Fr.
    eexists _, _. split; [congruence|reflexivity].
  - exists j, q. destruct Hq as [b k r Hk|X c k Hc Hk].
    + eexists _, _. split; [assumption|reflexivity].
    + destruct (plain_runs ch X c w' Hc) as (x & w2 & Ex & _). eexists _, _. split; [assumption|]. cbn [step]. rewrite Ex. reflexivity.
Qed.

(* inserts only: the final state is that of some serial history *)
Lemma serial_after ch reqs order : forall w out w', 
  serial ch (map (fun r : ireq => OpInsert (fst r) (snd r)) reqs) order w = Some (out, w') ->
  exists h, after_from ch h w = Some w' /\ map Some h = map (nth_error reqs) order.
Proof.
  induction order as [|i order IH]; intros w out w' H; cbn [serial] in H.
  - exists []. cbn. split; [congruence|reflexivity].
  - destruct (nth_error (map _ reqs) i) as [o|] eqn:Eo; [|discriminate].
    destruct (nth_error reqs i) as [r|] eqn:Er.
    2:{ apply nth_error_None in Er. assert (i < length (map (fun r : ireq => OpInsert (fst r) (snd r)) reqs))%nat by (apply nth_error_Some; congruence).
        rewrite map_length in *. lia. }
    rewrite (map_nth_error _ _ _ Er) in Eo. assert (o = OpInsert (fst r) (snd r)) as -> by congruence. cbn [lop_prog] in H.
    destruct (crun ch _ w) as [[x w1]|] eqn:C; [|discriminate].
    destruct (serial ch _ order w1) as [[out' w2]|] eqn:S2; [|discriminate].
    assert (w2 = w') as -> by congruence. destruct (IH _ _ _ S2) as (h & H1 & H2). exists (r :: h). split.
    + cbn [after_from]. rewrite C. assumption.
    + cbn [map]. rewrite Er. congruence.
Qed.
Lemma perm_somes {A} (a b : list A) : Permutation (map Some a) (map Some b) -> Permutation a b.
Proof.
  intros H. assert (M: forall l : list A, flat_map (fun o : option A => match o with Some x => [x] | None => [] end) (map Some l) = l).
  { induction l as [|x l IH]; [reflexivity|]. cbn. now rewrite IH. }
  rewrite <- (M a), <- (M b). now apply Permutation_flat_map.
Qed.
Lemma map_nth_seq {A} (l : list A) : map (nth_error l) (seq 0 (length l)) = map Some l.
Proof.
  induction l as [|a l IH]; [reflexivity|]. cbn [length seq map nth_error]. f_equal.
  rewrite <- seq_shift, map_map. exact IH.
Qed.
Theorem inserts_some_order ch reqs sched ts' w' rs :
  interleave (chandler ch) sched (map (fun r => chunk_insert ch (fst r) (snd r)) reqs) (new_world [] []) = (ts', w') ->
  ts' = map (@Ret ccmd (res unit)) rs ->
  exists h, Permutation h reqs /\ after ch h = Some w'.
Proof.
  intros E Et. assert (EM: map (fun r => chunk_insert ch (fst r) (snd r)) reqs =
    map (lop_prog ch) (map (fun r : ireq => OpInsert (fst r) (snd r)) reqs)) by (rewrite map_map; reflexivity).
  rewrite EM in E. destruct (calls_serialised ch _ sched (new_world [] []) ts' w' rs eq_refl E Et) as (P & out & Se & _).
  destruct (serial_after _ _ _ _ _ _ Se) as (h & H1 & H2). exists h. split; [|exact H1].
  apply (@perm_somes ireq). rewrite H2. rewrite map_length in P. pose proof (map_nth_seq reqs) as M. unfold ireq in *. rewrite <- M. now apply Permutation_map.
Qed.

(** ** ids *)

Lemma total_app u v : total (u ++ v) = (total u + total v)%nat.
Proof. induction u as [|a u IH]; cbn [app total]; [reflexivity|rewrite IH; lia]. Qed.
Lemma upfrom_snoc z n : upfrom z (S n) = upfrom z n ++ [z + Z.of_nat n].
Proof.
  revert z. induction n as [|n IH]; intros z; [cbn; do 2 f_equal; lia|].
  change (upfrom z (S (S n))) with (z :: upfrom (z + 1) (S n)). rewrite IH. cbn [upfrom app]. do 3 f_equal. lia.
Qed.
Lemma upfrom_In z n x : In x (upfrom z n) -> z <= x < z + Z.of_nat n.
Proof. revert z. induction n as [|n IH]; intros z H; [contradiction|]. destruct H as [->|H]; [lia|]. apply IH in H. lia. Qed.
Lemma upfrom_NoDup z n : NoDup (upfrom z n).
Proof.
  revert z. induction n as [|n IH]; intros z; constructor; [|apply IH]. intros H. apply upfrom_In in H. lia.
Qed.

(* one thread: how many draws are left, what it has got *)
Definition dthread (t : nat * list Z) : prog ccmd (list Z) := draws (fst t) (snd t).
Lemma draws_step ch m got w : step (chandler ch) (draws m got) w =
  match m with O => None | S m' => Some (draws m' (got ++ [w_next w]), set_next w (wrapu 64 (w_next w + 1))) end.
Proof. destruct m; reflexivity. Qed.
Lemma upd_split {A} (l : list A) i x : nth_error l i = Some x ->
  exists a b, l = a ++ x :: b /\ length a = i.
Proof.
  intros H. destruct (nth_error_split l i H) as (a & b & E & L). exists a, b. auto.
Qed.
Lemma draw_inv ch n0 N sched : 0 <= n0 -> n0 + Z.of_nat N < 2 ^ 64 -> forall ts w k,
  N = (k + total (map fst ts))%nat -> w_next w = n0 + Z.of_nat k ->
  Permutation (concat (map snd ts)) (upfrom n0 k) ->
  exists ts' k', fst (interleave (chandler ch) sched (map dthread ts) w) = map dthread ts' /\
    length ts' = length ts /\
    N = (k' + total (map fst ts'))%nat /\ Permutation (concat (map snd ts')) (upfrom n0 k') /\
    w_next (snd (interleave (chandler ch) sched (map dthread ts) w)) = n0 + Z.of_nat k'.
Proof.
  intros H0 HN. induction sched as [|i sched IH]; intros ts w k Hk Hw Hp; cbn [interleave].
  - exists ts, k. auto 6.
  - destruct (nth_error (map dthread ts) i) as [p|] eqn:Hi; [|now apply (IH ts w k)].
    destruct (nth_error ts i) as [[m got]|] eqn:Ht.
    2:{ apply nth_error_None in Ht. assert (i < length (map dthread ts))%nat by (apply nth_error_Some; congruence). rewrite map_length in *. lia. }
    rewrite (map_nth_error _ _ _ Ht) in Hi. assert (p = draws m got) as -> by (unfold dthread in Hi; cbn [fst snd] in Hi; congruence).
    rewrite draws_step. destruct m as [|m]; [now apply (IH ts w k)|].
    destruct (upd_split ts i _ Ht) as (a & b & Ets & Ea).
    assert (EU: upd (map dthread ts) i (draws m (got ++ [w_next w])) = map dthread (a ++ (m, got ++ [w_next w]) :: b)).
    { unfold upd. rewrite Ets, map_app. cbn [map]. assert (L: length (map dthread a) = i) by now rewrite map_length.
      rewrite <- L. rewrite firstn_app, Nat.sub_diag, firstn_all, skipn_app, skipn_all, Nat.sub_diag. cbn [firstn skipn app].
      rewrite app_nil_r, map_app. reflexivity. }
    rewrite EU. destruct (IH (a ++ (m, got ++ [w_next w]) :: b) (set_next w (wrapu 64 (w_next w + 1))) (S k)) as (ts' & k' & E1 & E2 & E3).
    + rewrite Ets in Hk. rewrite map_app in Hk |- *. cbn [map fst] in *. rewrite total_app in *. cbn [total] in *. lia.
    + cbn [set_next w_next]. rewrite Ets, map_app in Hk. cbn [map fst] in Hk. rewrite total_app in Hk. cbn [total] in Hk.
      unfold wrapu. rewrite Z.mod_small by lia. lia.
    + rewrite upfrom_snoc, <- Hw. rewrite Ets in Hp. rewrite map_app, concat_app in Hp |- *. cbn [map concat snd] in *.
      rewrite <- Hp. rewrite <- !app_assoc. apply Permutation_app_head. apply Permutation_app_head. apply Permutation_app_comm.
    + exists ts', k'. split; [assumption|]. split; [|assumption].
      rewrite E2, Ets, !app_length. reflexivity.
Qed.
Theorem ids_unique ch n0 ns sched w rs : 0 <= n0 -> w_next w = n0 -> n0 + Z.of_nat (total ns) < 2 ^ 64 ->
  fst (interleave (chandler ch) sched (map (fun n => draws n []) ns) w) = map (@Ret ccmd (list Z)) rs ->
  Permutation (concat rs) (upfrom n0 (total ns)) /\ NoDup (concat rs).
Proof.
  intros H0 Hw HN E. assert (EM: map (fun n => draws n []) ns = map dthread (map (fun n => (n, [])) ns)) by (rewrite map_map; reflexivity).
  rewrite EM in E.
  destruct (draw_inv ch n0 (total ns) sched H0 HN (map (fun n => (n, [])) ns) w 0) as (ts' & k' & E1 & E2 & E3 & E4 & E5).
  - rewrite map_map. cbn [fst]. now rewrite map_id.
  - lia.
  - rewrite map_map. cbn [snd upfrom]. clear. induction ns; [constructor|assumption].
  - rewrite E in E1. assert (map snd ts' = rs /\ total (map fst ts') = 0%nat) as [M1 M2].
    { clear -E1. revert rs E1. induction ts' as [|[m got] ts' IH]; intros [|r rs] E; try discriminate; [auto|].
      cbn [map] in E. unfold dthread at 1 in E. cbn [fst snd] in E. destruct m; [|discriminate].
      cbn [draws] in E. assert (r = got) as -> by congruence. destruct (IH rs) as [I1 I2]; [congruence|]. cbn [map snd fst total]. split; [congruence|lia]. }
    rewrite M2 in E3. rewrite Nat.add_0_r in E3. subst k'. rewrite M1 in E4. split; [assumption|].
    eapply Permutation_NoDup; [apply Permutation_sym; exact E4|apply upfrom_NoDup].
Qed.

(** ** crashes *)
(* programs that never change the point store *)
Definition st_quiet ch X (c : ccmd X) : Prop := forall w x w', chandler ch X c w = Some (x, w') -> w_st w' = w_st w.
Inductive silent ch {A} : prog ccmd A -> Prop :=
| S_ret a : silent ch (Ret a)
| S_do X c k : st_quiet ch X c -> (forall x, silent ch (k x)) -> silent ch (Do c k).
(* programs that change the point store at most once, in one command *)
Inductive one_set ch {A} : prog ccmd A -> Prop :=
| O_silent p : silent ch p -> one_set ch p
| O_do X c k : st_quiet ch X c -> (forall x, one_set ch (k x)) -> one_set ch (Do c k)
| O_set X (c : ccmd X) k : (forall x, silent ch (k x)) -> one_set ch (Do c k).

Lemma silent_crash ch {A} (p : prog ccmd A) : silent ch p -> forall n w, w_st (snd (crash_at (chandler ch) n p w)) = w_st w.
Proof.
  induction 1 as [a|X c k Q H IH]; intros [|n] w; try reflexivity. cbn [crash_at].
  destruct (chandler ch X c w) as [[x w']|] eqn:E; [|reflexivity]. rewrite IH. eapply Q. exact E.
Qed.
Lemma silent_run ch {A} (p : prog ccmd A) : silent ch p -> forall w a w', run (chandler ch) p w = Some (a, w') -> w_st w' = w_st w.
Proof.
  induction 1 as [a|X c k Q H IH]; intros w r w' E; cbn [run] in E; [congruence|].
  destruct (chandler ch X c w) as [[x w2]|] eqn:F; [|discriminate]. rewrite (IH _ _ _ _ E). eapply Q. exact F.
Qed.
Lemma one_set_crash ch {A} (p : prog ccmd A) : one_set ch p -> forall n w a w1, run (chandler ch) p w = Some (a, w1) ->
  w_st (snd (crash_at (chandler ch) n p w)) = w_st w \/ w_st (snd (crash_at (chandler ch) n p w)) = w_st w1.
Proof.
  induction 1 as [p H|X c k Q H IH|X c k H]; intros n w a w1 E.
  - left. now apply silent_crash.
  - destruct n as [|n]; [now left|]. cbn [crash_at run] in *. destruct (chandler ch X c w) as [[x w2]|] eqn:F; [|now left].
    rewrite <- (Q _ _ _ F). eapply IH. exact E.
  - destruct n as [|n]; [now left|]. cbn [crash_at run] in *. destruct (chandler ch X c w) as [[x w2]|] eqn:F; [|now left].
    right. rewrite silent_crash by apply H. symmetry. eapply silent_run; [apply H|exact E].
Qed.
Lemma silent_bind ch {A B} (p : prog ccmd A) (f : A -> prog ccmd B) : silent ch p -> (forall a, silent ch (f a)) -> silent ch (bind p f).
Proof. intros H F. induction H as [a|X c k Q H IH]; [apply F|]. constructor; [assumption|]. intros x. apply IH. Qed.
Lemma one_bind ch {A B} (p : prog ccmd A) (f : A -> prog ccmd B) : silent ch p -> (forall a, one_set ch (f a)) -> one_set ch (bind p f).
Proof. intros H F. induction H as [a|X c k Q H IH]; [apply F|]. apply O_do; [assumption|]. intros x. apply IH. Qed.
Lemma one_then ch {A B} (p : prog ccmd A) (f : A -> prog ccmd B) : one_set ch p -> (forall a, silent ch (f a)) -> one_set ch (bind p f).
Proof.
  intros H F. induction H as [p H|X c k Q H IH|X c k H].
  - apply O_silent. now apply silent_bind.
  - apply O_do; [assumption|]. intros x. apply IH.
  - apply O_set. intros x. now apply silent_bind.
Qed.
Lemma ix_silent ch {A} (p : prog kcmd A) : silent ch (lift (@CIx) p).
Proof.
  induction p as [a|X c k IH]; cbn [lift]; constructor; [|assumption]. intros w x w' E. unfold chandler in E.
  destruct (kv_fault_handler _ X c (w_ix w, w_faults w)) as [[y [s fs]]|]; [|discriminate].
  assert (w' = set_ix w s fs) as -> by congruence. reflexivity.
Qed.
Lemma get_quiet ch k : st_quiet ch _ (CSt (KGet k)).
Proof. intros w x w' E. cbn in E. assert (w' = set_st w (w_st w) (tl (w_faults w))) as -> by congruence. reflexivity. Qed.
Lemma write_one ch st id ts v : one_set ch (lift (@CSt) (write_time_point st id ts v)).
Proof.
  assert (Si: forall r : res unit, silent ch (Ret r)) by (intros; constructor).
  destruct st; cbn [write_time_point]; [unfold sled_write|unfold tikv_write]; unfold qbind; cbn [bind call lift];
    apply O_do; try apply get_quiet; intros [[b|]|e|]; cbn [bind call lift]; try (apply O_silent; apply Si).
  - apply O_set. intros x. apply Si.
  - apply O_set. intros [x|e|]; apply Si.
  - destruct (_ <? _)%nat; [apply O_silent, Si|]. destruct (decode_time_point _) as [l|e|]; cbn [lift]; [|apply O_silent, Si..].
    destruct (_ <=? _); [apply O_silent, Si|]. cbn [bind call lift]. apply O_set. intros [x|e|]; apply Si.
  - apply O_set. intros [x|e|]; apply Si.
Qed.
Lemma lock_quiet ch b : st_quiet ch _ CWriteLock /\ st_quiet ch _ (CWriteUnlock b) /\ st_quiet ch _ CNextId.
Proof.
  repeat split; intros w x w' E; cbn in E.
  - destruct (w_locked w); [discriminate|]. assert (w' = set_lock w true (w_poisoned w)) as -> by congruence. reflexivity.
  - assert (w' = set_lock w false (w_poisoned w || b)) as -> by congruence. reflexivity.
  - assert (w' = set_next w (wrapu 64 (w_next w + 1))) as -> by congruence. reflexivity.
Qed.
Lemma insert_one ch ls p : one_set ch (chunk_insert ch ls p).
Proof.
  assert (Si: forall r : res unit, silent ch (Ret r)) by (intros; constructor).
  assert (Ca: forall X (c : ccmd X), st_quiet ch X c -> silent ch (call c)) by (intros X c Q; constructor; [assumption|intros; constructor]).
  pose proof (fun b => lock_quiet ch b) as LQ.
  unfold chunk_insert, with_write_lock. apply one_bind; [apply Ca, (LQ true)|]. intros [|].
  - apply O_silent, silent_bind; [apply Ca, LQ|]. intros _. apply Si.
  - apply one_then.
    + unfold insert_body. destruct (negb _); [apply O_silent, Si|]. unfold qbind at 1. apply one_bind; [apply ix_silent|].
      intros [[id|]|e|]; try apply O_silent, Si.
      * apply one_then; [apply write_one|]. intros r. apply Si.
      * apply one_bind; [apply Ca, (LQ true)|]. intros id. unfold qbind at 1. apply one_bind; [apply ix_silent|].
        intros [u|e|]; try apply O_silent, Si. unfold qbind. apply one_then; [apply write_one|]. intros [x|e|]; apply Si.
    + intros r. apply silent_bind; [apply Ca, LQ|]. intros _. apply Si.
Qed.

(* the point store after a crash is the one before the insert or the one after it *)
Theorem insert_crash ch ls p w n r w1 : crun ch (chunk_insert ch ls p) w = Some (r, w1) ->
  let w' := snd (crash_at (chandler ch) n (chunk_insert ch ls p) w) in w_st w' = w_st w \/ w_st w' = w_st w1.
Proof. intros E. apply (one_set_crash ch _ (insert_one ch ls p) n w r w1 E). Qed.
