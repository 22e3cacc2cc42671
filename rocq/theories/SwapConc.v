(* Proofs about the swap under every interleaving with queries, and what the threads return. *)
From Coq Require Import ZifyBool ZifyNat Permutation.
From Verif Require Import Rust StringProofs Prog Gorilla GorillaSpec Storage StorageSpec StorageProofs Labels IndexSpec Indexer
  LabelProofs IndexProofs Chunk ChunkSpec ChunkProofs ChunkFacts Conc Utils DirSpec DirProofs TiKvInit Db DbSpec MapProofs
  DbProofs DbHist DbFacts SwapSpec SwapProofs.

Section SWAP.
  Variable hb : list dchunk.
  Variable old : nat.
  Variable s0 : list nat.
  Hypothesis Hplain : Forall plain hb.
  Local Notation inv := (inv hb old s0).
  Local Notation qwp := (qwp hb old s0).

  (** ** what the swap does: the others change the numbers of readers at any time *)
  Fixpoint swp {A} (p : prog dcmd A) (j : nat) (w : dworld) (a : bool) : Prop :=
    match p with
    | Ret x => a = false /\ held w = false
    | @Do _ _ X c k => forall m n, (a = true -> 0 < m)%nat ->
        match dhandler X c (with_readers w m n) with
        | None => held w = false /\ (b2n a < m \/ 0 < n)%nat
        | Some (x, w2) => exists a' i, (j <= i)%nat /\ inv i w2 /\
            rw_readers (d_curl w2) = (m - b2n a + b2n a')%nat /\ rw_readers (d_secl w2) = n /\
            dhandler X c (with_readers w (b2n a) 0) = Some (x, with_readers w2 (b2n a') 0) /\
            swp (k x) i w2 a'
        end
    end.
  Lemma swp_assoc {A B C} (p : prog dcmd A) (f : A -> prog dcmd B) (g : B -> prog dcmd C) : forall j w a,
    swp (bind p (fun x => bind (f x) g)) j w a -> swp (bind (bind p f) g) j w a.
  Proof.
    induction p as [x|X c k IH]; intros j w a H; [exact H|]. cbn [bind swp] in *. intros m n Hm. specialize (H m n Hm).
    destruct (dhandler X c (with_readers w m n)) as [[x w2]|]; [|exact H]. destruct H as (a' & i & H1 & H2 & H3 & H4 & H5 & H6).
    exists a', i. repeat (split; [assumption|]). now apply IH.
  Qed.
  Lemma swp_DF {A B} (p : prog fcmd A) (f : A -> prog dcmd B) : forall w r g j,
    run fhandler p (d_fs w) = Some (r, g) -> inv j w -> (forall m n, swp (f r) j (set_fs (with_readers w m n) g) false) -> swp (bind (lift (@DF) p) f) j w false.
  Proof.
    induction p as [x|X c k IH]; intros w r g j R I0 K.
    - cbn [run] in R. assert (x = r) as -> by congruence. assert (g = d_fs w) as -> by congruence. cbn [lift bind].
      specialize (K (rw_readers (d_curl w)) (rw_readers (d_secl w))). rewrite with_self in K.
      assert (set_fs w (d_fs w) = w) as E by now destruct w. now rewrite E in K.
    - cbn [lift bind swp]. intros m n _. cbn [dhandler with_readers d_fs]. cbn [run] in R. destruct (fhandler X c (d_fs w)) as [[x f']|]; [|discriminate].
      exists false, j. split; [lia|]. split; [apply inv_fs, inv_with, I0|]. cbn [set_fs with_readers d_curl d_secl set_readers rw_readers b2n].
      split; [lia|]. split; [reflexivity|]. split; [reflexivity|].
      apply (IH x _ r g j); [exact R|apply inv_fs, inv_with, I0|]. intros m' n'. exact (K m' n').
  Qed.

  (** ** all threads together *)
  Definition total_c (l : list (prog dcmd danswer * (bool * bool))) : nat := list_sum (map (fun x => b2n (fst (snd x))) l).
  Definition total_s (l : list (prog dcmd danswer * (bool * bool))) : nat := list_sum (map (fun x => b2n (snd (snd x))) l).
  Inductive all_ok (Qs : list (danswer -> Prop)) (R : option (danswer * dworld)) (ts : list (prog dcmd danswer)) (w : dworld) : Prop :=
  | mkAll (items : list (prog dcmd danswer * (bool * bool))) (p : prog dcmd danswer) (j : nat) (ws : dworld) (a : bool)
    (al_ts : ts = p :: map fst items)
    (al_w : w = with_readers ws (b2n a + total_c items) (total_s items))
    (al_inv : inv j w)
    (al_q : Forall2 (fun Q it => qwp (fst it) j (fst (snd it)) (snd (snd it)) Q) Qs items)
    (al_s : swp p j ws a)
    (al_r : run dhandler p (with_readers ws (b2n a) 0) = R).

  Lemma sum_upd {T} (f : T -> nat) l i x y : nth_error l i = Some x ->
    (f x <= list_sum (map f l) /\ list_sum (map f (upd l i y)) = list_sum (map f l) - f x + f y)%nat.
  Proof.
    revert i. induction l as [|z l IH]; intros [|i] N; try discriminate.
    - cbn [nth_error] in N. assert (z = x) as -> by congruence. unfold upd. cbn [firstn skipn app map list_sum fold_right]. unfold list_sum. cbn [fold_right]. lia.
    - rewrite upd_cons. cbn [map]. unfold list_sum in *. cbn [fold_right]. specialize (IH i N). lia.
  Qed.
  Lemma F2_upd {S T} (R : S -> T -> Prop) a b i x y : Forall2 R a b -> nth_error a i = Some x -> R x y -> Forall2 R a (upd b i y).
  Proof.
    intros F. revert i. induction F as [|u v a b H F IH]; intros [|i] N Hy; try discriminate.
    - cbn [nth_error] in N. assert (u = x) as -> by congruence. unfold upd. cbn [firstn skipn app]. constructor; assumption.
    - rewrite upd_cons. constructor; [assumption|]. now apply IH.
  Qed.
  Lemma F2_nth {S T} (R : S -> T -> Prop) a b i y : Forall2 R a b -> nth_error b i = Some y -> exists x, nth_error a i = Some x /\ R x y.
  Proof.
    intros F. revert i. induction F as [|u v a b H F IH]; intros [|i] N; try discriminate.
    - cbn [nth_error] in N. assert (v = y) as -> by congruence. exists u. split; [reflexivity|assumption].
    - now apply IH.
  Qed.
  Lemma F2_nth' {S T} (R : S -> T -> Prop) a b i x : Forall2 R a b -> nth_error a i = Some x -> exists y, nth_error b i = Some y /\ R x y.
  Proof.
    intros F. revert i. induction F as [|u v a b H F IH]; intros [|i] N; try discriminate.
    - cbn [nth_error] in N. assert (u = x) as -> by congruence. exists v. split; [reflexivity|assumption].
    - now apply IH.
  Qed.

  Lemma all_step Qs R ts w i p p' w' : all_ok Qs R ts w -> nth_error ts i = Some p -> step dhandler p w = Some (p', w') -> all_ok Qs R (upd ts i p') w'.
  Proof.
    intros [items sp j ws a -> Ew I0 Fq Sw Rn] N St. destruct i as [|i]; cbn [nth_error] in N.
    - assert (p = sp) as -> by congruence. destruct sp as [x|X c k]; [discriminate|]. cbn [step] in St. cbn [swp] in Sw.
      specialize (Sw (b2n a + total_c items)%nat (total_s items)). rewrite <- Ew in Sw.
      destruct (dhandler X c w) as [[x w2]|]; [|discriminate]. assert (p' = k x) as -> by congruence. assert (w2 = w') as -> by congruence.
      destruct Sw as (a' & j' & H1 & H2 & H3 & H4 & H5 & H6); [destruct a; cbn [b2n]; [lia|discriminate]|].
      refine (mkAll Qs R _ w' items (k x) j' w' a' eq_refl _ H2 _ H6 _).
      + replace (b2n a' + total_c items)%nat with (rw_readers (d_curl w')) by lia. rewrite <- H4. symmetry. apply with_self.
      + revert Fq. apply Forall2_impl_in. intros Q it _ _ H. now apply (qwp_mono _ _ _ _ j).
      + rewrite <- Rn. cbn [run]. now rewrite H5.
    - rewrite nth_error_map in N. destruct (nth_error items i) as [[p0 [qa qb]]|] eqn:NI; [|discriminate]. cbn [option_map fst] in N.
      assert (p0 = p) as -> by congruence. destruct (F2_nth _ _ _ _ _ Fq NI) as (Q & NQ & HQ). cbn [fst snd] in HQ.
      destruct p as [x|X c k]; [discriminate|]. cbn [step] in St. cbn [SwapProofs.qwp] in HQ. specialize (HQ w j (Nat.le_refl j) I0).
      pose proof (sum_upd (fun x : prog dcmd danswer * (bool * bool) => b2n (fst (snd x))) items i _ (p', (qa, qb)) NI) as Sa.
      pose proof (sum_upd (fun x : prog dcmd danswer * (bool * bool) => b2n (snd (snd x))) items i _ (p', (qa, qb)) NI) as Sb. cbn [fst snd] in Sa, Sb.
      fold (total_c items) in Sa. fold (total_s items) in Sb.
      destruct (dhandler X c w) as [[x w2]|]; [|discriminate]. assert (p' = k x) as -> by congruence. assert (w2 = w') as -> by congruence.
      destruct HQ as (a' & b' & E & HQ).
      { intros ->. cbn [b2n] in Sa. rewrite Ew. cbn [with_readers d_curl set_readers rw_readers]. lia. }
      { intros ->. cbn [b2n] in Sb. rewrite Ew. cbn [with_readers d_secl set_readers rw_readers]. lia. }
      destruct (sum_upd (fun x : prog dcmd danswer * (bool * bool) => b2n (fst (snd x))) items i _ (k x, (a', b')) NI) as [Sa1 Sa2].
      destruct (sum_upd (fun x : prog dcmd danswer * (bool * bool) => b2n (snd (snd x))) items i _ (k x, (a', b')) NI) as [Sb1 Sb2].
      cbn [fst snd] in Sa1, Sa2, Sb1, Sb2. fold (total_c items) in Sa1, Sa2. fold (total_s items) in Sb1, Sb2.
      fold (total_c (upd items i (k x, (a', b')))) in Sa2. fold (total_s (upd items i (k x, (a', b')))) in Sb2.
      refine (mkAll Qs R _ w' (upd items i (k x, (a', b'))) sp j ws a _ _ _ _ Sw Rn).
      + rewrite upd_cons, map_upd. reflexivity.
      + rewrite E, Ew, with_with. f_equal; cbn [with_readers d_curl d_secl set_readers rw_readers]; lia.
      + rewrite E. apply inv_with, I0.
      + apply (F2_upd _ _ _ _ Q); [assumption|assumption|]. exact HQ.
  Qed.
  Lemma all_interleave Qs R sched : forall ts w ts' w', all_ok Qs R ts w -> interleave dhandler sched ts w = (ts', w') -> all_ok Qs R ts' w'.
  Proof.
    induction sched as [|i sched IH]; intros ts w ts' w' A E; cbn [interleave] in E.
    - assert (ts = ts') as <- by congruence. assert (w = w') as <- by congruence. exact A.
    - destruct (nth_error ts i) as [p|] eqn:N; [|exact (IH _ _ _ _ A E)].
      destruct (step dhandler p w) as [[p' w1]|] eqn:St; [|exact (IH _ _ _ _ A E)].
      exact (IH _ _ _ _ (all_step _ _ _ _ _ _ _ _ A N St) E).
  Qed.

  (* what has been returned *)
  Lemma all_asked Qs R ts w i Q x : all_ok Qs R ts w -> nth_error Qs i = Some Q -> nth_error ts (S i) = Some (Ret x) -> Q x.
  Proof.
    intros [items sp j ws a -> Ew I0 Fq Sw Rn] NQ N. cbn [nth_error] in N. rewrite nth_error_map in N.
    destruct (F2_nth' _ _ _ _ _ Fq NQ) as ([p [qa qb]] & NI & HQ). rewrite NI in N. cbn [option_map fst snd] in *.
    assert (p = Ret x) as -> by congruence. apply HQ.
  Qed.
  Lemma sum_zero {T} (f : T -> nat) l : (forall x, In x l -> f x = 0%nat) -> list_sum (map f l) = 0%nat.
  Proof.
    intros H. induction l as [|x l IH]; [reflexivity|]. unfold list_sum in *. cbn [map fold_right]. rewrite IH by (intros y Hy; apply H; now right).
    rewrite (H x) by now left. reflexivity.
  Qed.
  Lemma all_idle Qs R ts w : all_ok Qs R ts w -> (forall i p, nth_error ts (S i) = Some p -> finished p) ->
    exists p ws a, nth_error ts 0 = Some p /\ w = with_readers ws (b2n a) 0 /\ run dhandler p w = R.
  Proof.
    intros [items sp j ws a -> Ew I0 Fq Sw Rn] H. exists sp, ws, a. split; [reflexivity|].
    assert (Z: forall it, In it items -> fst (snd it) = false /\ snd (snd it) = false).
    { intros [p [qa qb]] Hit. apply In_nth_error in Hit as (i & NI). destruct (F2_nth _ _ _ _ _ Fq NI) as (Q & _ & HQ). cbn [fst snd] in *.
      destruct (H i p) as [x ->]; [cbn [nth_error]; rewrite nth_error_map, NI; reflexivity|]. destruct HQ as (-> & -> & _). auto. }
    assert (E1: total_c items = 0%nat) by (apply sum_zero; intros it Hit; destruct (Z it Hit) as [-> _]; reflexivity).
    assert (E2: total_s items = 0%nat) by (apply sum_zero; intros it Hit; destruct (Z it Hit) as [_ ->]; reflexivity).
    rewrite E1, E2, Nat.add_0_r in Ew. split; [exact Ew|]. now rewrite Ew.
  Qed.
  (* nobody waits forever *)
  Lemma all_progress Qs R ts w : all_ok Qs R ts w -> (forall i p, nth_error ts i = Some p -> step dhandler p w = None) ->
    forall i p, nth_error ts i = Some p -> finished p.
  Proof.
    intros A H. pose proof A as [items sp j ws a Ets Ew I0 Fq Sw Rn].
    assert (Hn: held w = false /\ (sp = Ret (match sp with Ret x => x | _ => Swapped Panic end) \/ (b2n a < b2n a + total_c items \/ 0 < total_s items)%nat)).
    { specialize (H 0%nat sp). rewrite Ets in H. specialize (H eq_refl). rewrite Ew, held_with. destruct sp as [x|X c k].
      - split; [apply Sw|now left].
      - cbn [step] in H. cbn [swp] in Sw. specialize (Sw (b2n a + total_c items)%nat (total_s items)). rewrite <- Ew in Sw.
        destruct (dhandler X c w) as [[x w2]|]; [discriminate|]. destruct Sw as [S1 S2]; [destruct a; cbn [b2n]; [lia|discriminate]|]. split; [exact S1|now right]. }
    assert (Hq: forall i p, nth_error ts (S i) = Some p -> finished p).
    { intros i p N. pose proof (H (S i) p N) as Hs. rewrite Ets in N. cbn [nth_error] in N. rewrite nth_error_map in N.
      destruct (nth_error items i) as [[p0 [qa qb]]|] eqn:NI; [|discriminate]. cbn [option_map fst] in N. assert (p0 = p) as -> by congruence.
      destruct (F2_nth _ _ _ _ _ Fq NI) as (Q & NQ & HQ). cbn [fst snd] in HQ.
      destruct p as [x|X c k]; [exists x; reflexivity|]. exfalso. cbn [step] in Hs. cbn [SwapProofs.qwp] in HQ. specialize (HQ w j (Nat.le_refl j) I0).
      pose proof (sum_upd (fun x : prog dcmd danswer * (bool * bool) => b2n (fst (snd x))) items i _ (Do c k, (qa, qb)) NI) as Sa.
      pose proof (sum_upd (fun x : prog dcmd danswer * (bool * bool) => b2n (snd (snd x))) items i _ (Do c k, (qa, qb)) NI) as Sb. cbn [fst snd] in Sa, Sb.
      fold (total_c items) in Sa. fold (total_s items) in Sb.
      destruct (dhandler X c w) as [[x w2]|]; [discriminate|].
      assert (held w = true); [|destruct Hn; congruence]. apply HQ.
      - intros ->. cbn [b2n] in Sa. rewrite Ew. cbn [with_readers d_curl set_readers rw_readers]. lia.
      - intros ->. cbn [b2n] in Sb. rewrite Ew. cbn [with_readers d_secl set_readers rw_readers]. lia. }
    intros [|i] p N; [|now apply (Hq i)]. rewrite Ets in N. cbn [nth_error] in N. assert (sp = p) as -> by congruence.
    destruct Hn as [_ [E|E]]; [exists (match p with Ret x => x | Do _ _ => Swapped Panic end); exact E|]. exfalso.
    assert (Z: forall it, In it items -> fst (snd it) = false /\ snd (snd it) = false).
    { intros [p1 [qa qb]] Hit. apply In_nth_error in Hit as (i & NI). destruct (F2_nth _ _ _ _ _ Fq NI) as (Q & _ & HQ). cbn [fst snd] in *.
      destruct (Hq i p1) as [x ->]; [rewrite Ets; cbn [nth_error]; rewrite nth_error_map, NI; reflexivity|]. destruct HQ as (-> & -> & _). auto. }
    assert (E1: total_c items = 0%nat) by (apply sum_zero; intros it Hit; destruct (Z it Hit) as [-> _]; reflexivity).
    assert (E2: total_s items = 0%nat) by (apply sum_zero; intros it Hit; destruct (Z it Hit) as [_ ->]; reflexivity).
    lia.
  Qed.
End SWAP.

(** ** the swap itself *)
Theorem swap_swp cf w h0 d nd g start : d_heap w = h0 ++ [d] -> d_cur w = length h0 -> d_sec w = seq 0 (length h0) ->
  d_curl w = free_lock -> d_secl w = free_lock -> run fhandler (create_chunk cf start) (d_fs w) = Some (Ok nd, g) ->
  Forall plain (h0 ++ [d; nd]) ->
  let inv := SwapProofs.inv (h0 ++ [d; nd]) (length h0) (seq 0 (length h0)) in
  inv 0%nat w /\ swp (h0 ++ [d; nd]) (length h0) (seq 0 (length h0)) (swapping cf start) 0 w false.
Proof.
  intros Eh Ec Es El1 El2 R Hp inv.
  assert (NF: forall i x, nth_error (h0 ++ [d]) i = Some x -> exists y, nth_error (h0 ++ [d; nd]) i = Some y /\ frozen y x).
  { intros i x N. exists x. split.
    - change [d; nd] with ([d] ++ [nd]). rewrite app_assoc. rewrite nth_error_app1; [exact N|]. apply nth_error_Some. congruence.
    - apply plain_frozen. rewrite Forall_forall in Hp. apply Hp. apply nth_error_In in N. apply in_app_iff in N as [N|[<-|[]]]; apply in_app_iff; [now left|right; now left]. }
  assert (PD: plain d) by (rewrite Forall_forall in Hp; apply Hp; apply in_app_iff; right; now left).
  assert (PN: plain nd) by (rewrite Forall_forall in Hp; apply Hp; apply in_app_iff; right; right; now left).
  assert (LL: forall k, (length h0 < k)%nat -> Forall (fun i => i < k)%nat (sec_at (length h0) (seq 0 (length h0)) 1)).
  { intros k Lk. unfold sec_at. cbn [Nat.eqb]. apply Forall_app. split; [|constructor; [exact Lk|constructor]].
    rewrite Forall_forall. intros i Hi. apply in_seq in Hi. lia. }
  assert (I0: inv 0%nat w).
  { constructor; rewrite ?Eh, ?Ec, ?Es, ?El1, ?El2; try reflexivity.
    - exact NF.
    - rewrite app_length. cbn. lia.
    - apply LL. rewrite app_length. cbn. lia. }
  split; [exact I0|].
  unfold swapping, db_swap, qbind. apply swp_assoc. apply (swp_DF _ _ _ _ _ w (Ok nd) g 0%nat R I0). intros m0 n0.
  destruct w as [heap cur sec curl secl fs]. cbn [d_heap d_cur d_sec d_curl d_secl d_fs] in *. subst heap cur sec curl secl.
  (* the heap with the new chunk *)
  set (heap := (h0 ++ [d]) ++ [nd]).
  assert (NT: nth_error heap (length h0) = Some d).
  { unfold heap. rewrite nth_error_app1 by (rewrite app_length; cbn; lia). apply nth_last. }
  assert (NFh: forall x, frozen d x -> forall i y, nth_error (upd heap (length h0) x) i = Some y -> exists z, nth_error (h0 ++ [d; nd]) i = Some z /\ frozen z y).
  { intros x Fx i y N. assert (HE: heap = h0 ++ [d; nd]) by (unfold heap; now rewrite <- app_assoc).
    assert (Hl: (length h0 < length heap)%nat) by (apply nth_error_Some; congruence).
    rewrite nth_upd in N by assumption. destruct (i =? length h0)%nat eqn:Ei.
    - assert (i = length h0) as -> by lia. assert (x = y) as <- by congruence. exists d. rewrite <- HE. auto.
    - exists y. rewrite <- HE. split; [exact N|]. apply plain_frozen. rewrite Forall_forall in Hp. apply Hp. rewrite <- HE. eapply nth_error_In. exact N. }
  assert (NFh0: forall i y, nth_error heap i = Some y -> exists z, nth_error (h0 ++ [d; nd]) i = Some z /\ frozen z y).
  { intros i y N. apply (NFh d (plain_frozen d PD)). rewrite upd_self by exact NT. exact N. }
  assert (Lh: length heap = S (S (length h0))) by (unfold heap; rewrite !app_length; cbn; lia).
  assert (MK: forall j cu se cl sl f, (j <= 2)%nat -> cu = cur_at (length h0) j -> se = sec_at (length h0) (seq 0 (length h0)) j ->
     rw_poisoned cl = false -> rw_poisoned sl = false -> inv j (mkD heap cu se cl sl f)).
  { intros j cu se cl sl f Lj -> -> P1 P2. constructor; cbn [d_heap d_cur d_sec d_curl d_secl]; try assumption; try reflexivity.
    - rewrite Lh. unfold cur_at. destruct (j <=? 1)%nat; lia.
    - apply LL. lia. }
  assert (MKu: forall x j cu se cl sl f, frozen d x -> (j <= 2)%nat -> cu = cur_at (length h0) j -> se = sec_at (length h0) (seq 0 (length h0)) j ->
     rw_poisoned cl = false -> rw_poisoned sl = false -> inv j (mkD (upd heap (length h0) x) cu se cl sl f)).
  { intros x j cu se cl sl f Fx Lj -> -> P1 P2.
    assert (length (upd heap (length h0) x) = length heap) as Lu by (apply upd_length; lia).
    constructor; cbn [d_heap d_cur d_sec d_curl d_secl]; try assumption; try reflexivity.
    - exact (NFh x Fx).
    - rewrite Lu, Lh. unfold cur_at. destruct (j <=? 1)%nat; lia.
    - rewrite Lu. apply LL. lia. }
  Ltac sw m n Hm := cbn [bind call swp]; intros m n Hm; cbn [dhandler]; cbv [set_heap set_fs set_curl set_secl set_cur set_sec free_lock rw_read rw_write rw_unread rw_unwrite with_readers set_readers];
    cbn [d_heap d_cur d_sec d_curl d_secl d_fs rw_readers rw_writer rw_poisoned pred negb orb b2n].
  (* DAlloc *)
  sw m n Hm. exists false, 0%nat. split; [lia|]. split; [apply MK; try reflexivity; lia|]. cbn [d_curl d_secl rw_readers b2n]. split; [lia|]. split; [reflexivity|]. split; [reflexivity|].
  fold heap. replace (length (h0 ++ [d])) with (S (length h0)) by (rewrite app_length; cbn; lia). unfold with_current. apply swp_assoc, swp_assoc.
  (* DCurRead *)
  sw m1 n1 Hm1. rewrite NT. exists true, 0%nat. split; [lia|]. split; [apply MK; try reflexivity; lia|]. cbn [d_curl d_secl rw_readers b2n].
  split; [lia|]. split; [reflexivity|]. split; [reflexivity|].
  (* DSecWrite *)
  sw m2 n2 Hm2. destruct (negb (n2 =? 0)%nat) eqn:Z2.
  { split; [|right; lia]. unfold held. cbn [d_curl d_secl d_heap rw_writer orb]. apply not_true_is_false. intros X. apply existsb_exists in X as (x & Hx & Lx).
    rewrite Forall_forall in Hp. unfold heap in Hx. rewrite <- app_assoc in Hx. destruct (Hp x Hx) as [Px _]. congruence. }
  assert (n2 = 0%nat) as -> by lia. cbn [Nat.eqb negb].
  exists true, 0%nat. split; [lia|]. split; [apply MK; try reflexivity; lia|]. cbn [d_curl d_secl rw_readers b2n]. split; [specialize (Hm2 eq_refl); lia|]. split; [reflexivity|]. split; [reflexivity|].
  (* DSecPush *)
  sw m3 n3 Hm3. exists true, 1%nat. split; [lia|]. split; [apply MK; try reflexivity; lia|]. cbn [d_curl d_secl rw_readers b2n]. split; [specialize (Hm3 eq_refl); lia|]. split; [reflexivity|]. split; [reflexivity|].
  (* DSecUnwrite *)
  sw m4 n4 Hm4. exists true, 1%nat. split; [lia|]. split; [apply MK; try reflexivity; lia|]. cbn [d_curl d_secl rw_readers b2n]. split; [specialize (Hm4 eq_refl); lia|]. split; [reflexivity|]. split; [reflexivity|].
  (* DCurUnread *)
  sw m5 n5 Hm5. exists false, 1%nat. split; [lia|]. split; [apply MK; try reflexivity; lia|]. cbn [d_curl d_secl rw_readers b2n]. split; [lia|]. split; [reflexivity|]. split; [reflexivity|].
  (* DCurWrite *)
  sw m6 n6 Hm6. destruct (negb (m6 =? 0)%nat) eqn:Z6.
  { split; [|left; lia]. unfold held. cbn [d_curl d_secl d_heap rw_writer orb]. apply not_true_is_false. intros X. apply existsb_exists in X as (x & Hx & Lx).
    rewrite Forall_forall in Hp. unfold heap in Hx. rewrite <- app_assoc in Hx. destruct (Hp x Hx) as [Px _]. congruence. }
  assert (m6 = 0%nat) as -> by lia. rewrite NT. cbn [Nat.eqb negb].
  exists false, 1%nat. split; [lia|]. split; [apply MK; try reflexivity; lia|]. cbn [d_curl d_secl rw_readers b2n]. split; [reflexivity|]. split; [reflexivity|]. split; [reflexivity|].
  unfold chunk_close, with_write_lock. cbn [bind call lift].
  destruct PD as (PD1 & PD2 & PD3). destruct d as [dch [dst dix dnx dcl dlk dpo dfa] dnm]. cbn [dc_world w_locked w_poisoned w_faults] in PD1, PD2, PD3. subst dlk dpo dfa.
  cbn [dc_chunk dc_world dc_name] in *.
  (* CWriteLock *)
  sw m7 n7 Hm7. rewrite NT. cbn [chandler dc_chunk dc_world dc_name w_locked w_poisoned].
  exists false, 1%nat. split; [lia|]. split; [apply MKu; try reflexivity; try lia; constructor; reflexivity|]. cbn [d_curl d_secl rw_readers b2n].
  split; [lia|]. split; [reflexivity|]. split; [reflexivity|].
  assert (NU: forall x, nth_error (upd heap (length h0) x) (length h0) = Some x).
  { intros x. rewrite nth_upd by lia. now rewrite Nat.eqb_refl. }
  (* CSetClosed *)
  cbn [w_poisoned set_lock]. cbn [lift bind call]. sw m8 n8 Hm8. rewrite NU. cbn [chandler dc_chunk dc_world dc_name]. rewrite upd_upd by lia.
  exists false, 1%nat. split; [lia|]. split; [apply MKu; try reflexivity; try lia; constructor; reflexivity|]. cbn [d_curl d_secl rw_readers b2n].
  split; [lia|]. split; [reflexivity|]. split; [reflexivity|].
  (* CWriteUnlock *)
  cbn [lift bind call is_panic]. sw m9 n9 Hm9. rewrite NU. cbn [chandler dc_chunk dc_world dc_name w_poisoned set_closed set_lock orb]. rewrite upd_upd by lia.
  exists false, 1%nat. split; [lia|]. split; [apply MKu; try reflexivity; try lia; constructor; reflexivity|]. cbn [d_curl d_secl rw_readers b2n].
  split; [lia|]. split; [reflexivity|]. split; [reflexivity|].
  (* DCurStore *)
  cbn [lift bind call]. sw m10 n10 Hm10. exists false, 2%nat. split; [lia|]. split; [apply MKu; try reflexivity; try lia; constructor; reflexivity|]. cbn [d_curl d_secl rw_readers b2n].
  split; [lia|]. split; [reflexivity|]. split; [reflexivity|].
  (* DCurUnwrite *)
  sw m11 n11 Hm11. exists false, 2%nat. split; [lia|]. split; [apply MKu; try reflexivity; try lia; constructor; reflexivity|]. cbn [d_curl d_secl rw_readers b2n].
  split; [lia|]. split; [reflexivity|]. split; [reflexivity|].
  cbn [swp bind]. split; [reflexivity|]. unfold held. cbn [d_curl d_secl d_heap rw_writer orb]. apply not_true_is_false. intros X. apply existsb_exists in X as (x & Hx & Lx).
  apply In_nth_error in Hx as (i & N). rewrite nth_upd in N by lia. destruct (i =? length h0)%nat.
  - apply (f_equal (option_map (fun x => w_locked (dc_world x)))) in N. cbn in N. congruence.
  - apply nth_error_In in N. rewrite Forall_forall in Hp. unfold heap in N. rewrite <- app_assoc in N. destruct (Hp x N) as [Px _]. congruence.
Qed.
