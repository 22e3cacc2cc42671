(* Proofs about queries running while the current chunk is swapped, under every interleaving. *)
From Coq Require Import ZifyBool ZifyNat Permutation.
From Verif Require Import Rust StringProofs Prog Gorilla GorillaSpec Storage StorageSpec StorageProofs Labels IndexSpec Indexer
  LabelProofs IndexProofs Chunk ChunkSpec ChunkProofs ChunkFacts Conc Utils DirSpec DirProofs TiKvInit Db DbSpec MapProofs
  DbProofs DbHist DbFacts SwapSpec.

(** ** programs with only certain commands *)
Fixpoint only {C : Type -> Type} {A} (P : forall X, C X -> Prop) (p : prog C A) : Prop :=
  match p with Ret _ => True | @Do _ _ X c k => P X c /\ forall x, only P (k x) end.
Lemma only_bind {C : Type -> Type} {A B} P (p : prog C A) (f : A -> prog C B) : only P p -> (forall a, only P (f a)) -> only P (bind p f).
Proof. induction p as [a|X c k IH]; cbn [only bind]; [auto|]. intros [H1 H2] H. split; [exact H1|]. intros x. now apply IH. Qed.
Lemma only_qbind {C : Type -> Type} {A B} P (p : prog C (res A)) (f : A -> prog C (res B)) : only P p -> (forall a, only P (f a)) -> only P (qbind p f).
Proof. intros H1 H2. apply only_bind; [exact H1|]. intros [a|e|]; cbn [only]; auto. Qed.
Lemma only_forM {C : Type -> Type} {A B} P (f : A -> prog C (res B)) l : (forall a, only P (f a)) -> only P (forM f l).
Proof.
  intros H. induction l as [|a l IH]; cbn [forM]; [exact I|]. apply only_qbind; [apply H|]. intros b. apply only_qbind; [exact IH|].
  intros bs. exact I.
Qed.
Lemma only_lift {C D : Type -> Type} {A} (P : forall X, C X -> Prop) (R : forall X, D X -> Prop) (g : forall X, C X -> D X) (p : prog C A) :
  (forall X c, P X c -> R X (g X c)) -> only P p -> only R (lift g p).
Proof. intros H. induction p as [a|X c k IH]; cbn [only lift]; [auto|]. intros [H1 H2]. split; [auto|]. intros x. now apply IH. Qed.
Lemma only_call {C : Type -> Type} {X} (P : forall X, C X -> Prop) (c : C X) : P X c -> only P (call c).
Proof. intros H. split; [exact H|]. intros x. exact I. Qed.

Definition getc X (c : kcmd X) : Prop := match c with KGet _ => True | KSet _ _ => False end.
Definition readc X (c : ccmd X) : Prop :=
  match c with CSt c => getc _ c | CIx c => getc _ c | CReadPass => True | _ => False end.

Lemma gets_only ks : only getc (tikv_gets ks).
Proof.
  induction ks as [|k ks IH]; [exact I|]. cbn [tikv_gets]. apply only_bind; [apply only_call; exact I|]. intros r.
  apply only_bind; [exact IH|]. intros rest. exact I.
Qed.
Lemma metas_only id ids : only getc (tikv_metas id ids).
Proof.
  induction ids as [|k ks IH]; [exact I|]. cbn [tikv_metas]. apply only_bind; [apply only_call; exact I|]. intros r.
  apply only_bind; [exact IH|]. intros rest. exact I.
Qed.
Lemma metadata_only ix o ls : only getc (series_metadata_contains_labels ix o ls).
Proof.
  destruct ix as [|id]; cbn [series_metadata_contains_labels].
  - unfold sled_metadata, sled_contains. apply only_qbind.
    + apply only_qbind; [|intros; exact I]. apply only_forM. intros l. apply only_qbind; [apply only_call; exact I|]. intros; exact I.
    + intros ids. apply only_qbind; [|intros; exact I]. apply only_forM. intros i. apply only_qbind; [apply only_call; exact I|]. intros; exact I.
  - unfold tikv_metadata, tikv_contains. apply only_qbind.
    + apply only_bind; [apply gets_only|]. intros; exact I.
    + intros ids. apply only_bind; [apply metas_only|]. intros; exact I.
Qed.
Lemma read_only st bs id s e : only getc (read_time_series st bs id s e).
Proof. destruct st; (apply only_qbind; [apply only_call; exact I|intros; exact I]). Qed.
Lemma query_only ch bs o ls s e : only readc (chunk_query ch bs o ls s e).
Proof.
  unfold chunk_query. apply only_bind; [apply only_call; exact I|]. intros [|]; [exact I|]. destruct (negb _); [exact I|].
  apply only_qbind; [apply (only_lift getc); [auto|apply metadata_only]|]. intros cs. apply only_qbind; [|intros; exact I].
  apply only_forM. intros c. apply only_qbind; [apply (only_lift getc); [auto|apply read_only]|intros; exact I].
Qed.

(** ** chunks whose stores do not change *)
Record frozen (d d' : dchunk) : Prop := mkFz {
  fz_chunk : dc_chunk d' = dc_chunk d;
  fz_st : w_st (dc_world d') = w_st (dc_world d);
  fz_ix : w_ix (dc_world d') = w_ix (dc_world d);
  fz_poison : w_poisoned (dc_world d') = false;
  fz_faults : w_faults (dc_world d') = [] }.
Definition plain (d : dchunk) : Prop :=
  w_locked (dc_world d) = false /\ w_poisoned (dc_world d) = false /\ w_faults (dc_world d) = [].
Lemma plain_frozen d : plain d -> frozen d d.
Proof. intros (H1 & H2 & H3). constructor; auto. Qed.

(* a reading command answers as in the frozen chunk, or waits *)
Lemma read_step ch X (c : ccmd X) w w' : readc X c -> w_locked w = false -> w_poisoned w = false -> w_faults w = [] ->
  w_st w' = w_st w -> w_ix w' = w_ix w -> w_poisoned w' = false -> w_faults w' = [] ->
  exists x, chandler ch X c w = Some (x, w) /\
    (chandler ch X c w' = Some (x, w') \/ (chandler ch X c w' = None /\ w_locked w' = true)).
Proof.
  destruct w as [st ix nx cl lk po fs], w' as [st' ix' nx' cl' lk' po' fs']. cbn [w_locked w_poisoned w_faults w_st w_ix].
  intros H -> -> -> -> -> -> ->. destruct c as [X [k|k v]|X [k|k v]| | | | | |]; try contradiction; cbn.
  - eexists. split; [reflexivity|]. left. reflexivity.
  - eexists. split; [reflexivity|]. left. reflexivity.
  - exists false. split; [reflexivity|]. destruct lk'; auto.
Qed.

(** ** reader counts *)
Definition b2n (b : bool) : nat := if b then 1%nat else 0%nat.
Definition with_readers (w : dworld) (m n : nat) : dworld :=
  mkD (d_heap w) (d_cur w) (d_sec w) (set_readers (d_curl w) m) (set_readers (d_secl w) n) (d_fs w).
Lemma with_with w m n m' n' : with_readers (with_readers w m n) m' n' = with_readers w m' n'.
Proof. reflexivity. Qed.
Lemma with_self w : with_readers w (rw_readers (d_curl w)) (rw_readers (d_secl w)) = w.
Proof. destruct w as [h c s [a b d] [x y z] f]. reflexivity. Qed.
(* does somebody write? *)
Definition held (w : dworld) : bool :=
  rw_writer (d_curl w) || rw_writer (d_secl w) || existsb (fun d => w_locked (dc_world d)) (d_heap w).
Lemma held_with w m n : held (with_readers w m n) = held w.
Proof. reflexivity. Qed.

Lemma Forall2_impl_in {A B} (R S : A -> B -> Prop) a b : (forall x y, In x a -> In y b -> R x y -> S x y) -> Forall2 R a b -> Forall2 S a b.
Proof.
  intros H F. induction F as [|x y a b H1 F IH]; [constructor|]. constructor; [apply H; [now left|now left|assumption]|].
  apply IH. intros x' y' Hx Hy. apply H; now right.
Qed.

Section SWAP.
  (* the chunks, with the new one at the end; the current one; the others *)
  Variable hb : list dchunk.
  Variable old : nat.
  Variable s0 : list nat.
  Hypothesis Hplain : Forall plain hb.

  Definition cur_at (j : nat) : nat := if (j <=? 1)%nat then old else S old.
  Definition sec_at (j : nat) : list nat := if (j =? 0)%nat then s0 else s0 ++ [old].
  (* stage 0: nothing happened; 1: the old chunk is in both places; 2: the swap is made *)
  Record inv (j : nat) (w : dworld) : Prop := mkInv {
    i_heap : forall i d', nth_error (d_heap w) i = Some d' -> exists d, nth_error hb i = Some d /\ frozen d d';
    i_len : (cur_at j < length (d_heap w))%nat;
    i_secs : Forall (fun i => i < length (d_heap w))%nat (sec_at 1);
    i_cur : d_cur w = cur_at j;
    i_sec : d_sec w = sec_at j;
    i_p1 : rw_poisoned (d_curl w) = false;
    i_p2 : rw_poisoned (d_secl w) = false }.
  Lemma inv_with j w m n : inv j w -> inv j (with_readers w m n).
  Proof. intros [H1 H2 H3 H4 H5 H6 H7]. constructor; assumption. Qed.
  Lemma inv_fs j w f : inv j w -> inv j (set_fs w f).
  Proof. intros [H1 H2 H3 H4 H5 H6 H7]. constructor; assumption. Qed.

  (** ** what a query does: others may move the swap forward at any time *)
  Fixpoint qwp {A} (p : prog dcmd A) (j : nat) (a b : bool) (Q : A -> Prop) : Prop :=
    match p with
    | Ret x => a = false /\ b = false /\ Q x
    | @Do _ _ X c k =>
        forall w i, (j <= i)%nat -> inv i w -> (a = true -> 0 < rw_readers (d_curl w))%nat -> (b = true -> 0 < rw_readers (d_secl w))%nat ->
        match dhandler X c w with
        | None => held w = true
        | Some (x, w') => exists a' b',
            w' = with_readers w (rw_readers (d_curl w) - b2n a + b2n a') (rw_readers (d_secl w) - b2n b + b2n b') /\
            qwp (k x) i a' b' Q
        end
    end.
  Lemma qwp_mono {A} (p : prog dcmd A) j i a b Q : qwp p j a b Q -> (j <= i)%nat -> qwp p i a b Q.
  Proof. destruct p as [x|X c k]; cbn [qwp]; [auto|]. intros H L w i' Hi. apply H. lia. Qed.

  Lemma qwp_assoc {A B C} (p : prog dcmd A) (f : A -> prog dcmd B) (g : B -> prog dcmd C) Q : forall j a b,
    qwp (bind p (fun x => bind (f x) g)) j a b Q -> qwp (bind (bind p f) g) j a b Q.
  Proof.
    induction p as [x|X c k IH]; intros j a b H; [exact H|]. cbn [bind qwp] in *. intros w i L I0 Ha Hb.
    specialize (H w i L I0 Ha Hb). destruct (dhandler X c w) as [[x w']|]; [|exact H]. destruct H as (a' & b' & E & H).
    exists a', b'. split; [exact E|]. now apply IH.
  Qed.

  (* chunks that exist at stage j and later *)
  Definition there (j i : nat) : Prop := In i (cur_at j :: sec_at 1).
  Lemma there_len j i' i w : there j i -> (j <= i')%nat -> inv i' w -> (i < length (d_heap w))%nat.
  Proof.
    intros T L I0. pose proof (i_len _ _ I0) as I1. pose proof (i_secs _ _ I0) as I2. rewrite Forall_forall in I2.
    destruct T as [<-|T]; [|now apply I2]. destruct (Nat.le_gt_cases j 1) as [Lj|Lj].
    - apply I2. unfold sec_at, cur_at. replace (j <=? 1)%nat with true by lia. cbn [Nat.eqb]. apply in_app_iff. right. now left.
    - unfold cur_at in *. replace (j <=? 1)%nat with false by lia. replace (i' <=? 1)%nat with false in I1 by lia. exact I1.
  Qed.
  Lemma there_mono j i' i : there j i -> (j <= 1 -> i' <= 1)%nat -> (j <= i')%nat -> there i' i.
  Proof.
    intros [<-|T] L1 L2; [left|now right]. unfold cur_at. destruct (j <=? 1)%nat eqn:E.
    - replace (i' <=? 1)%nat with true by lia. reflexivity.
    - replace (i' <=? 1)%nat with false by lia. reflexivity.
  Qed.

  Definition after_ok (P : nat -> Prop) (j : nat) : Prop := forall i, (j <= i)%nat -> P i.
  (* running a chunk's query inside *)
  Lemma qwp_read {A B} i d (p : prog ccmd A) (f : A -> prog dcmd B) r a b Q : nth_error hb i = Some d ->
    forall j, (forall i' w, (j <= i')%nat -> inv i' w -> (i < length (d_heap w))%nat) ->
    only readc p -> run (chandler (dc_chunk d)) p (dc_world d) = Some (r, dc_world d) ->
    qwp (f r) j a b Q -> qwp (bind (lift (fun X c => @DC X i c) p) f) j a b Q.
  Proof.
    intros N. assert (Pd: plain d) by (rewrite Forall_forall in Hplain; apply Hplain; eapply nth_error_In; exact N).
    destruct Pd as (P1 & P2 & P3).
    induction p as [x|X c k IH]; intros j T O R K.
    - cbn [run] in R. assert (x = r) as -> by congruence. exact K.
    - cbn [lift bind qwp]. destruct O as [O1 O2]. intros w i' Li I0 Ha Hb.
      pose proof (T i' w Li I0) as Hi. destruct (nth_error (d_heap w) i) as [d'|] eqn:N'; [|apply nth_error_None in N'; lia].
      destruct (i_heap _ _ I0 i d' N') as (d2 & N2 & F). assert (d2 = d) as -> by congruence. destruct F as [F1 F2 F3 F4 F5].
      destruct (read_step (dc_chunk d) X c (dc_world d) (dc_world d') O1 P1 P2 P3 F2 F3 F4 F5) as (x & E1 & E2).
      cbn [run] in R. rewrite E1 in R. cbn [dhandler]. rewrite N', F1. destruct E2 as [E2|[E2 E3]]; rewrite E2.
      + exists a, b. split.
        * assert (mkDc (dc_chunk d) (dc_world d') (dc_name d') = d') as -> by (destruct d'; cbn in *; now subst).
          rewrite upd_self by assumption. destruct w as [h cu se [m1 m2 m3] [n1 n2 n3] fs]. cbn [d_curl d_secl rw_readers] in *.
          unfold with_readers, set_heap, set_readers. cbn [d_heap d_cur d_sec d_curl d_secl d_fs rw_writer rw_poisoned].
          replace (m1 - b2n a + b2n a)%nat with m1 by (destruct a; cbn [b2n]; [specialize (Ha eq_refl)|]; lia).
          replace (n1 - b2n b + b2n b)%nat with n1 by (destruct b; cbn [b2n]; [specialize (Hb eq_refl)|]; lia). reflexivity.
        * apply IH; [|apply O2|exact R|now apply (qwp_mono _ j)]. intros i2 w2 L2. apply T. lia.
      + unfold held. apply orb_true_iff. right. apply existsb_exists. exists d'. split; [eapply nth_error_In; exact N'|exact E3].
  Qed.

  (* the part that chunk i holds *)
  Definition holds (i : nat) (c : part) : Prop :=
    exists d, nth_error hb i = Some d /\ like (dc_chunk d) (fst c) /\ crd (dc_chunk d) (dc_world d) (snd c) /\ Z.of_nat (length (snd c)) < 2 ^ 64.
  Lemma holds_run i c bs o q s e d : holds i c -> nth_error hb i = Some d -> Forall lab_ok q ->
    run (chandler (dc_chunk d)) (chunk_query (dc_chunk d) bs o q s e) (dc_world d) = Some (ans bs q s e c, dc_world d).
  Proof.
    intros (d' & N & (L1 & L2 & L3) & R & Hl) N' Hq. assert (d' = d) as -> by congruence.
    pose proof (query_crd _ bs o _ _ q s e R Hl Hq) as E. unfold crun in E. rewrite E. unfold ans. now rewrite L2, L3.
  Qed.

  Lemma qwp_secs {B} hs bs o q s e a b (f : res hmap -> prog dcmd B) Q j : Forall lab_ok q ->
    forall (items : list (nat * part)) cs m,
    Forall (fun it => In (fst it) (sec_at 1) /\ holds (fst it) (snd it) /\ ans bs q s e (snd it) <> Panic) items ->
    Forall2 (fun it x => fst x = fst it /\ option_map dc_chunk (nth_error hb (fst it)) = Some (snd x)) items cs ->
    qwp (f (merges hs m (map (fun it => okl (ans bs q s e (snd it))) items))) j a b Q ->
    qwp (bind (query_secondaries hs bs o q s e cs m) f) j a b Q.
  Proof.
    intros Hq items. induction items as [|[i c] items IH]; intros cs m H F K.
    - inversion F; subst. exact K.
    - inversion F as [|it [i' ch] its cs' (F1 & F2) F4]; subst. apply Forall_cons_iff in H as [(H1 & H2 & H3) H6]. cbn [fst snd] in *. subst i'.
      pose proof H2 as (d & N & (L1 & L2 & L3) & R & Hl). rewrite N in F2. cbn [option_map] in F2. assert (ch = dc_chunk d) as -> by congruence.
      cbn [query_secondaries]. cbn [map snd merges] in K. unfold is_with_range, is_duration_overlap. rewrite L2, L3.
      destruct ((e <? c_start (fst c)) || (c_end (fst c) <? s)) eqn:O; cbn [negb].
      + unfold ans at 1 in K. rewrite O in K. cbn [okl merge rbind] in K. apply IH; assumption.
      + apply qwp_assoc. apply (qwp_read i d _ _ (ans bs q s e c) a b Q N j).
        * intros i' w Li I0. apply (there_len j i' i w); [now right|assumption|assumption].
        * apply query_only.
        * exact (holds_run i c bs o q s e d H2 N Hq).
        * destruct (ans bs q s e c) as [l|er|]; [|apply IH; assumption|congruence]. cbn [okl] in K.
          destruct (merge (hm_append hs) m l) as [m'|er|]; cbn [rbind] in K; [apply IH; assumption|exact K|exact K].
  Qed.

  (** ** the whole query *)
  Variable l0 : list part.
  Variables c cn : part.
  Hypothesis Hsec : Forall2 holds s0 l0.
  Hypothesis Hcur : holds old c.
  Hypothesis Hnew : holds (S old) cn.
  Definition cpart (j : nat) : part := if (j <=? 1)%nat then c else cn.
  Definition lparts (j : nat) : list part := if (j =? 0)%nat then l0 else l0 ++ [c].
  Lemma holds_cur j : holds (cur_at j) (cpart j).
  Proof. unfold cur_at, cpart. destruct (j <=? 1)%nat; assumption. Qed.
  Lemma holds_sec j : Forall2 holds (sec_at j) (lparts j).
  Proof. unfold sec_at, lparts. destruct (j =? 0)%nat; [assumption|]. apply Forall2_app; [assumption|]. constructor; [assumption|constructor]. Qed.

  Lemma sec_looked w i : inv i w -> exists cs, lookups (d_heap w) (d_sec w) = Some cs /\
    Forall2 (fun k x => fst x = k /\ option_map dc_chunk (nth_error hb k) = Some (snd x)) (sec_at i) cs.
  Proof.
    intros I0. rewrite (i_sec _ _ I0). assert (L: Forall (fun k => k < length (d_heap w))%nat (sec_at i)).
    { pose proof (i_secs _ _ I0) as L. unfold sec_at in *. cbn [Nat.eqb] in L. destruct (i =? 0)%nat; [|exact L]. apply Forall_app in L. apply L. }
    destruct (lookups_ok (d_heap w) (sec_at i) L) as (cs & E & F). exists cs. split; [exact E|].
    revert F. apply Forall2_impl_in. intros k x _ _ (F1 & F2 & F3). split; [exact F1|].
    destruct (nth_error (d_heap w) k) as [d'|] eqn:N; [|congruence]. destruct (i_heap _ _ I0 k d' N) as (d & N' & F).
    rewrite N'. cbn [option_map]. rewrite (F3 d' eq_refl). now rewrite (fz_chunk _ _ F).
  Qed.

  Theorem query_qwp {B} hs bs o q s e (f : res (list (list label * list tp)) -> prog dcmd B) Q : Forall lab_ok q ->
    Forall (fun x => ans bs q s e x <> Panic) (l0 ++ [c; cn]) ->
    (forall j1 j2, (j1 <= j2)%nat ->
       qwp (f (assembled hs (okl (ans bs q s e (cpart j1))) (map (fun x => okl (ans bs q s e x)) (rev (lparts j2))))) j2 false false Q) ->
    qwp (bind (db_query hs bs o q s e) f) 0 false false Q.
  Proof.
    intros Hq NP K. unfold db_query, qbind. apply qwp_assoc. unfold with_current. apply qwp_assoc.
    cbn [call bind qwp]. intros w j1 _ I1 _ _. cbn [dhandler].
    destruct (rw_read (d_curl w)) as [l|] eqn:R1.
    2:{ unfold rw_read in R1. unfold held. destruct (rw_writer (d_curl w)); [reflexivity|discriminate]. }
    rewrite (i_cur _ _ I1). destruct (nth_error (d_heap w) (cur_at j1)) as [d'|] eqn:N1; [|apply nth_error_None in N1; pose proof (i_len _ _ I1); lia].
    assert (PL: rw_poisoned l = false).
    { unfold rw_read in R1. destruct (rw_writer (d_curl w)); [discriminate|]. assert (l = mkRw (S (rw_readers (d_curl w))) false (rw_poisoned (d_curl w))) as -> by congruence. apply (i_p1 _ _ I1). }
    rewrite PL. exists true, false. split.
    { unfold rw_read in R1. destruct (rw_writer (d_curl w)) eqn:W; [discriminate|].
      assert (l = mkRw (S (rw_readers (d_curl w))) false (rw_poisoned (d_curl w))) as -> by congruence.
      destruct w as [h cu se [m1 m2 m3] [n1 n2 n3] fs]. cbn in W. subst m2. unfold set_curl, with_readers, set_readers.
      cbn [d_heap d_cur d_sec d_curl d_secl d_fs rw_readers rw_writer rw_poisoned b2n].
      replace (m1 - 0 + 1)%nat with (S m1) by lia. replace (n1 - 0 + 0)%nat with n1 by lia. reflexivity. }
    destruct (i_heap _ _ I1 _ _ N1) as (d & N & F). rewrite (fz_chunk _ _ F).
    pose proof (holds_cur j1) as HC. apply qwp_assoc, qwp_assoc.
    apply (qwp_read (cur_at j1) d _ _ (ans bs q s e (cpart j1)) true false Q N j1).
    { intros i' w' Li Iw. apply (there_len j1 i' (cur_at j1) w'); [now left|assumption|assumption]. }
    { apply query_only. }
    { exact (holds_run _ _ bs o q s e d HC N Hq). }
    assert (NC: ans bs q s e (cpart j1) <> Panic).
    { rewrite Forall_forall in NP. apply NP. apply in_app_iff. right. unfold cpart. destruct (j1 <=? 1)%nat; [left|right; left]; reflexivity. }
    assert (E0: (match ans bs q s e (cpart j1) with Ok l1 => merge (hm_insert hs) [] l1 | Err _ => Ok [] | Panic => Panic end)
                = merge (hm_insert hs) [] (okl (ans bs q s e (cpart j1)))).
    { destruct (ans bs q s e (cpart j1)); [reflexivity..|]. congruence. }
    rewrite E0. cbn [bind qwp]. intros w2 j1' L1 I1' Ha _. cbn [dhandler]. exists false, false. split.
    { destruct w2 as [h cu se [m1 m2 m3] [n1 n2 n3] fs]. unfold set_curl, with_readers, set_readers, rw_unread.
      cbn [d_heap d_cur d_sec d_curl d_secl d_fs rw_readers rw_writer rw_poisoned b2n].
      replace (m1 - 1 + 0)%nat with (pred m1) by lia. replace (n1 - 0 + 0)%nat with n1 by lia. reflexivity. }
    specialize (K j1). unfold assembled in K.
    destruct (merge (hm_insert hs) [] (okl (ans bs q s e (cpart j1)))) as [m|er|]; cbn [rbind] in K; [|exact (K j1' L1)|exact (K j1' L1)].
    cbn [bind qwp]. intros w3 j2 L2 I2 _ _. cbn [dhandler].
    destruct (rw_read (d_secl w3)) as [l2|] eqn:R2.
    2:{ unfold rw_read in R2. unfold held. destruct (rw_writer (d_secl w3)); [apply orb_true_iff; left; apply orb_true_r|discriminate]. }
    destruct (sec_looked w3 j2 I2) as (cs & EL & FL). rewrite EL.
    assert (PL2: rw_poisoned l2 = false).
    { unfold rw_read in R2. destruct (rw_writer (d_secl w3)); [discriminate|]. assert (l2 = mkRw (S (rw_readers (d_secl w3))) false (rw_poisoned (d_secl w3))) as -> by congruence. apply (i_p2 _ _ I2). }
    rewrite PL2. exists false, true. split.
    { unfold rw_read in R2. destruct (rw_writer (d_secl w3)) eqn:W; [discriminate|].
      assert (l2 = mkRw (S (rw_readers (d_secl w3))) false (rw_poisoned (d_secl w3))) as -> by congruence.
      destruct w3 as [h cu se [m1 m2 m3] [n1 n2 n3] fs]. cbn in W. subst n2. unfold set_secl, with_readers, set_readers.
      cbn [d_heap d_cur d_sec d_curl d_secl d_fs rw_readers rw_writer rw_poisoned b2n].
      replace (m1 - 0 + 0)%nat with m1 by lia. replace (n1 - 0 + 1)%nat with (S n1) by lia. reflexivity. }
    apply qwp_assoc.
    pose proof (holds_sec j2) as HS. set (items := combine (sec_at j2) (lparts j2)).
    assert (LS: length (sec_at j2) = length (lparts j2)) by (clear - HS; induction HS; cbn; congruence).
    assert (MF: map fst items = sec_at j2) by now apply combine_fst.
    assert (MS: map snd items = lparts j2) by now apply combine_snd.
    assert (MR: map (fun it : nat * part => okl (ans bs q s e (snd it))) (rev items) = map (fun x => okl (ans bs q s e x)) (rev (lparts j2))).
    { rewrite <- (map_map snd (fun x => okl (ans bs q s e x))). now rewrite map_rev, MS. }
    apply (qwp_secs hs bs o q s e false true _ Q j2 Hq (rev items)).
    - apply Forall_rev. rewrite Forall_forall. intros [k x] Hx. cbn [fst snd].
      assert (Hk: In k (sec_at j2)) by (rewrite <- MF; apply in_map_iff; exists (k, x); auto).
      assert (Hx': In x (lparts j2)) by (rewrite <- MS; apply in_map_iff; exists (k, x); auto).
      split; [unfold sec_at in *; cbn [Nat.eqb]; destruct (j2 =? 0)%nat; [apply in_app_iff; now left|exact Hk]|]. split.
      + clear - HS Hx. unfold items in Hx. induction HS as [|i y a b H1 H2 IH]; [contradiction|]. cbn [combine] in Hx.
        destruct Hx as [E|Hx]; [|now apply IH]. assert (i = k) as <- by congruence. assert (y = x) as <- by congruence. exact H1.
      + rewrite Forall_forall in NP. apply NP. unfold lparts in Hx'. destruct (j2 =? 0)%nat; [apply in_app_iff; now left|].
        apply in_app_iff in Hx' as [Hx'|[<-|[]]]; apply in_app_iff; [now left|right; now left].
    - apply Forall2_rev. rewrite <- MF in FL. apply Forall2_map_l in FL. exact FL.
    - rewrite MR. cbn [bind qwp]. intros w4 j3 L3 I3 _ Hb. cbn [dhandler]. exists false, false. split.
      { destruct w4 as [h cu se [m1 m2 m3] [n1 n2 n3] fs]. unfold set_secl, with_readers, set_readers, rw_unread.
        cbn [d_heap d_cur d_sec d_curl d_secl d_fs rw_readers rw_writer rw_poisoned b2n].
        replace (m1 - 0 + 0)%nat with m1 by lia. replace (n1 - 1 + 0)%nat with (pred n1) by lia. reflexivity. }
      apply (qwp_mono _ j2); [|assumption]. apply K. lia.
  Qed.
End SWAP.
