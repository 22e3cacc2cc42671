(* What queries answer while clients write and the swap thread works. *)
From Coq Require Import ZifyBool ZifyNat Permutation Sorted.
From Verif Require Import Rust StringProofs Prog Gorilla GorillaSpec Storage StorageSpec StorageProofs Labels IndexSpec Indexer
  LabelProofs IndexProofs Chunk ChunkSpec ChunkProofs ChunkFacts ConcSpec Conc Utils DirSpec DirProofs TiKvInit Db DbSpec MapProofs
  DbProofs DbHist DbFacts FaultsSpec FaultsProofs FaultsMain SwapSpec SwapProofs SwapConc SwapMain WritersSpec WritersProofs WritersConc WritersMain
  ReadsSpec ReadsMay ReadsCrash ReadsConc SharedSpec SharedLog SharedConc SharedMay.
Local Notation plain := SwapProofs.plain.
Local Notation inv cf := (WritersConc.inv cf Rok (good cf) fok).
Local Notation vok cf := (WritersConc.vok (good cf) fok).

(** ** the chunks of the heap stay *)
Definition chunks (w : dworld) : list chunk := map dc_chunk (d_heap w).
Definition kept (w w' : dworld) : Prop := forall i ch, nth_error (chunks w) i = Some ch -> nth_error (chunks w') i = Some ch.
Lemma kept_refl w : kept w w.
Proof. intros i ch H. exact H. Qed.
Lemma kept_trans a b c : kept a b -> kept b c -> kept a c.
Proof. intros H1 H2 i ch H. auto. Qed.
Lemma chunks_nth w i d : nth_error (d_heap w) i = Some d -> nth_error (chunks w) i = Some (dc_chunk d).
Proof. intros H. unfold chunks. now apply map_nth_error. Qed.
Lemma dhandler_kept X (c : dcmd X) w x w' : dhandler X c w = Some (x, w') -> kept w w'.
Proof.
  revert x. destruct c as [X i c|X c|d| | | |i|u| | | |i|u]; intros x E; cbn [dhandler] in E;
    try (injection E as _ <-; intros j ch H; exact H).
  - destruct (nth_error (d_heap w) i) as [d|] eqn:N; [|discriminate]. destruct (chandler (dc_chunk d) X c (dc_world d)) as [[y cw]|]; [|discriminate].
    injection E as _ <-. intros j ch H. unfold chunks in *. cbn [set_heap d_heap]. rewrite nth_error_map in *. rewrite nth_upd by (apply nth_error_Some; congruence).
    destruct (Nat.eqb_spec j i) as [->|_]; [|exact H]. rewrite N in H. exact H.
  - destruct (fhandler X c (d_fs w)) as [[y g]|]; [|discriminate]. injection E as _ <-. intros j ch H. exact H.
  - injection E as _ <-. intros j ch H. unfold chunks in *. cbn [set_heap d_heap]. rewrite map_app, nth_error_app1; [exact H|]. apply nth_error_Some. congruence.
  - destruct (rw_read (d_curl w)); [|discriminate]. destruct (nth_error (d_heap w) (d_cur w)); [|discriminate]. injection E as _ <-. intros j ch H. exact H.
  - destruct (rw_write (d_curl w)); [|discriminate]. destruct (nth_error (d_heap w) (d_cur w)); [|discriminate]. injection E as _ <-. intros j ch H. exact H.
  - destruct (rw_read (d_secl w)); [|discriminate]. destruct (lookups (d_heap w) (d_sec w)); [|discriminate]. injection E as _ <-. intros j ch H. exact H.
  - destruct (rw_write (d_secl w)); [|discriminate]. injection E as _ <-. intros j ch H. exact H.
Qed.

Section RUN.
  Variables (cf : config) (old : list part) (w00 w : dworld) (t0 : Z) (ops : list dop) (rs0 : list (res unit)) (starts : list Z) (cs : list (list wcall)) (qs : list (list ask)).
  Hypothesis (Hstart : fstate cf w00 (old ++ [(the_chunk cf t0, [])]) t0) (Hvok : vok cf w00)
    (Hops : ops_ok cf t0 ops) (Hafter : db_after_from cf ops w00 = Some (rs0, w)) (Hwork : work_ok cf t0 ops starts cs).
  Local Notation P log := (old ++ chunks_after cf t0 ops rs0 log).
  Local Notation Inv := (inv cf w (rot_goal starts) (roles_of cs qs)).
  Local Notation inv_state := (SharedConc.inv_state cf w t0 ops starts cs qs Hops Hwork).
  Local Notation state_of := (SharedConc.state_of cf old w00 w t0 ops rs0 Hstart Hafter).
  Local Notation observe := (SharedConc.observe cf old w00 w t0 ops rs0 starts cs qs Hstart Hops Hafter Hwork).
  Local Notation rs0_len := (SharedConc.rs0_length cf w00 w ops rs0 Hafter).

  (** ** the chunks are in the heap *)
  Lemma infl_chunk v fl i : nth_error (map dc_chunk (infl v fl)) i = nth_error (map dc_chunk (d_heap v)) i.
  Proof.
    unfold infl. destruct fl as [cw|]; [|reflexivity]. destruct (nth_error (d_heap v) (d_cur v)) as [d|] eqn:N; [|reflexivity].
    rewrite !nth_error_map. rewrite nth_upd by (apply nth_error_Some; congruence). destruct (Nat.eqb_spec i (d_cur v)) as [->|_]; [|reflexivity]. now rewrite N.
  Qed.
  Lemma alike_chunk a b : Forall2 alike a b -> map dc_chunk a = map dc_chunk b.
  Proof. induction 1 as [|x y a b (E & _) H IH]; [reflexivity|]. cbn [map]. now rewrite E, IH. Qed.
  Lemma shape_kept v fl ph m n wn : shape v fl ph m n wn -> kept v wn.
  Proof.
    intros S0 i ch H.
    assert (OPEN: wn = openw v fl ph m n -> nth_error (chunks wn) i = Some ch).
    { intros ->. unfold chunks, openw. cbn [d_heap]. rewrite map_app, nth_error_app1.
      - rewrite infl_chunk. exact H.
      - unfold chunks in H. rewrite <- (infl_chunk v fl) in H. apply nth_error_Some. congruence. }
    destruct ph as [|s q' g|s nd g k|q' r']; try (apply OPEN; exact S0).
    destruct S0 as (w1 & -> & _ & _ & _ & _ & _ & _ & FA & _). unfold chunks in *. cbn [set_secl d_heap]. now rewrite (alike_chunk _ _ FA).
  Qed.
  Lemma heap_chunks low log ts wn : Inv low log ts wn -> forall i c, nth_error (P log) i = Some c -> exists ch, nth_error (chunks wn) i = Some ch /\ like ch (fst c).
  Proof.
    intros Iv i c N. destruct (inv_state _ _ _ _ Iv) as (Ho & _). destruct Iv as [p0 ps kinds v fl ph -> HL V HR [L1 L2] HT HI HF HS HW HLw].
    destruct (state_of log v Ho HL) as (hi & Fs & _). pose proof (fstate_quiet _ _ _ _ Fs) as [Qh _ _ _ _].
    destruct (hrel_nth _ _ Qh _ _ N) as (d & Nd & Lk & _). exists (dc_chunk d). split; [|exact Lk]. apply (shape_kept _ _ _ _ _ _ HS). now apply chunks_nth.
  Qed.

  (** ** the two locked lists *)
  Lemma cur_read low log ts wn x w' : Inv low log ts wn -> dhandler _ DCurRead wn = Some (x, w') ->
    exists i ch, x = (false, (i, ch)) /\ S i = length (P log) /\ nth_error (chunks wn) i = Some ch.
  Proof.
    intros Iv E. destruct (inv_state _ _ _ _ Iv) as (Ho & _). destruct Iv as [p0 ps kinds v fl ph -> HL V HR [L1 L2] HT HI HF HS HW HLw].
    destruct (state_of log v Ho HL) as (hi & Fs & _). pose proof (fstate_quiet _ _ _ _ Fs) as [_ Qc _ _ _].
    assert (OPEN: wn = openw v fl ph (sum cg kinds) (sum sg kinds) -> exists i ch, x = (false, (i, ch)) /\ S i = length (P log) /\ nth_error (chunks wn) i = Some ch).
    { intros Ew. rewrite Ew in E. cbn [dhandler openw d_curl rw_read rw_writer rw_readers rw_poisoned d_cur] in E. destruct (nth_error (d_heap _) (d_cur v)) as [d|] eqn:N in E; [|discriminate].
      injection E as <- _. exists (d_cur v), (dc_chunk d). split; [reflexivity|]. split; [exact Qc|]. rewrite Ew. now apply chunks_nth. }
    destruct ph as [|s q' g|s nd g k|q' r']; try (apply OPEN; exact HS).
    destruct HS as (w1 & -> & _ & C1 & _). cbn [dhandler set_secl d_curl] in E. rewrite C1 in E. discriminate.
  Qed.
  Lemma lookups_spec h is : forall cs, lookups h is = Some cs -> Forall2 (fun i x => fst x = i /\ nth_error (map dc_chunk h) i = Some (snd x)) is cs.
  Proof.
    induction is as [|i is IH]; intros cs0 E; cbn [lookups] in E; [injection E as <-; constructor|].
    destruct (nth_error h i) as [d|] eqn:N; [|discriminate]. destruct (lookups h is) as [r|]; [|discriminate]. injection E as <-. constructor; [|auto]. cbn [fst snd]. split; [reflexivity|]. now apply map_nth_error.
  Qed.
  Lemma sec_read low log ts wn x w' : Inv low log ts wn -> dhandler _ DSecRead wn = Some (x, w') ->
    exists n l, x = (false, l) /\ (pred (length (P log)) <= n <= length (P log))%nat /\ Forall2 (fun i x => fst x = i /\ nth_error (chunks wn) i = Some (snd x)) (seq 0 n) l.
  Proof.
    intros Iv E. destruct (inv_state _ _ _ _ Iv) as (Ho & _). destruct Iv as [p0 ps kinds v fl ph -> HL V HR [L1 L2] HT HI HF HS HW HLw].
    destruct (state_of log v Ho HL) as (hi & Fs & _). pose proof (fstate_quiet _ _ _ _ Fs) as [_ Qc Qs _ _].
    assert (SQ: forall ph, exists n, d_sec v ++ pushed ph (d_cur v) = seq 0 n /\ (d_cur v <= n <= S (d_cur v))%nat).
    { intros ph'. rewrite Qs. unfold pushed. destruct ph' as [| |a b c n|]; try (exists (d_cur v); rewrite app_nil_r; split; [reflexivity|lia]).
      destruct (3 <=? n)%nat; [|exists (d_cur v); rewrite app_nil_r; split; [reflexivity|lia]]. exists (S (d_cur v)). rewrite seq_S. split; [reflexivity|lia]. }
    assert (OPEN: wn = openw v fl ph (sum cg kinds) (sum sg kinds) -> exists n l, x = (false, l) /\ (pred (length (P log)) <= n <= length (P log))%nat /\
      Forall2 (fun i x => fst x = i /\ nth_error (chunks wn) i = Some (snd x)) (seq 0 n) l).
    { intros Ew. destruct (SQ ph) as (n & En & Ln). rewrite Ew in E. cbn [dhandler openw d_secl d_sec rw_read rw_writer rw_readers rw_poisoned] in E. destruct (secw ph); [discriminate|].
      rewrite En in E. destruct (lookups (d_heap _) (seq 0 n)) as [l|] eqn:N in E; [|discriminate].
      injection E as <- _. exists n, l. split; [reflexivity|]. split; [lia|]. rewrite Ew. unfold chunks. now apply lookups_spec. }
    destruct ph as [|s q' g|s nd g k|q' r']; try (apply OPEN; exact HS).
    destruct HS as (w1 & -> & _ & _ & _ & _ & _ & _ & _ & S1 & _). cbn [dhandler set_secl d_secl d_sec d_heap rw_read rw_writer rw_readers rw_poisoned] in E. rewrite S1, Qs in E.
    destruct (lookups (d_heap w1) (seq 0 (d_cur v))) as [l|] eqn:N in E; [|discriminate]. injection E as <- _. exists (d_cur v), l. split; [reflexivity|]. split; [lia|].
    unfold chunks. cbn [set_secl d_heap]. now apply lookups_spec.
  Qed.

  (** ** the event in the making *)
  Lemma last_ge ops' : forall t, starts_ok cf t ops' -> t <= last_start t ops'.
  Proof.
    induction ops' as [|[ls p|ls pts|st] l IH]; intros t; cbn [starts_ok last_start]; [lia|auto|auto|]. intros (H1 & H2 & H3). specialize (IH _ H3). lia.
  Qed.
  Lemma acked_low low log ts wn : Inv low log ts wn -> exists acked pend, done_of log acked pend /\ P acked = P low /\
    forall e, pend = Some e -> exists p, nth_error ts (e_who e) = Some p /\ ~ finished p.
  Proof.
    intros Iv. destruct (inv_state _ _ _ _ Iv) as (Ho & Hol & _). destruct Iv as [p0 ps kinds v fl ph -> HL V HR [L1 L2] HT HI HF HS HW HLw].
    unfold lowok in HLw. destruct fl as [cw|]; [|exists log, None; split; [reflexivity|]; split; [now rewrite HLw|discriminate]].
    destruct HLw as (i & e & post & Nk & We & El & Hin & Hot). exists (low ++ post), (Some e). split; [exists low, post; rewrite We; auto with arith|]. clear Hot.
    assert (Li: (i < length (roles_of cs qs))%nat) by (rewrite <- L2; apply nth_error_Some; congruence).
    destruct (nth_error (roles_of cs qs) i) as [ro|] eqn:Nr; [|apply nth_error_None in Nr; lia]. destruct (nth_error ps i) as [pi|] eqn:Np; [|apply nth_error_None in Np; lia].
    pose proof (HT i ro pi IL Nr Np Nk) as T. split.
    2:{ intros e' Ee. injection Ee as <-. exists pi. rewrite We. split; [exact Np|]. intros (a & ->). apply thr_ret in T as (_ & _ & Z & _). discriminate. }
    destruct ro as [spec|]; cbn [thr] in T; [|contradiction].
    destruct T as (D & q & k & r' & cw2 & d & _ & _ & Nd & _ & _ & _ & _ & (v0 & d0 & ls & p & m & Hv0 & V0 & Ecur & Nd0 & Ech & _)).
    destruct (state_of low v0 Hol Hv0) as (hi0 & Fs0 & Rp). pose proof (fstate_quiet _ _ _ _ Fs0) as [Qh0 Qc0 _ _ _].
    destruct (chunks_last cf old t0 ops rs0 low) as (l & A & EP). set (pl := performed (ops ++ map e_op low) (rs0 ++ map e_res low)) in *.
    assert (Nc: nth_error (P low) (d_cur v0) = Some (the_chunk cf (last_start t0 pl), A)).
    { rewrite EP, app_length in Qc0. cbn [length] in Qc0. rewrite EP. rewrite nth_error_app2 by lia. replace (d_cur v0 - length l)%nat with 0%nat by lia. reflexivity. }
    destruct (hrel_nth _ _ Qh0 _ _ Nc) as (d0' & Nd0' & Lk & _). cbn [fst] in Lk. rewrite Ecur in Nd0'. assert (d0' = d0) as -> by congruence. rewrite Ech in Lk.
    assert (L0: 0 <= last_start t0 pl).
    { pose proof (performed_ok cf t0 _ _ Rp Hol) as (_ & K & _ & _ & K2 & _). apply last_ge in K2. fold pl in K2. lia. }
    f_equal. unfold chunks_after, parts. rewrite !map_app, !app_assoc, (performed_app (ops ++ map e_op low)) by (rewrite !app_length, !map_length, rs0_len; reflexivity).
    fold pl. apply parts_idle. clear - Hin Lk L0 Nd Ho El.
    assert (TS: forall e, In e post -> forall ls q, e_op e = OpBatch ls [q] -> 0 <= tp_ts q).
    { intros e' He' ls q Eo. destruct Ho as (_ & _ & _ & _ & _ & Hw & _). rewrite written_cat in Hw. apply Forall_app in Hw as [_ Hw]. subst log.
      apply in_split in He' as (a & b & ->). rewrite map_app, written_cat in Hw. apply Forall_app in Hw as [_ Hw]. cbn [map] in Hw. rewrite map_app in Hw. cbn [map] in Hw. rewrite Eo in Hw.
      change (e_op e :: map e_op a ++ OpBatch ls [q] :: map e_op b) with ((e_op e :: map e_op a) ++ [OpBatch ls [q]] ++ map e_op b) in Hw.
      rewrite !written_cat in Hw. apply Forall_app in Hw as [_ Hw]. apply Forall_app in Hw as [Hw _]. cbn in Hw. inversion Hw as [|z zs Hz _]; subst. apply Hz. }
    clear Ho El. induction Hin as [|e' post He' Hin IH]; [constructor|]. cbn [map performed].
    assert (IH' := IH (fun x Hx => TS x (or_intror Hx))). pose proof (TS e' (or_introl eq_refl)) as TS'. unfold inert in He'. destruct (e_op e') as [ls p|ls pts|s]; [contradiction| |].
    - constructor; [|exact IH']. destruct He' as (ch & q & Ec & -> & Hb). cbn [idle]. unfold chunk_at in Ec. rewrite Nd in Ec. cbn [option_map] in Ec. injection Ec as <-.
      specialize (TS' ls q eq_refl). rewrite <- (like_window _ _ Lk). destruct Lk as (_ & Lk & _). cbn in Lk. unfold batch_passes in Hb. unfold in_windowb. lia.
    - destruct (e_res e') as [u| |]; [exfalso; exact (He' u eq_refl)|exact IH'|exact IH'].
  Qed.

  (** ** along a schedule *)
  Section TRACE.
    Variables (sched : list nat) (E : list (list (dop * res unit))) (T : list (list event)).
    Local Notation lown n := (concat (firstn n T)).
    Local Notation logn n := (logged (firstn n sched) E).
    Local Notation tsn n := (fst (interleave dhandler (firstn n sched) (WritersSpec.threads cf starts cs qs) w)).
    Local Notation wn n := (snd (interleave dhandler (firstn n sched) (WritersSpec.threads cf starts cs qs) w)).
    Hypothesis HI : forall n, Inv (lown n) (logn n) (tsn n) (wn n).

    Lemma firstn_more {A} (l : list A) n : exists r, firstn (S n) l = firstn n l ++ r.
    Proof. revert l. induction n as [|n IH]; intros [|x l]; try (exists []; reflexivity); [exists [x]; reflexivity|]. destruct (IH l) as (r & Hr). exists r. cbn [firstn app] in *. now rewrite <- Hr. Qed.
    Lemma low_next n : exists r, lown (S n) = lown n ++ r.
    Proof. destruct (firstn_more T n) as (r & ->). rewrite concat_app. eauto. Qed.
    Lemma logged_pre s1 s2 : forall E', exists r, logged (s1 ++ s2) E' = logged s1 E' ++ r.
    Proof.
      induction s1 as [|i s1 IH]; intros [|x E']; try (eexists; reflexivity). destruct (IH E') as (r & Hr). exists r. unfold logged in *. cbn [app combine map concat fst snd]. rewrite Hr. apply app_assoc.
    Qed.
    Lemma log_next n : exists r, logn (S n) = logn n ++ r.
    Proof. destruct (firstn_more sched n) as (r & ->). apply logged_pre. Qed.
    Lemma below_low n d : below (P (lown n)) (P (lown (n + d))).
    Proof.
      induction d as [|d IH]; [rewrite Nat.add_0_r; apply below_refl|]. eapply below_trans; [exact IH|]. rewrite Nat.add_succ_r. destruct (low_next (n + d)) as (r & ->). apply below_prefix, chunks_below, rs0_len.
    Qed.
    Lemma below_log n d : below (P (logn n)) (P (logn (n + d))).
    Proof.
      induction d as [|d IH]; [rewrite Nat.add_0_r; apply below_refl|]. eapply below_trans; [exact IH|]. rewrite Nat.add_succ_r. destruct (log_next (n + d)) as (r & ->). apply below_prefix, chunks_below, rs0_len.
    Qed.
    Lemma below_both n : below (P (lown n)) (P (logn n)).
    Proof. destruct (inv_state _ _ _ _ (HI n)) as (_ & _ & (r & ->)). apply below_prefix, chunks_below, rs0_len. Qed.
    Lemma firstn_next {A} (l : list A) n : (firstn (S n) l = firstn n l /\ nth_error l n = None) \/ exists x, nth_error l n = Some x /\ firstn (S n) l = firstn n l ++ [x].
    Proof.
      revert l. induction n as [|n IH]; intros [|x l]; [left; auto|right; exists x; auto|left; auto|].
      change (firstn (S (S n)) (x :: l)) with (x :: firstn (S n) l). change (firstn (S n) (x :: l)) with (x :: firstn n l). cbn [nth_error]. destruct (IH l) as [[-> H2]|(y & H1 & ->)]; [left; auto|right; exists y; auto].
    Qed.
    Lemma one_step n j p : nth_error (tsn n) j = Some p -> (nth_error (tsn (S n)) j = Some p /\ kept (wn n) (wn (S n))) \/
      (nth_error sched n = Some j /\ exists p', step dhandler p (wn n) = Some (p', wn (S n)) /\ nth_error (tsn (S n)) j = Some p').
    Proof.
      intros N. destruct (firstn_next sched n) as [[-> _]|(i & Hi & ->)]; [left; split; [exact N|apply kept_refl]|]. rewrite interleave_app.
      destruct (interleave dhandler (firstn n sched) (WritersSpec.threads cf starts cs qs) w) as [ts w1]. cbn [fst snd interleave] in *.
      destruct (nth_error ts i) as [pi|] eqn:Ni; [|left; split; [exact N|apply kept_refl]]. destruct (step dhandler pi w1) as [[p2 w2]|] eqn:St; [|left; split; [exact N|apply kept_refl]]. cbn [fst snd].
      assert (Li: (i < length ts)%nat) by (apply nth_error_Some; congruence).
      destruct (Nat.eq_dec j i) as [->|Nj].
      - right. split; [exact Hi|]. assert (pi = p) as -> by congruence. exists p2. split; [exact St|]. rewrite nth_upd by assumption. now rewrite Nat.eqb_refl.
      - left. split; [rewrite nth_upd by assumption; destruct (Nat.eqb_spec j i); [congruence|exact N]|].
        destruct pi as [a|X c k]; cbn [step] in St; [discriminate|]. destruct (dhandler X c w1) as [[x w3]|] eqn:Ex; [|discriminate]. injection St as _ <-. eapply dhandler_kept. exact Ex.
    Qed.
    Lemma all_kept n d j p : nth_error (tsn n) j = Some p -> kept (wn n) (wn (n + d)).
    Proof.
      revert n p. induction d as [|d IH]; intros n p N; [rewrite Nat.add_0_r; apply kept_refl|].
      rewrite Nat.add_succ_r, <- Nat.add_succ_l. destruct (one_step n j p N) as [[N' K]|(_ & p' & St & N')].
      - eapply kept_trans; [exact K|]. now apply (IH _ p).
      - eapply kept_trans; [|now apply (IH _ p')]. destruct p as [a|X c k]; cbn [step] in St; [discriminate|]. destruct (dhandler X c (wn n)) as [[x w3]|] eqn:Ex; [|discriminate]. assert (E3: w3 = wn (S n)) by congruence. rewrite <- E3. eapply dhandler_kept. exact Ex.
    Qed.

    Lemma trace n1 n2 j ans : (nth_error (tsn n2) j = Some (Ret ans)) -> forall d n p a b N lo, (n + d = n2)%nat -> (n1 <= n)%nat -> nth_error (tsn n) j = Some p -> rd p a b N ->
      (N <= length (P (logn n)))%nat -> (S lo <= length (P (logn n)))%nat -> dmay (chunks (wn n2)) (P (lown n1)) (P (logn n2)) p lo ans.
    Proof.
      intros Hend. induction d as [|d IH]; intros n p a b N lo En L1 Np Hr LN Llo.
      - rewrite Nat.add_0_r in En. subst n. assert (p = Ret ans) as -> by congruence. reflexivity.
      - assert (LL: (length (P (logn n)) <= length (P (logn (S n))))%nat) by (rewrite <- (Nat.add_1_r n); apply below_length, below_log).
        assert (B1: below (P (logn n)) (P (logn n2))) by (rewrite <- En; apply below_log).
        pose proof (below_length _ _ B1) as LB.
        assert (B0: below (P (lown n1)) (P (lown n))) by (replace n with (n1 + (n - n1))%nat by lia; apply below_low).
        assert (KP: kept (wn n) (wn n2)) by (rewrite <- En; eapply all_kept; exact Np).
        destruct (one_step n j p Np) as [[N' _]|(_ & p' & St & N')].
        + apply (IH (S n) p a b N lo); try assumption; lia.
        + destruct p as [x|X c k]; cbn [step] in St; [discriminate|]. destruct (dhandler X c (wn n)) as [[x w3]|] eqn:Ex; [|discriminate]. assert (p' = k x) as -> by congruence. clear St.
          revert x Ex N'. destruct c as [X i c|X c|dd| | | |i|u| | | |i|u]; cbn [rd] in Hr; try contradiction; intros x Ex N'; cbn [dmay].
          * destruct Hr as (Hc & Li & Hk). cbn [dhandler] in Ex. destruct (nth_error (d_heap (wn n)) i) as [di|] eqn:Ni; [|discriminate].
            destruct (chandler (dc_chunk di) X c (dc_world di)) as [[y cw]|] eqn:Ec; [|discriminate]. assert (y = x) as -> by congruence.
            destruct (observe _ _ _ _ i di X c x cw _ _ (HI n) Hc ltac:(lia) Ni Ec B0 B1) as (c1 & Nc1 & _ & G).
            exists (dc_chunk di), c1, x. split; [apply KP; now apply chunks_nth|]. split; [exact Nc1|]. split; [exact G|].
            apply (IH (S n) (k x) a b N lo); try assumption; try lia. apply Hk.
          * destruct Hr as (-> & Hk). destruct (cur_read _ _ _ _ _ _ (HI n) Ex) as (i & ch & -> & Ei & Ni). exists i, ch. split; [lia|]. split; [now apply KP|].
            apply (IH (S n) _ true b (length (P (logn n))) i); try assumption; try lia. apply Hk; lia.
          * destruct Hr as (-> & Hk). destruct x. apply (IH (S n) _ false b N lo); try assumption; lia.
          * destruct Hr as (-> & Hk). destruct (sec_read _ _ _ _ _ _ (HI n) Ex) as (m & l & -> & Lm & Fl). exists m, l. split; [lia|]. split.
            { revert Fl. apply Forall2_impl_in. intros i y _ _ [F1 F2]. split; [exact F1|]. now apply KP. }
            apply (IH (S n) _ a true (length (P (logn n))) lo); try assumption; try lia. apply Hk; [lia|].
            assert (Fi: Forall (fun i => i < length (P (logn n)))%nat (seq 0 m)) by (apply Forall_forall; intros i Hi; apply in_seq in Hi; lia).
            clear - Fl Fi. revert Fi. induction Fl as [|i y is l [F1 F2] Fl IH]; intros Fi; [constructor|]. inversion Fi; subst. constructor; [assumption|auto].
          * destruct Hr as (-> & Hk). destruct x. apply (IH (S n) _ a false N lo); try assumption; lia.
    Qed.

    Lemma chunks_ok n : Forall part_ok old -> (timely (written (ops ++ map e_op (logn n))) \/ cf_st cf = TiKvDry) -> Forall part_ok (P (logn n)).
    Proof.
      intros Hold Ht'. apply Forall_app. split; [exact Hold|]. destruct (inv_state _ _ _ _ (HI n)) as (Ho & _).
      assert (X: exists v, one_by_one cf (logn n) w v) by (destruct (HI n) as [p0 ps kinds v fl ph A B]; exists v; exact B).
      destruct X as (v & Hv). destruct (state_of _ v Ho Hv) as (hi & _ & Rp). pose proof (performed_ok cf t0 _ _ Rp Ho) as Hp.
      assert (Ln: length (rs0 ++ map e_res (logn n)) = length (ops ++ map e_op (logn n))) by (rewrite !app_length, !map_length, rs0_len; reflexivity).
      unfold chunks_after. destruct Ht' as [Ht'|Ht']; [apply parts_ok; [exact Hp|]; rewrite (performed_written cf _ t0); assumption|now apply parts_ok_tikv].
    Qed.

    Theorem query_between k a n1 n2 rs : nth_error qs k = Some [a] -> asks a -> let j := S (length cs + k) in
      ~ In j (firstn n1 sched) -> nth_error (tsn n2) j = Some (Ret (Answered rs)) -> unmixed_sets (k_hs a) (P (logn n2)) (k_labels a) -> Forall part_ok old ->
      (timely (written (ops ++ map e_op (logn n2))) \/ cf_st cf = TiKvDry) ->
      exists acked pend r, rs = [r] /\ done_of (logn n1) acked pend /\ (forall e, pend = Some e -> exists p, nth_error (tsn n1) (e_who e) = Some p /\ ~ finished p) /\
        below (P acked) (P (logn n2)) /\ query_outcome (P acked) (P (logn n2)) (k_labels a) (k_from a) (k_to a) r.
    Proof.
      intros Nk (A1 & A2 & A3) j Hj Nj Hnp Hold Htm.
      assert (N0: nth_error (WritersSpec.threads cf starts cs qs) j = Some (querier [a])).
      { unfold WritersSpec.threads, j. cbn [nth_error]. rewrite nth_error_app2 by (rewrite map_length; lia). rewrite map_length. replace (length cs + k - length cs)%nat with k by lia. now apply map_nth_error. }
      assert (N1: forall n, ~ In j (firstn n sched) -> nth_error (tsn n) j = Some (querier [a])).
      { intros n Hn. assert (G: forall n', (n' <= n)%nat -> nth_error (tsn n') j = Some (querier [a])).
        { induction n' as [|n' IH]; intros Ln; [exact N0|]. destruct (one_step n' j _ (IH ltac:(lia))) as [[H _]|(Hs & _)]; [exact H|]. exfalso. apply Hn.
          apply (nth_error_In _ n'). rewrite <- Hs. clear - Ln. revert n sched Ln. induction n' as [|n' IH]; intros [|n] [|x s]; intros L; try lia; try reflexivity. cbn [firstn nth_error]. apply IH. lia. }
        apply G. lia. }
      assert (L12: (n1 <= n2)%nat).
      { destruct (le_lt_dec n1 n2) as [L|L]; [exact L|exfalso]. assert (Hj2: ~ In j (firstn n2 sched)).
        { intros Hi. apply Hj. replace n2 with (Nat.min n2 n1) in Hi by lia. rewrite <- firstn_firstn in Hi. rewrite <- (firstn_skipn n2 (firstn n1 sched)). apply in_app_iff. left.
          rewrite firstn_firstn in *. now rewrite Nat.min_comm, Nat.min_comm. }
        rewrite (N1 _ Hj2) in Nj. discriminate. }
      destruct (acked_low _ _ _ _ (HI n1)) as (acked & pend & D1 & D2 & D3).
      pose proof (trace n1 n2 j _ Nj (n2 - n1) n1 (querier [a]) false false 0%nat (pred (length (P (lown n1)))) ltac:(lia) ltac:(lia) (N1 _ Hj) (querier_rd [a] 0) ltac:(lia)) as DM.
      assert (LP: (0 < length (P (lown n1)))%nat) by (destruct (chunks_last cf old t0 ops rs0 (lown n1)) as (l & A & ->); rewrite app_length; cbn; lia).
      pose proof (below_length _ _ (below_both n1)) as LB.
      specialize (DM ltac:(lia)). unfold querier in DM. cbn [map sequence] in DM. apply dmay_assoc in DM.
      assert (BB: below (P (lown n1)) (P (logn n2))).
      { eapply below_trans; [apply (below_both n1)|]. replace n2 with (n1 + (n2 - n1))%nat by lia. apply below_log. }
      assert (HC: forall i ch c, nth_error (chunks (wn n2)) i = Some ch -> nth_error (P (logn n2)) i = Some c -> like ch (fst c)).
      { intros i ch c Hi Hc. destruct (heap_chunks _ _ _ _ (HI n2) _ _ Hc) as (ch' & Hi' & Lk). congruence. }
      unfold ask_prog in DM.
      destruct (query_dmay _ _ _ BB (chunks_ok n2 Hold Htm) HC (k_hs a) (k_bs a) (k_timing a) (k_labels a) (k_from a) (k_to a) A1 A2 A3 Hnp _ _ DM) as (r & lo & Hb & DE).
      assert (rs = [r]) as -> by (destruct r; cbn [bind dmay] in DE; congruence). exists acked, pend, r. split; [reflexivity|]. split; [exact D1|]. split; [exact D3|]. rewrite D2. auto.
    Qed.
  End TRACE.
End RUN.
