(* The three threads of the program do what the two threads of ServingSpec.v do. *)
From Coq Require Import ZifyBool ZifyNat.
From Verif Require Import SwapSpec SwapMain LockSpec LockDead ServingMain OptsSpec OptsProofs.
From Verif Require Import Rust Prog Gorilla GorillaSpec Storage StorageSpec Labels Indexer Chunk ChunkSpec DirSpec TiKvInit Db DbSpec WritersSpec ReopenProofs Proto Server ServingSpec Opts Program ProgramSpec.

(* p, having received j readings, of N there are in the end, does as q *)
Fixpoint tracks {A B} (ends : A -> B -> Prop) (clock : nat -> Z) (N j : nat) (p : prog pcmd A) (q : prog dcmd B) {struct p} : Prop :=
  match p with
  | Ret a => match q with Ret b => ends a b | Do _ _ => False end
  | @Do _ _ X c k =>
      (match c in pcmd X return (X -> prog pcmd A) -> Prop with
       | PDb c' => fun k => exists k', q = Do c' k' /\ forall x, tracks ends clock N j (k x) (k' x)
       | PTick => fun _ => False
       | PRecv => fun k => ((N <= j)%nat /\ exists b, q = Ret b) \/ ((j < N)%nat /\ tracks ends clock N (S j) (k (clock j)) q)
       end) k
  end.

Lemma tracks_bind {A B A' B'} (e : A -> B -> Prop) (e' : A' -> B' -> Prop) clock N (h : B -> B') p : forall j q f, tracks e clock N j p q ->
  (forall j a b, e a b -> tracks e' clock N j (f a) (Ret (h b))) -> tracks e' clock N j (bind p f) (bind q (fun b => Ret (h b))).
Proof.
  induction p as [a|X c k IH]; intros j q f H Hf; cbn [bind tracks] in *.
  - destruct q as [b|]; [|contradiction]. now apply Hf.
  - destruct c as [X c| |].
    + destruct H as (k' & -> & H). exists (fun x => bind (k' x) (fun b => Ret (h b))). split; [reflexivity|]. intros x. apply IH; [apply H|exact Hf].
    + contradiction.
    + destruct H as [[L (b & ->)]|[L H]]; [left; split; [exact L|cbn [bind]; eauto]|right]. split; [exact L|]. now apply IH.
Qed.
(* a lifted program receives nothing *)
Lemma tracks_lift_bind {A A' B'} (e' : A' -> B' -> Prop) clock N j (p : prog dcmd A) f g :
  (forall a, tracks e' clock N j (f a) (g a)) -> tracks e' clock N j (bind (lift (@PDb) p) f) (bind p g).
Proof.
  intros Hf. induction p as [a|X c k IH]; cbn [lift bind]; [apply Hf|]. cbn [tracks]. exists (fun x => bind (k x) g). split; [reflexivity|exact IH].
Qed.
Lemma tracks_right {A B C} (e : A -> B -> Prop) clock N p (h : B -> C) : forall j q, tracks e clock N j p q ->
  tracks (fun a c => exists b, e a b /\ c = h b) clock N j p (bind q (fun b => Ret (h b))).
Proof.
  induction p as [a|X c k IH]; intros j q H; cbn [bind tracks] in *.
  - destruct q as [b|]; [|contradiction]. cbn [bind]. eauto.
  - destruct c as [X c| |].
    + destruct H as (k' & -> & H). exists (fun x => bind (k' x) (fun b => Ret (h b))). split; [reflexivity|]. intros x. apply IH, H.
    + contradiction.
    + destruct H as [[L (b & ->)]|[L H]]; [left; split; [exact L|cbn [bind]; eauto]|right]. split; [exact L|]. now apply IH.
Qed.
Lemma tracks_swapper cf clock N m : forall j, (forall i, (i < N)%nat -> u64 (clock i + 1)) ->
  tracks eq clock N j (swapper cf m) (sequence (map (db_swap cf) (map (fun i => clock i + 1) (seq j (Nat.min m (N - j)))))).
Proof.
  induction m as [|m IH]; intros j Hc; [reflexivity|]. cbn [swapper bind call tracks].
  destruct (Nat.ltb_spec j N) as [L|L]; [|left; split; [exact L|]; replace (Nat.min (S m) (N - j)) with 0%nat by lia; exists []; reflexivity].
  right. split; [exact L|]. rewrite (tick_swap cf (clock j)) by now apply Hc.
  replace (Nat.min (S m) (N - j)) with (S (Nat.min m (N - S j))) by lia. cbn [seq map sequence].
  apply tracks_lift_bind. intros r.
  assert (K: tracks eq clock N (S j) (let! rs := swapper cf m in Ret (r :: rs))
    (let! rs := sequence (map (db_swap cf) (map (fun i => clock i + 1) (seq (S j) (Nat.min m (N - S j))))) in Ret (r :: rs))).
  { eapply tracks_bind; [apply IH; exact Hc|]. intros i a b ->. reflexivity. }
  destruct r; [exact K|exact K|reflexivity].
Qed.

(* the answers are the same *)
Definition same_end (a : pworker) (b : worker) : Prop := a = Works b.

Lemma sent_grows clock sched : forall (ts ts' : list (prog pcmd pworker)) w v, interleave (phandler clock) sched ts w = (ts', v) -> (pw_sent w <= pw_sent v)%nat.
Proof.
  induction sched as [|i sched IH]; intros ts ts' w v; cbn [interleave]; [intros H; injection H as -> ->; lia|].
  destruct (nth_error ts i) as [p|]; [|apply IH]. destruct (step (phandler clock) p w) as [[p' w']|] eqn:E; [|apply IH].
  intros H. apply IH in H. assert (pw_sent w <= pw_sent w')%nat; [|lia]. destruct p as [a|X c k]; [discriminate|]. cbn [step] in E. destruct c as [X c| |].
  - cbn [phandler] in E. destruct (dhandler X c (pw_db w)) as [[x d]|]; [|discriminate]. injection E as _ <-. cbn. lia.
  - cbn [phandler] in E. injection E as _ <-. cbn. lia.
  - cbn [phandler] in E. destruct (pw_chan w); [discriminate|]. injection E as _ <-. cbn. lia.
Qed.

(* the channel holds the readings sent and not received *)
Definition in_channel (clock : nat -> Z) (j : nat) (w : pworld) : Prop :=
  (j <= pw_sent w)%nat /\ pw_chan w = map clock (seq j (pw_sent w - j)).

(* a thread not receiving: the main thread *)
Fixpoint receives_not {A} (p : prog pcmd A) : Prop :=
  match p with
  | Ret _ => True
  | Do c k => match c with PDb _ => True | _ => False end /\ forall x, receives_not (k x)
  end.
Lemma lift_receives_not {A B} (p : prog dcmd A) (f : A -> prog pcmd B) : (forall a, receives_not (f a)) -> receives_not (bind (lift (@PDb) p) f).
Proof. intros Hf. induction p as [a|X c k IH]; cbn [lift bind]; [apply Hf|]. cbn [receives_not]. split; [exact I|exact IH]. Qed.

Definition served_end (a : pworker) (b : worker) : Prop := a = Works b /\ exists x, b = Served x.
Lemma three_as_two clock N sched : forall n p1 p2 w j q1 q2 ts v,
  interleave (phandler clock) sched [ticker n; p1; p2] w = (ts, v) -> pw_sent v = N ->
  in_channel clock j w -> tracks same_end clock N j p1 q1 -> tracks served_end clock N 0 p2 q2 -> receives_not p2 ->
  exists n' p1' p2' q1' q2' j' sched', ts = [ticker n'; p1'; p2'] /\
    interleave dhandler sched' [q1; q2] (pw_db w) = ([q1'; q2'], pw_db v) /\
    in_channel clock j' v /\ tracks same_end clock N j' p1' q1' /\ tracks served_end clock N 0 p2' q2' /\ receives_not p2'.
Proof.
  induction sched as [|i sched IH]; intros n p1 p2 w j q1 q2 ts v H HN HC T1 T2 RN; cbn [interleave] in H.
  { injection H as <- <-. exists n, p1, p2, q1, q2, j, []. auto 10. }
  destruct i as [|[|[|i]]]; cbn [nth_error] in H.
  - (* the tick thread *)
    destruct n as [|n]; cbn [ticker bind call step] in H; [exact (IH 0%nat p1 p2 w j q1 q2 ts v H HN HC T1 T2 RN)|]. cbn [phandler upd firstn skipn app] in H.
    destruct HC as [C1 C2]. destruct (IH n p1 p2 _ j q1 q2 ts v H HN) as (n' & R); [|assumption..|exists n'; exact R].
    split; cbn [pw_sent pw_chan]; [lia|]. rewrite C2. replace (S (pw_sent w) - j)%nat with (S (pw_sent w - j)) by lia. rewrite seq_S, map_app.
    cbn [map]. do 3 f_equal. lia.
  - (* the swap thread *)
    destruct p1 as [a|X c k]; [cbn [step] in H; exact (IH n (Ret a) p2 w j q1 q2 ts v H HN HC T1 T2 RN)|].
    destruct c as [X c| |]; cbn [tracks] in T1.
    + destruct T1 as (k' & -> & T1). cbn [step phandler] in H. destruct (dhandler X c (pw_db w)) as [[x d]|] eqn:E; cbv iota in H.
      * cbn [upd firstn skipn app] in H. destruct (IH n (k x) p2 _ j (k' x) q2 ts v H HN) as (n' & p1' & p2' & q1' & q2' & j' & s' & E1 & E2 & R); [exact HC|apply T1|exact T2|exact RN|].
        exists n', p1', p2', q1', q2', j', (0%nat :: s'). split; [exact E1|]. split; [|exact R]. cbn [interleave nth_error step]. rewrite E. exact E2.
      * apply (IH n (Do (PDb c) k) p2 w j (Do c k') q2 ts v H HN HC); [cbn [tracks]; eauto|exact T2|exact RN].
    + contradiction.
    + cbn [step phandler] in H. destruct HC as [C1 C2]. destruct (pw_chan w) as [|t l] eqn:Ec; cbv iota in H.
      * apply (IH n (Do PRecv k) p2 w j q1 q2 ts v H HN); [split; [exact C1|congruence]|exact T1|exact T2|exact RN].
      * cbn [upd firstn skipn app] in H. destruct (pw_sent w - j)%nat as [|d] eqn:Ed; [discriminate|]. cbn [seq map] in C2.
        assert (t = clock j /\ l = map clock (seq (S j) d)) as [-> ->] by (split; congruence).
        pose proof (sent_grows _ _ _ _ _ _ H) as G'. cbn [pw_sent] in G'.
        destruct T1 as [[T1 _]|[L T1]]; [exfalso; lia|].
        apply (IH n (k (clock j)) p2 _ (S j) q1 q2 ts v H HN); [|exact T1|exact T2|exact RN].
        split; cbn [pw_sent pw_chan]; [lia|]. do 2 f_equal. lia.
  - (* the server *)
    destruct p2 as [a|X c k]; [cbn [step] in H; exact (IH n p1 (Ret a) w j q1 q2 ts v H HN HC T1 T2 RN)|].
    destruct c as [X c| |]; try (destruct RN; contradiction). cbn [tracks] in T2. destruct T2 as (k' & -> & T2). destruct RN as [_ RN]. cbn [step phandler] in H.
    destruct (dhandler X c (pw_db w)) as [[x d]|] eqn:E; cbv iota in H.
    + cbn [upd firstn skipn app] in H. destruct (IH n p1 (k x) _ j q1 (k' x) ts v H HN) as (n' & p1' & p2' & q1' & q2' & j' & s' & E1 & E2 & R); [exact HC|exact T1|apply T2|apply RN|].
      exists n', p1', p2', q1', q2', j', (1%nat :: s'). split; [exact E1|]. split; [|exact R]. cbn [interleave nth_error step]. rewrite E. exact E2.
    + apply (IH n p1 (Do (PDb c) k) w j q1 (Do c k') ts v H HN HC); [exact T1|cbn [tracks]; eauto|split; [exact I|exact RN]].
  - assert (N0: nth_error ([] : list (prog pcmd pworker)) i = None) by (destruct i; reflexivity). rewrite N0 in H. eapply IH; eassumption.
Qed.

(* and the other way round: what the two can do, the three can *)
Lemma receive_up clock N n p2 : forall p1 w j q1, in_channel clock j w -> pw_sent w = N -> tracks same_end clock N j p1 q1 ->
  (exists b, q1 = Ret b) \/
  exists s X (c : dcmd X) k k' w' j', q1 = Do c k' /\ interleave (phandler clock) s [ticker n; p1; p2] w = ([ticker n; Do (PDb c) k; p2], w') /\
    pw_db w' = pw_db w /\ in_channel clock j' w' /\ pw_sent w' = N /\ forall x, tracks same_end clock N j' (k x) (k' x).
Proof.
  induction p1 as [a|X c k IH]; intros w j q1 HC HN T; cbn [tracks] in T.
  - destruct q1 as [b|]; [|contradiction]. left. eauto.
  - destruct c as [X c| |].
    + destruct T as (k' & -> & T). right. exists [], X, c, k, k', w, j. auto 10.
    + contradiction.
    + destruct T as [[_ T]|[L T]]; [now left|]. destruct HC as [C1 C2]. destruct (pw_sent w - j)%nat as [|d] eqn:Ed; [exfalso; lia|]. cbn [seq map] in C2.
      destruct (IH (clock j) (mkPw (pw_db w) (pw_sent w) (map clock (seq (S j) d))) (S j) q1) as [R|(s & X & c & k1 & k' & w' & j' & E1 & E2 & E3 & E4)];
        [split; cbn [pw_sent pw_chan]; [lia|do 2 f_equal; lia]|exact HN|exact T|now left|].
      right. exists (1%nat :: s), X, c, k1, k', w', j'. split; [exact E1|]. split; [|split; [exact E3|exact E4]]. cbn [interleave nth_error step phandler]. rewrite C2. exact E2.
Qed.
Lemma two_as_three clock N n more : forall p1 p2 w j q1 q2 qs d, interleave dhandler more [q1; q2] (pw_db w) = (qs, d) -> pw_sent w = N ->
  in_channel clock j w -> tracks same_end clock N j p1 q1 -> tracks served_end clock N 0 p2 q2 -> receives_not p2 ->
  exists s p1' p2' q1' q2' w', qs = [q1'; q2'] /\ interleave (phandler clock) s [ticker n; p1; p2] w = ([ticker n; p1'; p2'], w') /\
    tracks served_end clock N 0 p2' q2' /\ receives_not p2'.
Proof.
  induction more as [|i more IH]; intros p1 p2 w j q1 q2 qs d H HN HC T1 T2 RN; cbn [interleave] in H.
  { injection H as <- <-. exists [], p1, p2, q1, q2, w. auto. }
  destruct i as [|[|i]]; cbn [nth_error] in H.
  - destruct (receive_up clock N n p2 p1 w j q1 HC HN T1) as [(b & ->)|(s & X & c & k & k' & w' & j' & -> & E & Ed & HC' & HN' & T)].
    + cbn [step] in H. exact (IH p1 p2 w j (Ret b) q2 qs d H HN HC T1 T2 RN).
    + cbn [step] in H. destruct (dhandler X c (pw_db w)) as [[x d']|] eqn:Ex.
      * cbn [upd firstn skipn app] in H. destruct (IH (k x) p2 (mkPw d' (pw_sent w') (pw_chan w')) j' (k' x) q2 qs d H) as (s2 & p1' & p2' & q1' & q2' & w2 & R1 & R2 & R3); [exact HN'|exact HC'|apply T|exact T2|exact RN|].
        exists (s ++ 1%nat :: s2), p1', p2', q1', q2', w2. split; [exact R1|]. split; [|exact R3]. rewrite interleave_app, E. cbn [interleave nth_error step phandler]. rewrite Ed, Ex. exact R2.
      * exact (IH p1 p2 w j (Do c k') q2 qs d H HN HC T1 T2 RN).
  - destruct p2 as [a|X c k].
    + cbn [tracks] in T2. destruct q2 as [b|]; [|contradiction]. cbn [step] in H. exact (IH p1 (Ret a) w j q1 (Ret b) qs d H HN HC T1 T2 RN).
    + destruct c as [X c| |]; try (destruct RN; contradiction). pose proof T2 as T2'. cbn [tracks] in T2. destruct T2 as (k' & -> & T2). pose proof RN as RN'. destruct RN as [_ RN]. cbn [step] in H.
      destruct (dhandler X c (pw_db w)) as [[x d']|] eqn:Ex; [|exact (IH p1 _ w j q1 _ qs d H HN HC T1 T2' RN')].
      cbn [upd firstn skipn app] in H. destruct (IH p1 (k x) (mkPw d' (pw_sent w) (pw_chan w)) j q1 (k' x) qs d H HN HC T1) as (s2 & p1' & p2' & q1' & q2' & w2 & R1 & R2 & R3); [apply T2|apply RN|].
      exists (2%nat :: s2), p1', p2', q1', q2', w2. split; [exact R1|]. split; [|exact R3]. cbn [interleave nth_error step phandler]. rewrite Ex. exact R2.
  - assert (N0: nth_error ([] : list (prog dcmd worker)) i = None) by (destruct i; reflexivity). rewrite N0 in H. exact (IH p1 p2 w j q1 q2 qs d H HN HC T1 T2 RN).
Qed.

Lemma running_tracks cf clock N m sv z bs ch rqs : (forall i, (i < N)%nat -> u64 (clock i + 1)) ->
  tracks same_end clock N 0 (let! rs := swapper cf m in Ret (Works (Swaps (Rotated rs)))) (bind (rotator cf (starts_after clock (Nat.min m N))) (fun a => Ret (Swaps a))) /\
  tracks served_end clock N 0 (let! x := lift (@PDb) (serve sv z bs ch 0 rqs) in Ret (Works (Served x))) (bind (serve sv z bs ch 0 rqs) (fun x => Ret (Served x))) /\
  receives_not (let! x := lift (@PDb) (serve sv z bs ch 0 rqs) in Ret (Works (Served x))).
Proof.
  intros Hc. split; [|split].
  - unfold rotator. eapply tracks_bind with (e := fun a b => exists a', a = a' /\ b = Rotated a').
    + apply (tracks_right eq). replace (Nat.min m N) with (Nat.min m (N - 0)) by lia. exact (tracks_swapper cf clock N m 0 Hc).
    + intros i a b (b' & <- & ->). reflexivity.
  - apply tracks_lift_bind. intros a. split; [reflexivity|eauto].
  - apply lift_receives_not. intros a. exact I.
Qed.
Theorem running_at_work cf clock n m sv z bs ch rqs sched d p0 p1 x v : (forall i, (i < pw_sent v)%nat -> u64 (clock i + 1)) ->
  interleave (phandler clock) sched (running cf n m sv z bs ch rqs) (mkPw d 0 []) = ([p0; p1; Ret (Works x)], v) ->
  exists sched' q1, interleave dhandler sched' (at_work cf (starts_after clock (Nat.min m (pw_sent v))) sv z bs ch rqs) d = ([q1; Ret x], pw_db v) /\
    forall a, p1 = Ret a -> exists y, a = Works y /\ q1 = Ret y.
Proof.
  intros Hc H. destruct (running_tracks cf clock (pw_sent v) m sv z bs ch rqs Hc) as (K1 & K2 & K3).
  destruct (three_as_two clock (pw_sent v) sched n _ _ _ 0%nat _ _ _ v H eq_refl (conj (Nat.le_0_l _) eq_refl) K1 K2 K3) as (n' & p1' & p2' & q1' & q2' & j' & s' & E1 & E2 & _ & T1 & T2 & RN).
  assert (p1' = p1 /\ p2' = Ret (Works x)) as [-> ->] by (split; congruence).
  exists s', q1'. cbn [tracks] in T2. destruct q2' as [b|]; [|contradiction]. destruct T2 as [T2 _]. assert (b = x) as -> by congruence. split; [exact E2|].
  intros a ->. cbn [tracks] in T1. destruct q1' as [b|]; [|contradiction]. unfold same_end in T1. eauto.
Qed.
(* the server comes to its end *)
Theorem running_can_finish cf clock n m sv z bs ch rqs sched d ts v : (forall i, (i < pw_sent v)%nat -> u64 (clock i + 1)) ->
  (forall starts s, exists more, forall p, In p (fst (interleave dhandler (s ++ more) (at_work cf starts sv z bs ch rqs) d)) -> finished p) ->
  interleave (phandler clock) sched (running cf n m sv z bs ch rqs) (mkPw d 0 []) = (ts, v) ->
  exists more p0 p1 x w, interleave (phandler clock) (sched ++ more) (running cf n m sv z bs ch rqs) (mkPw d 0 []) = ([p0; p1; Ret (Works (Served x))], w).
Proof.
  intros Hc Hf H. destruct (running_tracks cf clock (pw_sent v) m sv z bs ch rqs) as (K1 & K2 & K3); [auto|].
  destruct (three_as_two clock (pw_sent v) sched n _ _ _ 0%nat _ _ _ v H eq_refl (conj (Nat.le_0_l _) eq_refl) K1 K2 K3) as (n' & p1' & p2' & q1' & q2' & j' & s' & E1 & E2 & HC & T1 & T2 & RN).
  destruct (Hf (starts_after clock (Nat.min m (pw_sent v))) s') as (more & F). rewrite interleave_app in F.
  change (at_work cf (starts_after clock (Nat.min m (pw_sent v))) sv z bs ch rqs) with
    [bind (rotator cf (starts_after clock (Nat.min m (pw_sent v)))) (fun a => Ret (Swaps a)); bind (serve sv z bs ch 0 rqs) (fun x => Ret (Served x))] in F.
  cbn [pw_db] in E2. rewrite E2 in F. destruct (interleave dhandler more [q1'; q2'] (pw_db v)) as [qs d'] eqn:Eq.
  destruct (two_as_three clock (pw_sent v) n' more p1' p2' v j' q1' q2' qs d' Eq eq_refl HC T1 T2 RN) as (s2 & p1b & p2b & q1b & q2b & w' & -> & R & T & RN').
  destruct (F q2b) as (y & ->); [cbn [fst]; right; left; reflexivity|].
  destruct p2b as [a|X c k]; [|destruct c as [X c| |]; try (destruct RN'; contradiction); cbn [tracks] in T; destruct T as (k' & T & _); discriminate].
  cbn [tracks] in T. destruct T as [-> (x & ->)]. exists s2. rewrite interleave_app, H, E1. rewrite R. eauto.
Qed.

(** ** all schedules are allowed by the rule that lets everybody through *)
Definition anyone {A} : policy A := fun _ _ _ _ => true.
Lemma anyone_lets {A} : lets_someone (@anyone A).
Proof. intros past ts w l i p _ H1 H2. exists i, p. auto. Qed.
Lemma anyone_interleave {A} sched : forall past (ts : list (prog dcmd A)) w, obeying anyone past sched ts w = interleave dhandler sched ts w.
Proof.
  induction sched as [|i sched IH]; intros past ts w; [reflexivity|]. cbn [obeying interleave]. unfold move.
  destruct (nth_error ts i) as [p|]; [|apply IH]. destruct p as [a|X c k]; [cbn [step]; cbn; apply IH|].
  cbn [anyone]. destruct (waits_for (Do c k)); cbn [step]; destruct (dhandler X c w) as [[x w']|]; apply IH.
Qed.

(** ** the launched program *)
Theorem launch_iff dbg file a cf sv : launch dbg file a = Some (cf, sv) <->
  (exists secs, unsigned (a_chunk_size a) secs /\ secs < 2 ^ 64 /\ cf_size cf = (secs * 1000) mod 2 ^ 64) /\
  (exists n, unsigned (a_workers a) n /\ n < 2 ^ 64) /\ (exists port, signed (a_port a) port /\ 1024 <= port <= 65535) /\
  (wants_tikv a -> dry_run file a true) /\ runs_on (a_storage a) (cf_st cf) /\ runs_on (a_indexer a) (cf_ix cf) /\
  cf_dbg cf = dbg /\ cf_base cf = a_dir a /\ sv_read_path sv = a_read_path a /\ sv_write_path sv = a_write_path a.
Proof.
  unfold launch. split.
  - destruct (startup file a) as [c| |st ix o so] eqn:E; try discriminate. apply startup_starts in E. destruct E as (E1 & E2 & dry & K1 & K2 & K3).
    apply db_opts_iff in E1. apply server_opts_iff in E2. destruct E1 as (U & L & _ & _ & Eb & _). destruct E2 as (W1 & W2 & P1 & P2 & Ew & Er).
    destruct (backend_of st) as [s|] eqn:Bs; [|discriminate]. destruct (backend_of ix) as [i|] eqn:Bi; [|discriminate].
    intros H. assert (cf = mkConfig dbg (o_base_dir o) s i (chunk_millis o) /\ sv = mkServer (so_read_path so) (so_write_path so)) as [-> ->] by (split; congruence).
    cbn [cf_size cf_st cf_ix cf_dbg cf_base sv_read_path sv_write_path]. split; [exists (o_chunk_secs o); auto|]. split; [eauto|]. split; [eauto|].
    assert (D: wants_tikv a -> dry = true).
    { intros W. destruct K1 as [[N ->]|[N ->]]; [destruct K2 as [[N2 ->]|[N2 ->]]|].
      - destruct W as [W|W]; [rewrite N in W|rewrite N2 in W]; discriminate.
      - destruct dry; [reflexivity|discriminate].
      - destruct dry; [reflexivity|discriminate]. }
    split; [intros W; rewrite <- (D W); auto|]. unfold runs_on.
    split; [|split; [|auto]].
    + destruct K1 as [[N ->]|[N ->]]; [left; split; [exact N|cbn [backend_of] in Bs; congruence]|right; split; [exact N|]]. rewrite (D (or_introl N)) in Bs. cbn [backend_of] in Bs. congruence.
    + destruct K2 as [[N ->]|[N ->]]; [left; split; [exact N|cbn [backend_of] in Bi; congruence]|right; split; [exact N|]]. rewrite (D (or_intror N)) in Bi. cbn [backend_of] in Bi. congruence.
  - intros ((secs & U & L & Es) & (nw & W1 & W2) & (port & P1 & P2) & D & R1 & R2 & Ed & Eb & Er & Ew).
    assert (Q: exists st ix, startup file a = Starts st ix (mkDbOpts (a_storage a) (a_indexer a) (a_dir a) secs (a_tikv a)) (mkServerOpts port (a_write_path a) (a_read_path a) nw) /\
                 backend_of st = Some (cf_st cf) /\ backend_of ix = Some (cf_ix cf)).
    { assert (K: forall name b, runs_on name b -> exists k, kind_for name true k /\ backend_of k = Some b).
      { intros name b [[N ->]|[N ->]]; [exists KSled; split; [left; auto|reflexivity]|exists (KTiKv true); split; [right; auto|reflexivity]]. }
      destruct (K _ _ R1) as (st & K1 & B1). destruct (K _ _ R2) as (ix & K2 & B2). exists st, ix. split; [|auto].
      apply startup_starts. split; [apply db_opts_iff; cbn; auto 10|]. split; [apply server_opts_iff; cbn; auto 10|]. eauto. }
    destruct Q as (st & ix & -> & -> & ->). cbn [o_base_dir so_read_path so_write_path]. unfold chunk_millis. cbn [o_chunk_secs]. unfold wrapu. rewrite <- Es, <- Ed, <- Eb, <- Er, <- Ew.
    destruct cf, sv. reflexivity.
Qed.
Lemma launch_size dbg file a cf sv : launch dbg file a = Some (cf, sv) -> 0 <= cf_size cf.
Proof. intros H. apply launch_iff in H as ((secs & _ & _ & ->) & _). apply Z.mod_pos_bound. lia. Qed.
Lemma launch_base dbg file a cf sv : launch dbg file a = Some (cf, sv) -> cf_base cf = a_dir a.
Proof. intros H. apply launch_iff in H. apply H. Qed.

Lemma starts_after_ok cf clock t0 : forall N t k i, ticking (cf_size cf) t0 clock N -> (i + k <= N)%nat -> t <= t0 \/ (exists j, i = S j /\ t = clock j + 1) ->
  starts_ok cf t (map OpSwap (map (fun i => clock i + 1) (seq i k))).
Proof.
  intros N t k. revert t. induction k as [|k IH]; intros t i T L H; [exact I|]. cbn [seq map starts_ok]. destruct T as [T1 T2]. destruct (T1 i) as [A B]; [lia|].
  split; [|split; [lia|]].
  - destruct H as [H|(j & -> & ->)]; [lia|]. pose proof (T2 j). lia.
  - apply IH; [split; assumption|lia|]. right. exists i. auto.
Qed.
Lemma ticking_u64 size t0 clock N : 0 <= size -> 0 <= t0 -> ticking size t0 clock N -> forall i, (i < N)%nat -> u64 (clock i + 1).
Proof. intros Hs H0 [T _] i L. destruct (T i L). unfold u64. lia. Qed.
Theorem paced_ticking size t0 clock N : 0 < size -> paced size t0 clock -> (forall i, (i < N)%nat -> clock i + 1 + size < 2 ^ 64) -> ticking size t0 clock N.
Proof.
  intros Hs [P1 P2] B. split; [|intros i _; pose proof (P2 i); lia]. intros i L. split; [|now apply B]. clear L. induction i as [|i IH]; [lia|]. pose proof (P2 i). lia.
Qed.
