(* What a thread that writes and queries in turn meets while the swap thread works. *)
From Coq Require Import ZifyBool ZifyNat Permutation.
From Verif Require Import Rust StringProofs Prog Gorilla GorillaSpec Storage StorageSpec StorageProofs Labels IndexSpec Indexer
  LabelProofs IndexProofs Chunk ChunkSpec ChunkProofs ChunkFacts ConcSpec Conc Utils DirSpec DirProofs TiKvInit Db DbSpec MapProofs
  DbProofs DbHist DbFacts RangeSpec FaultsSpec FaultsProofs FaultsMain SwapSpec SwapProofs SwapConc SwapMain WritersSpec WritersProofs WritersConc WritersMain
  ReadsSpec ReadsMay ReadsCrash ReadsConc ReadsFacts SharedSpec SharedLog SharedConc SharedMay SharedMain SharedFacts SharedAck Script.

(** ** empty chunks *)
Lemma between_empty l0 E q s e r : Forall (fun c : part => snd c = []) E -> between l0 (l0 ++ E) q s e r -> db_answer l0 q s e r \/ db_answer (twice_last l0) q s e r.
Proof.
  intros HE H. assert (N0: forall j c A, nth_error l0 j = Some (c, A) -> nth_error (l0 ++ E) j = Some (c, A)).
  { intros j c A Hj. rewrite nth_error_app1; [exact Hj|]. apply nth_error_Some. congruence. }
  destruct (between_snapshot l0 (l0 ++ E) q s e r) as (k & i & l' & L1 & L2 & L3 & F & (DA1 & DA2)).
  { intros j c A Hj. exists A. split; [now apply N0|apply grown_refl]. }
  { intros j c A n x Hj Hn Ln. exfalso. destruct (Nat.lt_ge_cases j (length l0)) as [L|L].
    - rewrite nth_error_app1 in Hj by exact L. unfold content_at in Ln. rewrite Hj in Ln. cbn [snd] in Ln. assert (n < length A)%nat by (apply nth_error_Some; congruence). lia.
    - rewrite nth_error_app2 in Hj by exact L. apply nth_error_In in Hj. rewrite Forall_forall in HE. specialize (HE _ Hj). cbn [snd] in HE. subst A. destruct n; discriminate. }
  { exact H. }
  set (f := fun m c => piece c q s e m) in *.
  assert (EL: map (nth_error (l0 ++ E)) (seq 0 k ++ [i]) = map Some l').
  { clear - F HE N0. induction F as [|j c js l' (A & Nj & G1 & G2) F IH]; [reflexivity|]. cbn [map]. rewrite IH. f_equal. rewrite Nj. f_equal. destruct c as [c B]. cbn [fst snd] in *. f_equal.
    destruct (Nat.lt_ge_cases j (length l0)) as [L|L].
    - rewrite nth_error_app1 in Nj by exact L. unfold content_at in G1. rewrite Nj in G1. cbn [snd] in G1. exact (grown_eq _ _ G1 G2).
    - rewrite nth_error_app2 in Nj by exact L. apply nth_error_In in Nj. rewrite Forall_forall in HE. specialize (HE _ Nj). cbn [snd] in HE. subst A.
      destruct B as [|[lb pb] B]; [reflexivity|]. destruct (G2 0%nat lb pb eq_refl) as (p' & H & _). discriminate. }
  assert (SQ: forall n, (n <= length (l0 ++ E))%nat -> map (nth_error (l0 ++ E)) (seq 0 n) = map Some (firstn n (l0 ++ E))).
  { clear. generalize (l0 ++ E). intros l n. revert l. induction n as [|n IH]; intros l L; [reflexivity|]. destruct l as [|x l]; [cbn in L; lia|]. cbn [seq map nth_error firstn]. f_equal. rewrite <- seq_shift, map_map. apply IH. cbn in L. lia. }
  assert (INJ: forall a b : list part, map Some a = map Some b -> a = b).
  { clear. induction a as [|x a IH]; intros [|y b] Eq; try discriminate; [reflexivity|]. cbn [map] in Eq. injection Eq as -> Eq. f_equal. auto. }
  destruct (nth_error (l0 ++ E) i) as [ci|] eqn:Nl; [|apply nth_error_None in Nl; lia].
  assert (EE: l' = firstn k (l0 ++ E) ++ [ci]).
  { apply INJ. etransitivity; [symmetry; exact EL|]. rewrite !map_app, SQ by lia. cbn [map]. now rewrite Nl. }
  assert (Z: forall m l, Forall (fun c : part => snd c = []) l -> concat (map (f m) l) = []).
  { clear. intros m l Hl. induction Hl as [|[c A] l H Hl IH]; [reflexivity|]. cbn [snd] in H. subst A. cbn [map concat]. unfold f at 1. rewrite piece_empty. exact IH. }
  assert (ZF: forall n, Forall (fun c : part => snd c = []) (firstn n E)).
  { intros n. apply Forall_forall. intros x Hx. rewrite Forall_forall in HE. apply HE. rewrite <- (firstn_skipn n E). apply in_or_app. now left. }
  destruct (Nat.lt_ge_cases i (length l0)) as [Li|Li].
  - rewrite nth_error_app1 in Nl by exact Li. destruct (snoc_of l0 i) as (l1 & c1 & -> & Ll1); [lia|]. rewrite nth_error_app2, Ll1, Nat.sub_diag in Nl by lia. injection Nl as ->.
    destruct (Nat.lt_ge_cases k (length (l1 ++ [ci]))) as [Lk|Lk].
    + left. assert (k = length l1) as -> by (rewrite app_length in *; cbn in *; lia). rewrite <- app_assoc, firstn_app, Nat.sub_diag, firstn_all in EE. cbn [firstn] in EE. rewrite app_nil_r in EE. subst l'. now split.
    + right. rewrite firstn_app in EE. rewrite firstn_all2 in EE by exact Lk. split; [exact DA1|]. intros m pts. rewrite DA2, twice_app, EE, !map_app, !concat_app. fold (f m). rewrite (Z m _ (ZF _)). now rewrite app_nil_r.
  - left. split; [exact DA1|]. intros m pts. rewrite DA2, EE, firstn_app, firstn_all2 by lia. rewrite !map_app, !concat_app. fold (f m). rewrite (Z m _ (ZF _)).
    rewrite (Z m [ci]); [now rewrite !app_nil_r|]. constructor; [|constructor]. rewrite nth_error_app2 in Nl by exact Li. apply nth_error_In in Nl. rewrite Forall_forall in HE. exact (HE _ Nl).
Qed.

(** ** the numbers of the threads *)
Definition writes_of (V : list vcall) : list (list wcall) := flat_map (fun v => match v with VWrite c => [[c]] | VAsk _ => [] end) V.
Definition asks_of (V : list vcall) : list (list ask) := flat_map (fun v => match v with VWrite _ => [] | VAsk a => [[a]] end) V.
Definition number (V : list vcall) (i : nat) : nat :=
  match i with
  | O => O
  | S n => match nth_error V n with
           | Some (VAsk _) => S (length (writes_of V) + length (asks_of (firstn n V)))
           | _ => S (length (writes_of (firstn n V)))
           end
  end.
Lemma split_at {T} (l : list T) n x : nth_error l n = Some x -> l = firstn n l ++ x :: skipn (S n) l.
Proof. revert n. induction l as [|y l IH]; intros [|n] H; try discriminate; [injection H as ->; reflexivity|]. cbn [firstn skipn app]. f_equal. now apply IH. Qed.
Lemma firstn_le {T} (l : list T) n m : (n <= m)%nat -> exists l', firstn m l = firstn n l ++ l'.
Proof.
  intros H. exists (skipn n (firstn m l)). rewrite <- (firstn_skipn n (firstn m l)) at 1. f_equal. rewrite firstn_firstn. now rewrite Nat.min_l.
Qed.
Lemma firstn_S {T} (l : list T) n x : nth_error l n = Some x -> firstn (S n) l = firstn n l ++ [x].
Proof. revert n. induction l as [|y l IH]; intros [|n] H; try discriminate; [injection H as ->; reflexivity|]. change (firstn (S (S n)) (y :: l)) with (y :: firstn (S n) l). cbn [firstn app]. f_equal. now apply IH. Qed.
Lemma number_thread cf starts V i : (i < length (vthreads (rotator cf starts) V))%nat ->
  nth_error (WritersSpec.threads cf starts (writes_of V) (asks_of V)) (number V i) = nth_error (vthreads (rotator cf starts) V) i.
Proof.
  unfold vthreads. cbn [List.length]. rewrite map_length. intros L. destruct i as [|n]; [reflexivity|]. cbn [number nth_error]. rewrite nth_error_map.
  destruct (nth_error V n) as [v|] eqn:N; [|apply nth_error_None in N; lia]. cbn [option_map].
  pose proof (split_at _ _ _ N) as E. set (A := firstn n V) in *. set (B := skipn (S n) V) in *. unfold WritersSpec.threads. destruct v as [c|a]; cbn [nth_error vthread].
  - rewrite nth_error_app1.
    + rewrite nth_error_map, E. unfold writes_of. rewrite flat_map_app. cbn [flat_map app]. rewrite nth_error_app2, Nat.sub_diag by lia. reflexivity.
    + rewrite map_length, E. unfold writes_of. rewrite flat_map_app, app_length. cbn. lia.
  - rewrite nth_error_app2; rewrite map_length; [|lia]. replace (_ + _ - _)%nat with (length (asks_of A)) by lia.
    rewrite nth_error_map, E. unfold asks_of. rewrite flat_map_app. cbn [flat_map app]. rewrite nth_error_app2, Nat.sub_diag by lia. reflexivity.
Qed.
Lemma number_lt V n : (n < length V)%nat -> match nth_error V n with Some (VAsk _) => (length (writes_of V) < number V (S n))%nat | _ => (0 < number V (S n) <= length (writes_of V))%nat end.
Proof.
  intros L. cbn [number]. destruct (nth_error V n) as [v|] eqn:N; [|apply nth_error_None in N; lia]. pose proof (split_at _ _ _ N) as E.
  destruct v as [c|a]; [|lia]. split; [lia|]. rewrite E at 2. unfold writes_of. rewrite flat_map_app, app_length. cbn. lia.
Qed.
Lemma number_inj V i j : (i <= length V)%nat -> (j <= length V)%nat -> number V i = number V j -> i = j.
Proof.
  assert (M: forall n m, (n < m)%nat -> (m < length V)%nat -> number V (S n) <> number V (S m)).
  { intros n m Lnm Lm. pose proof (number_lt V n ltac:(lia)) as Hn. pose proof (number_lt V m Lm) as Hm. cbn [number] in *.
    destruct (nth_error V n) as [vn|] eqn:Nn; [|apply nth_error_None in Nn; lia]. destruct (nth_error V m) as [vm|] eqn:Nm; [|apply nth_error_None in Nm; lia].
    destruct (firstn_le V (S n) m ltac:(lia)) as (l' & E). rewrite (firstn_S _ _ _ Nn), <- app_assoc in E.
    destruct vn, vm; try lia; rewrite E; unfold writes_of, asks_of; rewrite !flat_map_app, !app_length; cbn; lia. }
  assert (P: forall n, (n < length V)%nat -> number V (S n) <> 0%nat).
  { intros n L. cbn [number]. destruct (nth_error V n) as [[|]|]; lia. }
  intros Li Lj E. destruct i as [|i], j as [|j]; [reflexivity| | |].
  - symmetry in E. change (number V (S j) = 0%nat) in E. now apply P in E; [|lia].
  - change (number V (S i) = 0%nat) in E. now apply P in E; [|lia].
  - destruct (Nat.lt_trichotomy i j) as [L|[->|L]]; [|reflexivity|]; [now apply M in E; [|lia|lia]|symmetry in E; now apply M in E; [|lia|lia]].
Qed.

Lemma nth_write V n : (n < length (writes_of V))%nat -> exists i c, nth_error V i = Some (VWrite c) /\ length (writes_of (firstn i V)) = n.
Proof.
  revert n. induction V as [|[c|a] V IH]; intros n H; cbn in H; [lia| |].
  - destruct n as [|n]; [exists 0%nat, c; auto|]. destruct (IH n ltac:(unfold writes_of; lia)) as (i & c' & H1 & H2). exists (S i), c'. split; [exact H1|]. cbn. now f_equal.
  - destruct (IH n H) as (i & c' & H1 & H2). exists (S i), c'. split; [exact H1|exact H2].
Qed.
Lemma nth_ask V n : (n < length (asks_of V))%nat -> exists i c, nth_error V i = Some (VAsk c) /\ length (asks_of (firstn i V)) = n.
Proof.
  revert n. induction V as [|[c|a] V IH]; intros n H; cbn in H; [lia| |].
  - destruct (IH n H) as (i & c' & H1 & H2). exists (S i), c'. split; [exact H1|exact H2].
  - destruct n as [|n]; [exists 0%nat, a; auto|]. destruct (IH n ltac:(unfold asks_of; lia)) as (i & c' & H1 & H2). exists (S i), c'. split; [exact H1|]. cbn. now f_equal.
Qed.
Lemma number_surj V j : (j < S (length (writes_of V) + length (asks_of V)))%nat -> exists i, (i <= length V)%nat /\ number V i = j.
Proof.
  intros H. destruct j as [|j]; [exists 0%nat; split; [lia|reflexivity]|]. destruct (Nat.lt_ge_cases j (length (writes_of V))) as [L|L].
  - destruct (nth_write V j L) as (i & c & H1 & H2). exists (S i). split; [apply nth_error_Some; congruence|]. cbn [number]. rewrite H1. now f_equal.
  - destruct (nth_ask V (j - length (writes_of V))) as (i & c & H1 & H2); [lia|]. exists (S i). split; [apply nth_error_Some; congruence|]. cbn [number]. rewrite H1, H2. f_equal. lia.
Qed.

(** ** turns *)
Definition relabel (e : event) : event := mkEv (Nat.min 1 (e_who e)) (e_op e) (e_res e).
Definition points_v (V : list vcall) : list ireq := concat (map (fun v => match v with VWrite c => call_points c | VAsk _ => [] end) V).
Definition sets_of (old : list part) (reqs : list ireq) : list (list label) := concat (map (fun c : part => map fst (snd c)) old) ++ map fst reqs.
Definition apart (hs : hasher) (sets : list (list label)) (q : list label) : Prop :=
  tells_apart hs (fun m => exists x, In x sets /\ wanted q x /\ m = sort_labels x).
(* the events of the turn of d, after those of before *)
Definition turn_of (chunks_of : list event -> list part) (before turn : list event) (d : done) : Prop :=
  match projT1 d as v return vres v -> Prop with
  | VWrite c => fun r => session [c] (of_thread 1 turn) [r]
  | VAsk a => fun r => of_thread 1 turn = [] /\
      let down := exists c, In c (chunks_of before) /\ crashes c (k_labels a) (k_from a) (k_to a) in
      (down /\ r = Panic) \/ ~ down /\
      exists x, r = Ok x /\ (db_answer (chunks_of before) (k_labels a) (k_from a) (k_to a) x \/
                             db_answer (twice_last (chunks_of before)) (k_labels a) (k_from a) (k_to a) x) /\
        (forall m pts p, In (m, pts) x -> In p pts -> u64 (tp_ts p))
  end (projT2 d).

Lemma cut {T} (segs : list (list nat)) (post : list nat) : forall (E : list T), length E = length (concat segs ++ post) ->
  exists Es Ep, E = concat Es ++ Ep /\ Forall2 (fun s e => length s = length e) segs Es /\ length post = length Ep.
Proof.
  induction segs as [|s segs IH]; intros E L; [exists [], E; cbn in *; auto|]. cbn [concat] in L. rewrite <- app_assoc, app_length in L.
  destruct (IH (skipn (length s) E)) as (Es & Ep & E1 & E2 & E3); [rewrite skipn_length; lia|].
  exists (firstn (length s) E :: Es), Ep. split; [cbn [concat]; now rewrite <- app_assoc, <- E1, firstn_skipn|]. split; [constructor; [rewrite firstn_length; lia|exact E2]|exact E3].
Qed.
Lemma logged_cut g segs Es : Forall2 (fun (s : list nat) (e : list (list (dop * res unit))) => length s = length e) segs Es ->
  forall post Ep, logged (map g (concat segs ++ post)) (concat Es ++ Ep) = concat (map (fun se => logged (map g (fst se)) (snd se)) (combine segs Es)) ++ logged (map g post) Ep.
Proof.
  induction 1 as [|s e segs Es L F IH]; intros post Ep; [reflexivity|]. cbn [concat combine map fst snd]. rewrite <- !app_assoc. rewrite map_app, logged_app by now rewrite map_length. now rewrite <- IH.
Qed.
Lemma relabel_one j t : (0 < j)%nat -> Forall (fun e => e_who e = 0 \/ e_who e = j)%nat t -> of_thread 1 (map relabel t) = of_thread j t /\ of_thread 0 (map relabel t) = of_thread 0 t.
Proof.
  intros Hj H. unfold of_thread. destruct j as [|j]; [lia|]. induction H as [|[n o r] t He H [IH1 IH2]]; [split; reflexivity|]. cbn [e_who] in He. cbn [map filter]. change (relabel (mkEv n o r)) with (mkEv (Nat.min 1 n) o r). cbn [e_who e_op e_res].
  destruct He as [->| ->]; cbn [Nat.min Nat.eqb]; [|rewrite Nat.eqb_refl]; cbn [map e_op e_res]; rewrite IH1, IH2; split; reflexivity.
Qed.
Lemma relabel_rot t : of_thread 0 (map relabel t) = of_thread 0 t.
Proof.
  unfold of_thread. induction t as [|e t IH]; [reflexivity|]. cbn [map filter relabel e_who]. destruct (e_who e) as [|n]; cbn [Nat.min Nat.eqb map e_op e_res]; rewrite IH; reflexivity.
Qed.
Lemma relabel_ops t : map e_op (map relabel t) = map e_op t.
Proof. rewrite map_map. now apply map_ext. Qed.
Lemma relabel_res t : map e_res (map relabel t) = map e_res t.
Proof. rewrite map_map. now apply map_ext. Qed.
Lemma logged_who s E e : In e (logged s E) -> In (e_who e) s.
Proof.
  unfold logged. intros H. apply in_concat in H as (l & Hl & He). apply in_map_iff in Hl as ([i x] & <- & Hi). cbn [fst snd] in He.
  unfold evs in He. apply in_map_iff in He as (y & <- & _). cbn. now apply in_combine_l in Hi.
Qed.
(* swaps add empty chunks *)
Lemma parts_swaps cf t h ops l : Forall (fun o => swapb o = true) l -> exists E, parts_from cf t h (ops ++ l) = parts_from cf t h ops ++ E /\ Forall (fun c : part => snd c = []) E.
Proof.
  intros Hl. revert t h. induction ops as [|[ls p|ls pts|st] ops IH]; intros t h; cbn [app parts_from]; [|apply IH|apply IH|].
  - revert t h. induction Hl as [|o l Ho Hl IHl]; intros t h; [exists []; cbn [parts_from]; split; [reflexivity|constructor]|].
    destruct o as [| |st]; try discriminate. cbn [parts_from]. destruct (IHl st []) as (E & EQ & HE). rewrite EQ. exists (parts_from cf st [] [] ++ E). split; [reflexivity|]. constructor; [reflexivity|exact HE].
  - destruct (IH st []) as (E & EQ & HE). rewrite EQ. exists E. split; [reflexivity|exact HE].
Qed.
Lemma performed_swaps l : forall rs, Forall (fun o => swapb o = true) l -> Forall (fun o => swapb o = true) (performed l rs).
Proof.
  induction l as [|o l IH]; intros [|r rs] H; try constructor; inversion H as [|? ? Ho Hl]; subst; destruct o as [| |st]; try discriminate; cbn [performed]; [constructor|].
  destruct r; [constructor; [reflexivity|]| |]; now apply IH.
Qed.

Lemma consapp {T} (x : T) l : x :: l = [x] ++ l. Proof. reflexivity. Qed.
Local Notation vok cf := (WritersConc.vok (good cf) fok).
Section RUN.
  Variables (cf : config) (old : list part) (t0 : Z) (ops : list dop) (rs0 : list (res unit)) (starts : list Z) (w00 w : dworld).
  Variables (ds : list done) (segs : list (list nat)) (post : list nat) (r0 : prog dcmd wanswer) (wf : dworld).
  Let V := map called ds.
  Let cs := writes_of V.
  Let qs := asks_of V.
  Let g := number V.
  Let ts := WritersSpec.threads cf starts cs qs.
  Let chunks_of log := old ++ chunks_after cf t0 ops rs0 log.
  Hypothesis Hstart : fstate cf w00 (old ++ [(the_chunk cf t0, [])]) t0.
  Hypothesis Hvok : vok cf w00.
  Hypothesis Hold : Forall part_ok old.
  Hypothesis Hops : ops_ok cf t0 ops.
  Hypothesis Hafter : db_after_from cf ops w00 = Some (rs0, w).
  Hypothesis Hstarts : starts_ok cf (last_start t0 ops) (map OpSwap starts).
  Hypothesis Hpts : Forall ireq_ok (points_v V).
  Hypothesis Hcount : Z.of_nat (length (written ops) + length (points_v V)) < 2 ^ 64 - 1.
  Hypothesis Htimely : timely (written ops ++ points_v V) \/ cf_st cf = TiKvDry.
  Hypothesis Hasks : forall a, In (VAsk a) V -> asks a /\ apart (k_hs a) (sets_of old (written ops ++ points_v V)) (k_labels a).
  Hypothesis Hlen : length segs = length ds.
  Hypothesis Hturns : turns 0 segs.
  Hypothesis Hpost : Forall (eq 0%nat) post.
  Hypothesis Hret : forall i d, nth_error ds i = Some d -> nth_error (fst (interleave dhandler (concat (firstn (S i) segs)) (vthreads (rotator cf starts) V) w)) (S i) = Some (Ret (reply d)).
  Hypothesis Hall : interleave dhandler (concat segs ++ post) (vthreads (rotator cf starts) V) w = (r0 :: map (fun d => Ret (reply d)) ds, wf).

  Lemma LV : length V = length ds. Proof. apply map_length. Qed.
  Lemma Lvt : length (vthreads (rotator cf starts) V) = S (length ds). Proof. unfold vthreads. cbn [List.length]. now rewrite map_length, LV. Qed.
  Lemma points_flat : concat (map points_of cs) = points_v V.
  Proof.
    unfold cs, points_v. clear. induction V as [|[c|a] l IH]; cbn [writes_of flat_map map concat app]; [reflexivity| |exact IH].
    fold (writes_of l). rewrite IH. unfold points_of. cbn [map concat]. now rewrite app_nil_r.
  Qed.
  Lemma Hwork : work_ok cf t0 ops starts cs.
  Proof.
    split; [exact Hstarts|]. rewrite points_flat. split; [|exact Hcount]. apply Forall_forall. intros c Hc. apply Forall_forall. intros r Hr. rewrite Forall_forall in Hpts. apply Hpts. rewrite <- points_flat.
    apply in_concat. exists (points_of c). split; [now apply in_map|exact Hr].
  Qed.
  Lemma bound (s : list nat) : (exists i, s = concat (firstn i segs)) \/ s = concat segs ++ post -> Forall (fun i => i < length (vthreads (rotator cf starts) V))%nat s.
  Proof.
    rewrite Lvt. intros [(i & ->)| ->].
    - assert (F := turns_bound segs (S (length ds)) Hturns ltac:(lia)). rewrite <- (firstn_skipn i segs), concat_app in F. apply Forall_app in F. apply F.
    - apply Forall_app. split; [apply (turns_bound segs); [exact Hturns|lia]|]. eapply Forall_impl; [|exact Hpost]. intros x <-. lia.
  Qed.
  Lemma renamed (s : list nat) : (exists i, s = concat (firstn i segs)) \/ s = concat segs ++ post ->
    snd (interleave dhandler (map g s) ts w) = snd (interleave dhandler s (vthreads (rotator cf starts) V) w) /\
    forall i, (i <= length ds)%nat -> nth_error (fst (interleave dhandler (map g s) ts w)) (g i) = nth_error (fst (interleave dhandler s (vthreads (rotator cf starts) V) w)) i.
  Proof.
    intros H. destruct (interleave_rename dhandler g s (vthreads (rotator cf starts) V) ts w (bound s H)) as [H1 H2].
    - rewrite Lvt. intros i j Hi Hj. apply number_inj; rewrite LV; lia.
    - intros i Hi. now apply number_thread.
    - split; [exact H1|]. intros i Hi. apply H2. rewrite Lvt. lia.
  Qed.
  Definition turns_logged : Prop := exists (Ls : list (list event)) (Lp : list event), length Ls = length ds /\
    (forall i before turn d, nth_error Ls i = Some turn -> nth_error ds i = Some d -> before = concat (map (map relabel) (firstn i Ls)) -> turn_of chunks_of before (map relabel turn) d) /\
    Forall (fun e => e_who e = 0%nat) Lp /\
    (forall v, In v (concat Ls ++ Lp) -> e_who v = 0%nat -> swapb (e_op v) = true) /\
    (exists v, one_by_one cf (concat Ls ++ Lp) w v /\ (finished r0 -> v = wf)) /\
    (exists rest rs, rotations starts (of_thread 0 (concat Ls ++ Lp) ++ rest) rs /\ forall a, r0 = Ret a -> rest = [] /\ a = Rotated rs) /\
    reported cf t0 (ops ++ map e_op (concat Ls ++ Lp)) (rs0 ++ map e_res (concat Ls ++ Lp)).
  Lemma run_turns : turns_logged.
  Proof.
    destruct (shared_work_from cf old t0 ops rs0 starts cs qs w00 w (map g (concat segs ++ post)) Hstart Hvok Hold Hops Hafter Hwork) as (E & LE & E2 & EX & Q).
    rewrite map_length in LE. destruct (cut segs post E LE) as (Es & Ep & EE & F2 & LP).
    assert (LEs: length segs = length Es) by (clear - F2; induction F2; cbn; congruence).
    set (Ls := map (fun se => logged (map g (fst se)) (snd se)) (combine segs Es)). set (Lp := logged (map g post) Ep).
    assert (LL: length Ls = length ds) by (unfold Ls; rewrite map_length, combine_length; lia).
    set (n := fun i => length (concat (firstn i segs))).
    assert (SC: forall i, firstn (n i) (map g (concat segs ++ post)) = map g (concat (firstn i segs))).
    { intros i. rewrite <- (firstn_skipn i segs) at 1. rewrite concat_app, <- app_assoc, map_app. unfold n. rewrite firstn_app, map_length, Nat.sub_diag. cbn [firstn]. rewrite app_nil_r. apply firstn_all2. rewrite map_length. lia. }
    assert (F2i: forall i, Forall2 (fun s e => length s = length e) (firstn i segs) (firstn i Es)).
    { clear - F2. intros i. revert i. induction F2 as [|s e a b L F IH]; intros [|i]; cbn [firstn]; constructor; auto. }
    assert (LOG: forall i, logged (map g (concat (firstn i segs))) E = concat (firstn i Ls)).
    { intros i. pose proof (logged_cut g _ _ (F2i i) [] (concat (skipn i Es) ++ Ep)) as K. rewrite app_nil_r in K. rewrite EE. rewrite <- (firstn_skipn i Es) at 1. rewrite concat_app, <- app_assoc, K.
      cbn [map]. unfold logged at 2. cbn [combine map concat]. rewrite app_nil_r. unfold Ls. rewrite firstn_map. do 2 f_equal. clear. revert i Es. induction segs as [|s l IH]; intros [|i] [|e Es]; cbn [firstn combine]; try reflexivity. now rewrite IH. }
    assert (LOGA: logged (map g (concat segs ++ post)) E = concat Ls ++ Lp) by (rewrite EE; now apply logged_cut).
    assert (LW: forall i turn, nth_error Ls i = Some turn -> Forall (fun e => e_who e = 0 \/ e_who e = g (S i))%nat turn).
    { intros i turn Hi. unfold Ls in Hi. rewrite nth_error_map in Hi. destruct (nth_error (combine segs Es) i) as [[seg e]|] eqn:Ni; [|discriminate]. injection Hi as <-. cbn [fst snd].
      assert (Ns: nth_error segs i = Some seg).
      { clear - Ni. revert Es i Ni. induction segs as [|s l IH]; intros [|e' Es] [|i] H; try discriminate; cbn in *; [congruence|]. eapply IH. exact H. }
      apply Forall_forall. intros x Hx. apply logged_who in Hx. apply in_map_iff in Hx as (y & <- & Hy). destruct (Hturns i seg Ns y Hy) as [->| ->]; [now left|now right]. }
    assert (IDX: forall i, (i < length ds)%nat -> exists turn, nth_error Ls i = Some turn).
    { intros i Hi. destruct (nth_error Ls i) eqn:N; [eauto|]. apply nth_error_None in N. lia. }
    assert (GI: forall i j, (i <= length ds)%nat -> (j <= length ds)%nat -> g i = g j -> i = j) by (intros i j Hi Hj; apply number_inj; rewrite LV; assumption).
    assert (G0: g 0%nat = 0%nat) by reflexivity.
    assert (GP: forall i, (0 < g (S i))%nat) by (intros i; unfold g, number; destruct (nth_error V i) as [[|]|]; lia).
    (* nothing of a call before its turn *)
    assert (NB: forall i k, (i <= k)%nat -> (k < length ds)%nat -> Forall (fun e => e_who e <> g (S k)) (concat (firstn i Ls))).
    { intros i k Hik Hk. apply Forall_forall. intros e He Ew. apply in_concat in He as (l & Hl & He). apply In_nth_error in Hl as (m & Hm).
      assert (m < i)%nat by (rewrite <- (firstn_length_le Ls (n := i)) by lia; apply nth_error_Some; congruence).
      assert (Nm: nth_error Ls m = Some l) by (rewrite <- (firstn_skipn i Ls), nth_error_app1; [exact Hm|apply nth_error_Some; congruence]).
      pose proof (LW m l Nm) as W. rewrite Forall_forall in W. destruct (W e He) as [Z|Z]; rewrite Ew in Z; [specialize (GP k); lia|]. apply GI in Z; lia. }
    assert (NBt: forall i k, (i <= k)%nat -> (k < length ds)%nat -> of_thread (g (S k)) (concat (firstn i Ls)) = []).
    { intros i k Hik Hk. pose proof (NB i k Hik Hk) as F. unfold of_thread. induction F as [|e l He F IH]; [reflexivity|]. cbn [filter]. destruct (Nat.eqb_spec (e_who e) (g (S k))); [contradiction|exact IH]. }
    assert (STEP: forall i turn, nth_error Ls i = Some turn -> concat (firstn (S i) Ls) = concat (firstn i Ls) ++ turn).
    { intros i turn Hi. rewrite (firstn_S _ _ _ Hi), concat_app. cbn [concat]. now rewrite app_nil_r. }
    assert (EXi: forall i, explains cf starts cs w (interleave dhandler (map g (concat (firstn i segs))) ts w) (concat (firstn i Ls))).
    { intros i. pose proof (EX (n i)) as K. rewrite SC in K. rewrite LOG in K. exact K. }
    assert (EXa: explains cf starts cs w (interleave dhandler (map g (concat segs ++ post)) ts w) (concat Ls ++ Lp)).
    { pose proof (EX (length (map g (concat segs ++ post)))) as K. rewrite firstn_all in K. now rewrite LOGA in K. }
    assert (RETg: forall i d, nth_error ds i = Some d -> nth_error (fst (interleave dhandler (map g (concat (firstn (S i) segs))) ts w)) (g (S i)) = Some (Ret (reply d))).
    { intros i d Hd. destruct (renamed (concat (firstn (S i) segs)) (or_introl (ex_intro _ (S i) eq_refl))) as [_ R]. rewrite R by (apply (nth_error_Some ds i); congruence). now apply Hret. }
    assert (NV: forall i d, nth_error ds i = Some d -> nth_error V i = Some (called d)) by (intros i d Hd; unfold V; now rewrite nth_error_map, Hd).
    (* swaps are what the swap thread does *)
    assert (SWAP: forall v, In v (concat Ls ++ Lp) -> e_who v = 0%nat -> swapb (e_op v) = true).
    { intros v Hv Ev. destruct EXa as (_ & _ & (rest & rs & R & _) & _). apply rotations_swaps in R as (sx & R). rewrite map_app in R.
      pose proof (of_thread_in v _ Hv) as Ho. rewrite Ev in Ho. apply (in_map fst) in Ho. cbn [fst] in Ho.
      assert (In (e_op v) (map OpSwap starts)) as X by (rewrite R; apply in_app_iff; left; apply in_app_iff; now left). apply in_map_iff in X as (s & <- & _). reflexivity. }
    assert (INTURN: forall i turn v, nth_error Ls i = Some turn -> In v turn -> In v (concat Ls ++ Lp)).
    { intros i turn v Hi Hv. apply in_app_iff. left. apply in_concat. exists turn. split; [eapply nth_error_In; exact Hi|exact Hv]. }
    (* what a call does in its turn *)
    assert (CALL: forall i turn d, nth_error Ls i = Some turn -> nth_error ds i = Some d ->
      match projT1 d as v return vres v -> Prop with VWrite c => fun r => session [c] (of_thread (g (S i)) turn) [r] | VAsk _ => fun _ => of_thread (g (S i)) turn = [] end (projT2 d)).
    { intros i turn d Hi Hd. pose proof (EXi (S i)) as X. rewrite (STEP i turn Hi) in X. pose proof (RETg i d Hd) as R. pose proof (NV i d Hd) as N. destruct d as [v r]. unfold called, reply in *. cbn [projT1 projT2] in *.
      assert (Li: (i < length ds)%nat) by (apply nth_error_Some; congruence). pose proof (NBt i i (Nat.le_refl _) Li) as NBi.
      assert (OT: of_thread (g (S i)) (concat (firstn i Ls) ++ turn) = of_thread (g (S i)) turn).
      { unfold of_thread in *. rewrite filter_app, map_app, NBi. reflexivity. }
      destruct v as [c|a]; cbn [vwrap] in R.
      - destruct X as (_ & _ & _ & X4). assert (EG: g (S i) = S (length (writes_of (firstn i V)))) by (unfold g, number; now rewrite N).
        destruct (X4 (length (writes_of (firstn i V))) [c]) as (rest & rs & HS & HR).
        { unfold cs. rewrite (split_at _ _ _ N). unfold writes_of. rewrite flat_map_app. cbn [flat_map app]. rewrite firstn_app, firstn_firstn, Nat.min_id, firstn_length, LV, Nat.min_l by lia. rewrite Nat.sub_diag. cbn [firstn]. rewrite app_nil_r.
          rewrite nth_error_app2, Nat.sub_diag by lia. reflexivity. }
        rewrite <- EG in HS, HR. destruct (HR _ R) as (-> & Er). injection Er as <-. rewrite app_nil_r, OT in HS. exact HS.
      - destruct X as (_ & X2 & _). assert (EG: (length cs < g (S i))%nat) by (unfold g, number; rewrite N; unfold cs; lia).
        apply Forall_app in X2 as [_ X2]. unfold of_thread. clear - X2 EG. induction X2 as [|e l He X2 IH]; [reflexivity|]. cbn [filter]. destruct (Nat.eqb_spec (e_who e) (g (S i))); [lia|exact IH]. }
    (* the points written in a turn *)
    assert (PTS: forall i turn d, nth_error Ls i = Some turn -> nth_error ds i = Some d -> written (map e_op turn) = points_v [called d]).
    { intros i turn d Hi Hd. assert (WT: written (map e_op turn) = written (map fst (of_thread (g (S i)) turn))).
      { pose proof (LW i turn Hi) as W. assert (SWt: forall v, In v turn -> e_who v = 0%nat -> swapb (e_op v) = true) by (intros v Hv; apply SWAP; eapply INTURN; eassumption).
        specialize (GP i). clear - W SWt GP. unfold of_thread. induction W as [|e l He W IH]; [reflexivity|]. cbn [map filter]. rewrite (consapp (e_op e)), written_cat, IH by (intros v Hv; apply SWt; now right).
        destruct (Nat.eqb_spec (e_who e) (g (S i))) as [Eq|Ne].
        - cbn [map fst]. now rewrite (consapp (e_op e) (map fst _)), written_cat.
        - destruct He as [He|He]; [|contradiction]. specialize (SWt e (or_introl eq_refl) He). destruct (e_op e); try discriminate. reflexivity. }
      rewrite WT. pose proof (CALL i turn d Hi Hd) as C. destruct d as [v r]. cbn [projT1 projT2 called] in *. unfold points_v. destruct v as [c|a]; cbn [map concat].
      - apply session_written in C. rewrite C. unfold points_of. cbn [map concat]. reflexivity.
      - now rewrite C. }
    assert (WR: forall i, (i <= length ds)%nat -> written (map e_op (concat (firstn i Ls))) = points_v (firstn i V)).
    { induction i as [|i IH]; intros Hi; [reflexivity|]. destruct (IDX i ltac:(lia)) as (turn & Ht). destruct (nth_error ds i) as [d|] eqn:Nd; [|apply nth_error_None in Nd; lia].
      rewrite (STEP i turn Ht), map_app, written_cat, IH by lia. rewrite (PTS i turn d Ht Nd). rewrite (firstn_S _ _ _ (NV i d Nd)). unfold points_v. now rewrite map_app, concat_app. }
    exists Ls, Lp. split; [exact LL|]. split; [|split; [|split; [exact SWAP|]]].
    - (* a turn *)
      intros i before turn d Hi Hd Hb. destruct (relabel_one (g (S i)) turn (GP i) (LW i turn Hi)) as [R1 _]. pose proof (CALL i turn d Hi Hd) as C. pose proof (NV i d Hd) as N. pose proof (RETg i d Hd) as R.
      assert (Li: (i < length ds)%nat) by (apply nth_error_Some; congruence). destruct d as [v r]. unfold turn_of, called, reply in *. cbn [projT1 projT2] in *. rewrite R1. destruct v as [c|a]; [exact C|]. split; [exact C|]. cbn [vwrap] in R.
      assert (Ina: In (VAsk a) V) by (eapply nth_error_In; exact N). destruct (Hasks a Ina) as [Ha Hap]. set (k := length (asks_of (firstn i V))).
      assert (EG: g (S i) = S (length cs + k)) by (unfold g, number; rewrite N; reflexivity).
      assert (Nk: nth_error qs k = Some [a]).
      { unfold qs. rewrite (split_at _ _ _ N). unfold k, asks_of. rewrite flat_map_app. cbn [flat_map app]. rewrite nth_error_app2, Nat.sub_diag by lia. reflexivity. }
      assert (WU: forall j, (j <= length ds)%nat -> exists r', points_v V = written (map e_op (concat (firstn j Ls))) ++ r').
      { intros j Hj. rewrite (WR j Hj). exists (points_v (skipn j V)). unfold points_v. rewrite <- concat_app, <- map_app, firstn_skipn. reflexivity. }
      assert (L0: length rs0 = length ops) by exact (after_results _ _ _ _ _ Hafter).
      assert (CE: concat (firstn (S i) Ls) = concat (firstn i Ls) ++ turn) by exact (STEP i turn Hi).
      destruct (Q k a (n i) (n (S i)) [r] Nk Ha) as (acked & pend & oc & Rx & D1 & D2 & _ & _ & B).
      { rewrite SC, <- EG. intros Hin. apply in_map_iff in Hin as (y & Ey & Hy). apply in_concat in Hy as (seg & Hs & Hy). apply In_nth_error in Hs as (m & Hm).
        assert (Lm: (m < length (firstn i segs))%nat) by (apply nth_error_Some; congruence). rewrite firstn_length in Lm.
        assert (Nm: nth_error segs m = Some seg) by (rewrite <- (firstn_skipn i segs), nth_error_app1; [exact Hm|apply nth_error_Some; congruence]).
        destruct (Hturns m seg Nm y Hy) as [->| ->]; apply GI in Ey; lia. }
      { rewrite SC, <- EG. exact R. }
      { rewrite SC, LOG. refine (apart_less _ _ _ _ Hap). intros m (c & y & Hc & Hy & W & ->).
        assert (ST: forall (c : part) y, In c (old ++ chunks_after cf t0 ops rs0 (concat (firstn (S i) Ls))) -> In y (snd c) -> In (fst y) (sets_of old (written ops ++ points_v V))).
        { clear c y Hc Hy W. intros c y Hc Hy. apply in_app_iff. apply in_app_or in Hc as [Hc|Hc].
          - left. apply in_concat. exists (map fst (snd c)). split; [apply (in_map (fun c : part => map fst (snd c))); exact Hc|now apply in_map].
          - right. unfold chunks_after in Hc. destruct (parts_seg _ _ _ _ _ Hc) as (u & sg & v & Es' & Ec & _). cbn [app] in Es'. rewrite Ec in Hy. destruct y as [l pts]. destruct (content_from _ _ _ _ Hy) as (p' & Hp').
            cbn [fst]. change l with (fst (l, p')). apply in_map. destruct (WU (S i) ltac:(lia)) as (r' & Er'). rewrite Er', app_assoc, <- written_cat. apply in_app_iff. left.
            rewrite <- (performed_pts _ (rs0 ++ map e_res (concat (firstn (S i) Ls)))) by (rewrite !app_length, !map_length, L0; reflexivity). rewrite Es'. apply in_app_iff. right. apply in_app_iff. now left. }
        exists (fst y). split; [now apply (ST c)|]. split; [exact W|reflexivity]. }
      { destruct Htimely as [HT|HT]; [left|now right]. rewrite SC, LOG, written_cat. destruct (WU (S i) ltac:(lia)) as (r' & Er'). rewrite Er', app_assoc in HT. eapply timely_sub; [|exact HT].
        rewrite <- (app_nil_r (written ops ++ _)) at 1. apply ss_app; [apply ss_refl|apply ss_any]. }
      injection Rx as ->. rewrite SC, LOG in D1. rewrite SC in D2.
      assert (pend = None) as ->.
      { destruct pend as [e|]; [exfalso|reflexivity]. destruct D1 as (u & v & De & _ & Dw & _). destruct (D2 e eq_refl) as (p & Np & Nf).
        assert (He: In e (concat (firstn i Ls))) by (rewrite De; apply in_app_iff; right; now left). apply in_concat in He as (l & Hl & He). apply In_nth_error in Hl as (m & Hm).
        assert (Lm: (m < length (firstn i Ls))%nat) by (apply nth_error_Some; congruence). rewrite firstn_length in Lm.
        assert (Nm: nth_error Ls m = Some l) by (rewrite <- (firstn_skipn i Ls), nth_error_app1; [exact Hm|apply nth_error_Some; congruence]).
        pose proof (LW m l Nm) as W. rewrite Forall_forall in W. destruct (W e He) as [Z|Z]; [contradiction|]. destruct (nth_error ds m) as [dm|] eqn:Ndm; [|apply nth_error_None in Ndm; lia].
        pose proof (RETg m dm Ndm) as Rm. destruct (firstn_le segs (S m) i ltac:(lia)) as (l' & El). rewrite El, concat_app, map_app, interleave_app in Np.
        change (WritersSpec.threads cf starts cs qs) with ts in Np. rewrite Z, (ret_stays dhandler _ _ _ _ _ Rm) in Np. injection Np as <-. apply Nf. eexists. reflexivity. }
      cbn [done_of] in D1. subst acked.
      assert (EB: chunks_of before = chunks_of (concat (firstn i Ls))).
      { subst before. unfold chunks_of, chunks_after. rewrite <- concat_map, relabel_ops, relabel_res. reflexivity. }
      rewrite EB. rewrite SC, LOG, CE in B. fold (chunks_of (concat (firstn i Ls))) in B.
      assert (GR: exists Em, old ++ chunks_after cf t0 ops rs0 (concat (firstn i Ls) ++ turn) = chunks_of (concat (firstn i Ls)) ++ Em /\ Forall (fun c : part => snd c = []) Em).
      { unfold chunks_of, chunks_after, parts. rewrite !map_app, !app_assoc. rewrite (performed_app (ops ++ map e_op _)) by (rewrite !app_length, !map_length, L0; reflexivity).
        destruct (parts_swaps cf t0 [] (performed (ops ++ map e_op (concat (firstn i Ls))) (rs0 ++ map e_res (concat (firstn i Ls)))) (performed (map e_op turn) (map e_res turn))) as (Em & E1 & E1').
        - apply performed_swaps. pose proof (LW i turn Hi) as W. apply Forall_forall. intros o Ho. apply in_map_iff in Ho as (e & <- & He). rewrite Forall_forall in W.
          destruct (W e He) as [Z|Z]; [apply SWAP; [eapply INTURN; eassumption|exact Z]|]. exfalso. pose proof (of_thread_in e turn He) as Ho. rewrite Z, C in Ho. exact Ho.
        - rewrite E1. exists Em. split; [apply app_assoc|exact E1']. }
      destruct GR as (Em & E1 & E1'). rewrite E1 in B. apply (outcome_empty _ _ _ _ _ _ E1') in B as [B|[ND (x & -> & B)]]; [left; exact B|]. right. split; [exact ND|]. exists x. split; [reflexivity|].
      pose proof (between_empty _ _ _ _ _ _ E1' B) as AN. split; [exact AN|].
      assert (U: forall (c : part) ls pts p, In c (chunks_of (concat (firstn i Ls))) -> In (ls, pts) (snd c) -> In p pts -> u64 (tp_ts p)).
      { intros c ls pts p Hc Hy Hp. apply in_app_or in Hc as [Hc|Hc].
        - rewrite Forall_forall in Hold. pose proof (wf_pts _ (po_wf _ (Hold c Hc))) as F. rewrite Forall_forall in F. specialize (F _ Hy). cbn [snd] in F. rewrite Forall_forall in F. apply (F p Hp).
        - unfold chunks_after in Hc. destruct (parts_seg _ _ _ _ _ Hc) as (u & sg & v & Es' & Ec & _). cbn [app] in Es'. rewrite performed_pts in Es' by (rewrite !app_length, !map_length, L0; reflexivity).
          assert (FW: Forall ireq_ok (written (ops ++ map e_op (concat (firstn i Ls))))).
          { rewrite written_cat. apply Forall_app. split; [apply Hops|]. destruct (WU i ltac:(lia)) as (r' & Er'). rewrite Er' in Hpts. apply Forall_app in Hpts. apply Hpts. }
          rewrite Es' in FW. apply Forall_app in FW as [_ FW]. apply Forall_app in FW as [FW _]. rewrite Ec in Hy. destruct (content_sound _ _ FW _ _ Hy) as [_ CS]. destruct (CS p Hp) as (ls' & K1 & _).
          rewrite Forall_forall in FW. apply (FW _ K1). }
      assert (TW: forall (c : part) l, In c (twice_last l) -> In c l).
      { clear. intros c l. unfold twice_last. destruct (rev l) as [|y l'] eqn:Er; [contradiction|]. intros H. apply in_app_or in H as [H|[<-|[]]]; [exact H|]. apply in_rev. rewrite Er. now left. }
      assert (G: forall l, (forall c, In c l -> In c (chunks_of (concat (firstn i Ls)))) -> db_answer l (k_labels a) (k_from a) (k_to a) x -> forall m pts p, In (m, pts) x -> In p pts -> u64 (tp_ts p)).
      { intros l Hl [_ DA] m pts p Hm Hp. apply DA in Hm as [_ ->]. apply in_concat in Hp as (y & Hy & Hp). apply in_map_iff in Hy as (c & <- & Hc). apply piece_in in Hp as (ls & pts & H1 & _ & _ & H4 & _). exact (U c ls pts p (Hl c Hc) H1 H4). }
      destruct AN as [AN|AN]; [exact (G _ (fun c Hc => Hc) AN)|exact (G _ (fun c Hc => TW c _ Hc) AN)].
    - (* after the last call *)
      apply Forall_forall. intros e He. apply logged_who in He. apply in_map_iff in He as (y & <- & Hy). rewrite Forall_forall in Hpost. now rewrite <- (Hpost y Hy).
    - pose proof EXa as (X1 & _ & X3 & _). destruct (renamed _ (or_intror eq_refl)) as [RS RN]. rewrite Hall in RS, RN. cbn [fst snd] in RS, RN. split; [|split].
      + destruct X1 as (v & Hv & Hf). exists v. split; [exact Hv|]. intros Fr. rewrite Hf; [exact RS|]. intros p Hp. apply In_nth_error in Hp as (j & Hj).
        assert (Hjl: (j < length ts)%nat) by (rewrite <- (interleave_length dhandler (map g (concat segs ++ post)) ts w); apply nth_error_Some; congruence).
        assert (exists i, (i <= length ds)%nat /\ g i = j) as (i & Hi & <-).
        { destruct (number_surj V j) as (i & Hi & Ei); [unfold ts, WritersSpec.threads in Hjl; cbn [List.length] in Hjl; rewrite app_length, !map_length in Hjl; exact Hjl|]. exists i. rewrite LV in Hi. split; [exact Hi|exact Ei]. }
        rewrite (RN i Hi) in Hj. destruct i as [|i]; cbn [nth_error] in Hj; [injection Hj as <-; exact Fr|]. rewrite nth_error_map in Hj. destruct (nth_error ds i); [|discriminate]. injection Hj as <-. eexists. reflexivity.
      + destruct X3 as (rest & rs & HR & HA). exists rest, rs. split; [exact HR|]. intros a ->. apply HA. rewrite <- G0. rewrite (RN 0%nat) by lia. reflexivity.
      + destruct X1 as (v & Hv & _). pose proof (log_ops_ok cf t0 ops starts cs _ Hops Hwork (explains_log _ _ _ _ _ _ EXa)) as Hob.
        destruct (state_of cf old w00 w t0 ops rs0 Hstart Hafter _ v Hob Hv) as (hi & _ & Rp). exact Rp.
  Qed.
End RUN.

(** ** a thread and the swap thread *)
Fixpoint turns_of (chunks_of : list event -> list part) (before : list event) (ts : list (list event)) (ds : list done) : Prop :=
  match ts, ds with
  | [], [] => True
  | t :: ts', d :: ds' => turn_of chunks_of before t d /\ turns_of chunks_of (before ++ t) ts' ds'
  | _, _ => False
  end.
Lemma turns_of_nth chunks_of ds : forall Ls before, length Ls = length ds ->
  (forall i turn d, nth_error Ls i = Some turn -> nth_error ds i = Some d -> turn_of chunks_of (before ++ concat (firstn i Ls)) turn d) -> turns_of chunks_of before Ls ds.
Proof.
  induction ds as [|d ds IH]; intros [|t Ls] before L H; try discriminate; [exact I|]. cbn [turns_of]. split.
  - specialize (H 0%nat t d eq_refl eq_refl). cbn [firstn concat] in H. now rewrite app_nil_r in H.
  - apply IH; [now injection L|]. intros i turn d' Hi Hd. specialize (H (S i) turn d' Hi Hd). cbn [firstn concat] in H. now rewrite app_assoc in H.
Qed.
Lemma turns_of_app chunks_of d1 : forall d2 ts before, turns_of chunks_of before ts (d1 ++ d2) ->
  exists t1 t2, ts = t1 ++ t2 /\ turns_of chunks_of before t1 d1 /\ turns_of chunks_of (before ++ concat t1) t2 d2.
Proof.
  induction d1 as [|d d1 IH]; intros d2 ts before H; [exists [], ts; cbn [concat app]; rewrite app_nil_r; split; [reflexivity|split; [exact I|exact H]]|]. destruct ts as [|t ts]; cbn [app turns_of] in H; [contradiction|]. destruct H as [H1 H2].
  destruct (IH d2 ts (before ++ t) H2) as (t1 & t2 & -> & K1 & K2). exists (t :: t1), t2. split; [reflexivity|]. cbn [turns_of concat]. split; [now split|]. now rewrite app_assoc.
Qed.
Definition calls_fit (cf : config) (old : list part) (ops : list dop) (V : list vcall) : Prop :=
  Forall ireq_ok (points_v V) /\ Z.of_nat (length (written ops) + length (points_v V)) < 2 ^ 64 - 1 /\
  (timely (written ops ++ points_v V) \/ cf_st cf = TiKvDry) /\
  forall a, In (VAsk a) V -> asks a /\ apart (k_hs a) (sets_of old (written ops ++ points_v V)) (k_labels a).
Theorem script_run {A B} cf (old : list part) t0 ops rs0 starts w00 w (s0 : script A) (fa : wanswer -> B) (fb : A -> B) sched p0 a v :
  (forall x y, fb x = fb y -> x = y) ->
  fstate cf w00 (old ++ [(the_chunk cf t0, [])]) t0 -> vok cf w00 -> Forall part_ok old -> ops_ok cf t0 ops -> db_after_from cf ops w00 = Some (rs0, w) ->
  starts_ok cf (last_start t0 ops) (map OpSwap starts) ->
  (forall ds, follows s0 ds (SRet a) -> calls_fit cf old ops (map called ds)) ->
  interleave dhandler sched [bind (rotator cf starts) (fun x => Ret (fa x)); bind (sprog s0) (fun x => Ret (fb x))] w = ([p0; Ret (fb a)], v) ->
  exists ds turns post, follows s0 ds (SRet a) /\ turns_of (fun log => old ++ chunks_after cf t0 ops rs0 log) [] turns ds /\
    let log := concat turns ++ post in
    Forall (fun e => e_who e <= 1)%nat log /\ of_thread 1 post = [] /\
    (exists v', one_by_one cf log w v' /\ (finished p0 -> v' = v)) /\
    (exists rest rs, rotations starts (of_thread 0 log ++ rest) rs /\ forall x, p0 = Ret x -> rest = [] /\ x = fa (Rotated rs)) /\
    reported cf t0 (ops ++ map e_op log) (rs0 ++ map e_res log).
Proof.
  intros Inj Hstart Hvok Hold Hops Hafter Hstarts Hfit Hrun.
  pose proof (sim_run (rotator cf starts) s0 fa fb w sched) as S. rewrite Hrun in S. destruct S as (q0 & q1 & Eq & Hs). injection Eq as <- <-.
  destruct Hs as [ds v0 k q segs r0 H1 H2 H3 H4 H5 H6 (x & _ & X2 & X3)|ds a' segs post r0 F1 F2 F3 F4 F5 F6 F7 F8].
  { exfalso. destruct x as [x|X c kk]; [now apply (X3 x)|]. exact (ret_do _ _ _ X2). }
  injection F8 as F8. apply Inj in F8. subst a'. destruct (Hfit ds F1) as (K1 & K2 & K3 & K4).
  destruct (run_turns cf old t0 ops rs0 starts w00 w ds segs post r0 v Hstart Hvok Hold Hops Hafter Hstarts K1 K2 K3 K4 F2 F3 F4 F5 F6) as (Ls & Lp & L1 & L2 & L3 & L4 & L5 & L6 & L7).
  exists ds, (map (map relabel) Ls), (map relabel Lp). split; [exact F1|]. rewrite <- concat_map, <- map_app. unfold one_by_one in *. rewrite relabel_ops, relabel_res, relabel_rot. split; [|split; [|split; [|split; [|split]]]].
  - apply turns_of_nth; [now rewrite map_length|]. intros i turn d Hi Hd. rewrite nth_error_map in Hi. destruct (nth_error Ls i) as [t|] eqn:Ni; [|discriminate]. injection Hi as <-. apply (L2 i _ t d Ni Hd). cbn [app]. now rewrite firstn_map.
  - apply Forall_forall. intros e He. apply in_map_iff in He as (y & <- & _). change (e_who (relabel y)) with (Nat.min 1 (e_who y)). lia.
  - unfold of_thread. clear - L3. induction L3 as [|e l He L3 IH]; [reflexivity|]. cbn [map filter]. change (e_who (relabel e)) with (Nat.min 1 (e_who e)). rewrite He. exact IH.
  - destruct L5 as (v' & O1 & O2). exists v'. split; [exact O1|]. intros (x & ->). apply O2. destruct r0 as [y|Y c kk]; [eexists; reflexivity|]. exfalso. exact (ret_do _ _ _ F7).
  - destruct L6 as (rest & rs & R1 & R2). exists rest, rs. split; [exact R1|]. intros x ->. destruct r0 as [y|Y c kk]; [|exfalso; exact (ret_do _ _ _ F7)]. destruct (R2 y eq_refl) as [-> ->]. split; [reflexivity|].
    cbn [bind] in F7. apply peq_ret_inv in F7. congruence.
  - exact L7.
Qed.
