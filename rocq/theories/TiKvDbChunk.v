(* Proofs: one chunk whose series share their points with those of other chunks. *)
From Coq Require Import ZifyBool ZifyNat Permutation Sorted.
From Verif Require Import Rust StringProofs BitsProofs Prog Gorilla GorillaSpec Storage StorageSpec StorageProofs Labels IndexSpec Indexer
  LabelProofs IndexProofs Chunk ChunkSpec ChunkProofs ChunkFacts TiKvInit TiKvShared TiKvSpec TiKvProofs
  Utils DirSpec Db DbSpec ReopenSpec TiKvDb TiKvDbSpec.

(** ** the label sets *)
Lemma seen_fst ks T : forall n, map fst (seen n ks T) = ks.
Proof. induction ks as [|k ks IH]; intros n; [reflexivity|]. cbn [seen map fst]. now rewrite IH. Qed.
Lemma seen_length ks T n : length (seen n ks T) = length ks.
Proof. rewrite <- (seen_fst ks T n) at 2. now rewrite map_length. Qed.
Lemma seen_nth ks T : forall n i, nth_error (seen n ks T) i = match nth_error ks i with Some ls => Some (ls, T (n + Z.of_nat i)) | None => None end.
Proof.
  induction ks as [|k ks IH]; intros n [|i]; cbn [seen nth_error]; try reflexivity.
  - do 3 f_equal. lia.
  - rewrite IH. destruct (nth_error ks i); [|reflexivity]. do 3 f_equal. lia.
Qed.
Lemma seen_app a b T : forall n, seen n (a ++ b) T = seen n a T ++ seen (n + Z.of_nat (length a)) b T.
Proof.
  induction a as [|x a IH]; intros n; cbn [app seen length].
  - f_equal. lia.
  - rewrite IH. do 3 f_equal. lia.
Qed.
Definition kregs (ks : list (list label)) : reg := regs (seen 1 ks no_table).
Lemma kregs_any ks T : regs (seen 1 ks T) = kregs ks.
Proof. apply regs_ext. now rewrite !seen_fst. Qed.
Lemma seen_pts ks T id : 1 <= id <= Z.of_nat (length ks) -> pts_of (seen 1 ks T) id = T id.
Proof.
  intros H. unfold pts_of. replace (1 <=? id) with true by lia. rewrite seen_nth.
  destruct (nth_error ks (Z.to_nat (id - 1))) as [ls|] eqn:E; [cbn [snd]; f_equal; lia|]. apply nth_error_None in E. lia.
Qed.
Definition distinct (ks : list (list label)) : Prop := wfc (seen 1 ks no_table).
Lemma distinct_wfc ks T : distinct ks -> (forall id, 1 <= id <= Z.of_nat (length ks) -> Forall tp_ok (T id)) -> wfc (seen 1 ks T).
Proof.
  intros [W1 W2 W3] H. constructor.
  - rewrite Forall_forall in *. intros x Hx. apply In_nth_error in Hx as (i & Hi). rewrite seen_nth in Hi.
    destruct (nth_error ks i) as [ls|] eqn:E; [|discriminate]. injection Hi as <-. cbn [fst].
    specialize (W1 (ls, [])). cbn [fst] in W1. apply W1. apply (nth_error_In _ i). now rewrite seen_nth, E.
  - rewrite Forall_forall. intros x Hx. apply In_nth_error in Hx as (i & Hi). rewrite seen_nth in Hi.
    destruct (nth_error ks i) as [ls|] eqn:E; [|discriminate]. assert (x = (ls, T (1 + Z.of_nat i))) as -> by congruence. cbn [snd]. apply H.
    assert (i < length ks)%nat by (apply nth_error_Some; congruence). lia.
  - intros i j a b Hi Hj Hab. rewrite seen_nth in Hi, Hj. destruct (nth_error ks i) as [x|] eqn:Ei; [|discriminate]. destruct (nth_error ks j) as [y|] eqn:Ej; [|discriminate].
    injection Hi as <-. injection Hj as <-. cbn [fst] in Hab.
    apply (W3 i j (x, []) (y, [])); [rewrite seen_nth, Ei; reflexivity|rewrite seen_nth, Ej; reflexivity|exact Hab].
Qed.
Lemma distinct_nil : distinct [].
Proof. constructor; [constructor|constructor|]. intros [|i] j a b H; discriminate. Qed.

Lemma place_lookup ks ls : distinct ks -> set_ok ls ->
  match lookup_set (kregs ks) ls with
  | Some e => place 1 ks ls = Some (fst e) /\ 1 <= fst e <= Z.of_nat (length ks)
  | None => place 1 ks ls = None
  end.
Proof.
  intros D Hls. pose proof (lookup_pos (seen 1 ks no_table) ls D Hls) as L. fold (kregs ks) in L. destruct (lookup_set (kregs ks) ls) as [e|].
  - destruct L as (A1 & pts & A2 & EA & Hid & Q & N). assert (EK: ks = map fst A1 ++ snd e :: map fst A2).
    { rewrite <- (seen_fst ks no_table 1), EA, map_app. reflexivity. }
    assert (G: forall (A : content) n, (forall x, In x A -> same_setb (fst x) ls = false) -> place n (map fst A ++ snd e :: map fst A2) ls = Some (n + Z.of_nat (length A))).
    { clear - Q. intros A. induction A as [|x A IH]; intros n H; cbn [map app place length].
      - rewrite Q. f_equal. lia.
      - rewrite (H x ltac:(now left)). rewrite IH by (intros; apply H; now right). f_equal. lia. }
    assert (LK: length ks = (length A1 + S (length A2))%nat) by (rewrite EK, app_length; cbn [length]; now rewrite !map_length).
    split; [|lia]. rewrite EK at 1. rewrite G by assumption. f_equal. lia.
  - assert (G: forall m n, (forall x, In x m -> same_setb x ls = false) -> place n m ls = None).
    { clear. induction m as [|x m IH]; intros n H; cbn [place]; [reflexivity|]. rewrite (H x ltac:(now left)). apply IH. intros; apply H; now right. }
    apply G. intros x Hx. rewrite <- (seen_fst ks no_table 1) in Hx. apply in_map_iff in Hx as (y & <- & Hy). now apply L.
Qed.
Lemma distinct_snoc ks ls : distinct ks -> set_ok ls -> place 1 ks ls = None -> distinct (ks ++ [ls]).
Proof.
  intros D Hls P. pose proof (place_lookup ks ls D Hls) as K. pose proof (lookup_pos (seen 1 ks no_table) ls D Hls) as L. fold (kregs ks) in L.
  destruct (lookup_set (kregs ks) ls) as [e|]; [destruct K; congruence|].
  assert (Hp: tp_ok (mkTp 0 0)) by (split; cbn; lia).
  pose proof (wf_add (TiKvStorage []) _ ls (mkTp 0 0) D Hls Hp) as [W1 W2 W3]. rewrite add_new in W1, W3 by assumption.
  unfold distinct. rewrite seen_app. cbn [seen]. constructor.
  - apply Forall_app in W1 as [B1 B2]. apply Forall_app. split; [exact B1|]. constructor; [exact Hls|constructor].
  - apply Forall_app. split; [apply D|]. constructor; [constructor|constructor].
  - assert (T: forall k x, nth_error (seen 1 ks no_table ++ [(ls, no_table (1 + Z.of_nat (length ks)))]) k = Some x ->
      exists y, nth_error (seen 1 ks no_table ++ [(ls, [mkTp 0 0])]) k = Some y /\ fst x = fst y).
    { intros k x Hk. destruct (Nat.lt_ge_cases k (length (seen 1 ks no_table))) as [G|G].
      - rewrite nth_error_app1 in Hk by assumption. exists x. rewrite nth_error_app1 by assumption. auto.
      - rewrite nth_error_app2 in Hk by assumption. rewrite nth_error_app2 by assumption.
        destruct (k - length (seen 1 ks no_table))%nat as [|m]; [|destruct m; discriminate]. cbn in Hk. injection Hk as <-. eexists. split; reflexivity. }
    intros i j a b Hi Hj S1. destruct (T _ _ Hi) as (a' & Ha & Fa). destruct (T _ _ Hj) as (b' & Hb & Fb).
    eapply W3; [exact Ha|exact Hb|]. now rewrite <- Fa, <- Fb.
Qed.

(** ** the state of such a chunk *)
Record trepi (ixr : indexer) (w : cworld) (ks : list (list label)) (T : table) : Prop := mkTrep {
  tr_ix : rep ixr (w_ix w) (kregs ks);
  tr_st : holds_series (TiKvStorage []) (w_st w) T;
  tr_inc : forall i, increasing (T i);
  tr_next : w_next w = wrapu 64 (Z.of_nat (length ks) + 1);
  tr_locked : w_locked w = false;
  tr_poison : w_poisoned w = false;
  tr_faults : w_faults w = [];
  tr_wf : distinct ks }.
Notation trep ii := (trepi (TiKvIndexer ii)).

Lemma later_keeps i pts p : increasing pts -> keeps (TiKvStorage i) pts p = later pts p.
Proof.
  intros H. apply Bool.eq_iff_eq_true. rewrite (keeps_later i pts p H). unfold later. rewrite forallb_forall.
  split; intros K q Hq; specialize (K q Hq); lia.
Qed.
Lemma append_inc T n p : (forall i, increasing (T i)) -> forall i, increasing (append T n p i).
Proof.
  intros H i. unfold append. destruct (i =? n) eqn:E; [|apply H]. destruct (later (T n) p) eqn:L; [|apply H].
  apply increasing_snoc; [apply H|]. intros q Hq. unfold later in L. rewrite forallb_forall in L. specialize (L q Hq). lia.
Qed.

Definition put_res (ch : chunk) (p : tp) (ok : bool) : res unit :=
  if in_windowb ch (tp_ts p) then (if ok then Ok tt else Err InternalErr) else Err (OutOfRangeErr (c_start ch) (c_end ch)).
Lemma insert_trepi ixr lo hi w ks T ls p : let ch := mkChunk (TiKvStorage []) ixr lo hi in
  trepi ixr w ks T -> set_ok ls -> tp_ok p -> Z.of_nat (length ks) + 1 < 2 ^ 64 ->
  exists ks' T' ok w', put ch (ks, T) ls p = ((ks', T'), ok) /\
    crun ch (chunk_insert ch ls p) w = Some (put_res ch p ok, w') /\ trepi ixr w' ks' T' /\ w_closed w' = w_closed w /\
    (length ks' <= S (length ks))%nat.
Proof.
  intros ch [Hix Hst Hinc Hn Hl Hpo Hf D] Hls Hp Hlen. unfold crun, chunk_insert. rewrite with_lock_run by assumption.
  unfold insert_body, is_in_range. fold (in_windowb ch (tp_ts p)). unfold put_res, put.
  destruct (in_windowb ch (tp_ts p)) eqn:Hin; cbn [negb].
  2:{ exists ks, T, true, w. split; [reflexivity|]. cbn [run is_panic]. split; [|split; [constructor; assumption|split; [reflexivity|lia]]].
      do 2 f_equal. destruct w; cbn in *. now subst. }
  rewrite run_qbind, run_ix by (cbn; assumption). cbn [w_ix set_lock]. cbn [c_indexer ch].
  rewrite (by_labels_run _ _ (kregs ks)); [|assumption|apply regs_ids_ok; rewrite seen_length; lia|assumption]. cbn [fst snd].
  pose proof (place_lookup ks ls D Hls) as L. destruct (lookup_set (kregs ks) ls) as [e|] eqn:E; cbn [option_map].
  - destruct L as [-> Hid]. rewrite run_bind, run_st by reflexivity. cbn [w_st set_ix set_lock]. change (c_storage ch) with (TiKvStorage []).
    destruct (write_ok (TiKvStorage []) (w_st w) T (fst e) p Hst) as (r & s' & Ew & Er & H'); [lia|assumption|].
    rewrite Ew. cbn [fst snd run].
    assert (match r with Panic => Panic | _ => Ok tt end = Ok tt) as ->.
    { rewrite Er. destruct (keeps _ _ _); reflexivity. }
    eexists _, _, _, _. split; [reflexivity|]. split; [reflexivity|]. split; [|split; [reflexivity|lia]].
    cbn [is_panic orb set_lock w_poisoned set_st set_ix w_st w_ix w_next w_closed w_faults].
    constructor; cbn [w_st w_ix w_next w_locked w_poisoned w_faults]; try assumption; try reflexivity.
    + eapply holds_ext; [|exact H']. intros i. cbn beta. unfold append. rewrite (later_keeps [] _ p (Hinc _)). reflexivity.
    + now apply append_inc.
  - rewrite L. rewrite run_bind. cbn [run call chandler w_next set_ix set_lock set_next]. rewrite Hn.
    assert (WU: wrapu 64 (Z.of_nat (length ks) + 1) = Z.of_nat (length ks) + 1) by (unfold wrapu; apply Z.mod_small; lia).
    rewrite WU. set (n := Z.of_nat (length ks) + 1) in *.
    assert (Hidok: id_ok n) by (unfold id_ok, n; lia).
    rewrite run_qbind, run_ix by reflexivity. cbn [w_ix set_next set_ix set_lock].
    destruct (create_ok ixr (w_ix w) (kregs ks) ls n Hix Hls Hidok E) as (s1 & Ec & Hrep).
    rewrite Ec. cbn [fst snd]. rewrite run_qbind, run_st by reflexivity. cbn [w_st set_ix set_next set_lock]. change (c_storage ch) with (TiKvStorage []).
    destruct (write_ok (TiKvStorage []) (w_st w) T n p Hst Hidok Hp) as (r & s' & Ew & Er & H').
    rewrite Ew. cbn [fst snd]. rewrite (later_keeps [] _ p (Hinc _)) in Er, H'.
    eexists (ks ++ [ls]), (append T n p), (later (T n) p), _. split; [reflexivity|]. rewrite Er.
    assert (K: forall w', trepi ixr (set_lock w' false (w_poisoned w')) (ks ++ [ls]) (append T n p) -> trepi ixr (set_lock w' false (w_poisoned w' || false)) (ks ++ [ls]) (append T n p))
      by (intros w'; rewrite Bool.orb_false_r; auto).
    assert (LE: (length (ks ++ [ls]) <= S (length ks))%nat) by (rewrite app_length; cbn [length]; lia).
    destruct (later (T n) p) eqn:LT; cbn [run is_panic].
    all: split; [reflexivity|]; split; [|split; [reflexivity|exact LE]]; apply K.
    all: cbn [set_lock w_poisoned set_st set_ix w_st w_ix w_next w_closed w_faults set_next].
    all: constructor; cbn [w_st w_ix w_next w_locked w_poisoned w_faults]; try assumption; try reflexivity.
    all: try (now apply append_inc); try (now apply distinct_snoc).
    all: try (unfold kregs; rewrite seen_app; cbn [seen]; rewrite regs_snoc, seen_length; cbn [fst]; fold n; exact Hrep).
    all: try (rewrite app_length; cbn [length]; transitivity (wrapu 64 (n + 1)); [reflexivity|]; unfold n; f_equal; lia).
    all: eapply holds_ext; [|exact H']; intros i; cbn beta; unfold append; rewrite LT; reflexivity.
Qed.

Lemma insert_trep ii lo hi w ks T ls p : let ch := mkChunk (TiKvStorage []) (TiKvIndexer ii) lo hi in
  trep ii w ks T -> set_ok ls -> tp_ok p -> Z.of_nat (length ks) + 1 < 2 ^ 64 ->
  exists ks' T' ok w', put ch (ks, T) ls p = ((ks', T'), ok) /\
    crun ch (chunk_insert ch ls p) w = Some (put_res ch p ok, w') /\ trep ii w' ks' T' /\ w_closed w' = w_closed w /\
    (length ks' <= S (length ks))%nat.
Proof. apply (insert_trepi (TiKvIndexer ii)). Qed.

(** ** over the shared store *)
Lemma trep_view ii v w ks T : view (pkey []) (xkey ii) v w -> trep ii w ks T -> trep ii (twice v) ks T.
Proof.
  intros [V1 V2 V3 V4 V5 V6 V7] [C1 C2 C3 C4 C5 C6 C7 C8]. constructor; destruct v as [vs vx vn vc vl vp vf]; cbn in *; try congruence; try assumption.
  - apply (rep_agree ii (w_ix w)); [|assumption]. intros r. apply V2. now exists r.
  - apply (holds_agree [] (w_st w)); [|assumption]. intros id _. apply V1. now exists id.
Qed.
Lemma insert_shared ii lo hi v ks T ls p : let ch := mkChunk (TiKvStorage []) (TiKvIndexer ii) lo hi in
  (8 < length ii)%nat -> trep ii (twice v) ks T -> set_ok ls -> tp_ok p -> Z.of_nat (length ks) + 1 < 2 ^ 64 ->
  exists ks' T' ok v', put ch (ks, T) ls p = ((ks', T'), ok) /\
    run (shandler ch) (chunk_insert ch ls p) v = Some (put_res ch p ok, v') /\ trep ii (twice v') ks' T' /\ w_closed v' = w_closed v /\
    (forall k, length k <> 8%nat -> ~ xkey ii k -> kv_get (w_st v') k = kv_get (w_st v) k) /\
    (length ks' <= S (length ks))%nat.
Proof.
  intros ch Li R Hls Hp HL. destruct (insert_trep ii lo hi (twice v) ks T ls p R Hls Hp HL) as (ks' & T' & ok & w' & E1 & E2 & R' & C & LE).
  exists ks', T', ok. fold ch in E1, E2.
  pose proof (view_run [] ii lo hi (pkey []) (xkey ii) (chunk_insert ch ls p) (keys_apart ii Li) (insert_uses [] ii lo hi ls p) v (twice v) (view_self _ _ v)) as W.
  fold ch in W. unfold crun in E2. rewrite E2 in W. destruct W as (v1 & Ev & V1 & N1). exists v1. split; [exact E1|]. split; [exact Ev|].
  split; [eapply trep_view; eassumption|]. split; [rewrite (vw_closed _ _ _ _ V1), C; destruct v; reflexivity|]. split; [|exact LE].
  intros k H1 H2. apply N1; [|exact H2]. intros (id & ->). apply H1. cbn [app]. apply length_be_bytes.
Qed.
(* reading *)
Lemma trep_crq si ii lo hi s x c T : rep (TiKvIndexer ii) s (kregs c) -> holds_series (TiKvStorage []) s T -> distinct c -> Z.of_nat (length c) < 2 ^ 64 ->
  (c <> [] -> si = []) -> w_locked x = false -> w_poisoned x = false -> w_faults x = [] ->
  crq (mkChunk (TiKvStorage si) (TiKvIndexer ii) lo hi) (twice (enter s x)) (seen 1 c T).
Proof.
  intros H1 H2 H3 H4 H5 H6 H7 H8. constructor; destruct x as [xs xx xn xc xl xp xf]; cbn [twice enter set_st set_ix w_st w_ix w_locked w_poisoned w_faults c_storage c_indexer] in *; try assumption.
  - now rewrite kregs_any.
  - intros id Hid. rewrite seen_length in Hid. assert (si = []) as -> by (apply H5; destruct c; [cbn in Hid; lia|discriminate]).
    rewrite seen_pts by assumption. apply H2. lia.
  - apply distinct_wfc; [assumption|]. intros id Hid. apply H2. lia.
Qed.
