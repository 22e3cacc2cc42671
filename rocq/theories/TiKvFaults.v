(* Proofs: inserts that poison a chunk, are filed under another series, or are dropped. *)
From Coq Require Import ZifyBool ZifyNat Permutation.
From Verif Require Import Rust StringProofs BitsProofs Prog Gorilla GorillaSpec Storage StorageSpec StorageProofs Labels IndexSpec Indexer
  LabelProofs IndexProofs Chunk ChunkSpec ChunkProofs ChunkFacts TiKvSpec.

Lemma R_key l : encode_labels [R_label l] true = encode_label l.
Proof.
  unfold encode_labels, encode_label. cbn [sort_labels fold_right insert_label map concat_bytes concat].
  rewrite app_nil_r. rewrite removelast_last. reflexivity.
Qed.

(** ** presence *)
Lemma add_present st A ls p : set_ok ls -> Forall (fun e => set_ok (fst e)) A ->
  (exists x, In x (add_point st A ls p) /\ same_set (fst x) ls) /\
  (forall x, In x A -> exists y, In y (add_point st A ls p) /\ fst y = fst x).
Proof.
  intros Hls. induction A as [|[l pts] A IH]; intros F; cbn [add_point].
  - split; [exists (ls, [p]); split; [now left|apply Permutation_refl]|intros ? []].
  - apply Forall_cons_iff in F as [F1 F2]. cbn [fst] in F1. destruct (same_setb l ls) eqn:Q.
    + split.
      * eexists (l, _). split; [now left|]. cbn [fst]. apply same_setb_spec in Q; [assumption|apply F1|apply Hls].
      * intros x [<-|Hx]; [eexists (l, _); split; [now left|reflexivity]|exists x; split; [now right|reflexivity]].
    + destruct (IH F2) as [(x & H1 & H2) H3]. split; [exists x; split; [now right|assumption]|].
      intros y [<-|Hy]; [eexists (l, pts); split; [now left|reflexivity]|]. destruct (H3 y Hy) as (z & Hz & E). exists z. split; [now right|assumption].
Qed.
Lemma content_present ch h : Forall ireq_ok h -> forall ls p, In (ls, p) h -> in_window ch (tp_ts p) ->
  exists x, In x (content_of ch h) /\ same_set (fst x) ls.
Proof.
  induction h as [|[l q] h IH] using rev_ind; intros H ls p Hin Hw; [destruct Hin|].
  apply Forall_app in H as [H1 H2]. inversion H2 as [|? ? [Hl Hq] _]; subst. cbn [fst snd] in *.
  assert (F: Forall (fun e => set_ok (fst e)) (content_of ch h)).
  { rewrite Forall_forall. intros [l' pts] Hx. now apply (content_sound ch h H1) in Hx as [Hx _]. }
  unfold content_of. rewrite fold_left_app. cbn [fold_left]. fold (content_of ch h). unfold ins. cbn [fst snd].
  destruct (add_present (c_storage ch) (content_of ch h) l q Hl F) as [A1 A2].
  apply in_app_or in Hin as [Hin|[Q|[]]].
  - destruct (IH H1 ls p Hin Hw) as (x & X1 & X2). destruct (in_windowb ch (tp_ts q)); [|eauto].
    destruct (A2 x X1) as (y & Y1 & Y2). exists y. split; [assumption|]. now rewrite Y2.
  - assert (ls = l) as -> by congruence. assert (p = q) as -> by congruence.
    apply in_window_spec in Hw. rewrite Hw. exact A1.
Qed.

(** ** poisoning *)
Lemma enc_ids_len i ids : length (enc_ids (TiKvIndexer i) ids) = (8 * length ids)%nat.
Proof. cbn [enc_ids]. induction ids as [|x ids IH]; [reflexivity|]. cbn [map concat]. rewrite app_length, IH, length_be_bytes. cbn [length]. lia. Qed.

Lemma find_R ch i w A l : crep ch w A -> c_indexer ch = TiKvIndexer i -> lab_ok l ->
  krun (series_id_by_labels (c_indexer ch) [R_label l]) (w_ix w) =
  (match ids_of (regs A) l with
   | [] => Ok None
   | ids => rmap Some (id_of_bytes (enc_ids (TiKvIndexer i) ids))
   end, w_ix w).
Proof.
  intros C E Hl. pose proof (cr_ix _ _ _ C) as (_ & HR & _). rewrite E in *. cbn [series_id_by_labels]. unfold tikv_by_labels.
  rewrite (krun_qbind _ _ _ _ _ (krun_get _ _)), R_key. specialize (HR l Hl). unfold rkey, pfx in HR. rewrite HR.
  destruct (ids_of (regs A) l); reflexivity.
Qed.

Lemma two_ids A l x y : In x A -> In y A -> x <> y -> In l (fst x) -> In l (fst y) -> (2 <= length (ids_of (regs A) l))%nat.
Proof.
  intros Hx Hy N Lx Ly. unfold ids_of. rewrite map_length. unfold regs. 
  assert (G: forall A n, In x A -> In y A -> (2 <= length (filter (fun e => has (snd e) l) (map (fun e => (fst e, fst (snd e))) (numbered n A))))%nat).
  { assert (One: forall z A n, In z A -> In l (fst z) -> (1 <= length (filter (fun e => has (snd e) l) (map (fun e => (fst e, fst (snd e))) (numbered n A))))%nat).
    { intros z. clear - z. intros A. induction A as [|a A IH]; intros n Hz Hl; [destruct Hz|]. cbn [numbered map filter fst snd].
      destruct Hz as [->|Hz]; [assert (has (fst z) l = true) as -> by (now apply has_In); cbn [length]; lia|]. specialize (IH (n + 1) Hz Hl).
      destruct (has (fst a) l); cbn [length]; lia. }
    clear A Hx Hy. induction A as [|a A IH]; intros n Hx Hy; [destruct Hx|]. cbn [numbered map filter fst snd].
    destruct Hx as [->|Hx].
    - assert (has (fst x) l = true) as -> by (now apply has_In). cbn [length]. destruct Hy as [->|Hy]; [contradiction|]. specialize (One y A (n + 1) Hy Ly). lia.
    - destruct Hy as [->|Hy].
      + assert (has (fst y) l = true) as -> by (now apply has_In). cbn [length]. specialize (One x A (n + 1) Hx Lx). lia.
      + specialize (IH (n + 1) Hx Hy). destruct (has (fst a) l); cbn [length]; lia. }
  now apply G.
Qed.

Lemma poisoned_forever ch w : w_locked w = false -> w_poisoned w = true ->
  (forall ls p, exists w', crun ch (chunk_insert ch ls p) w = Some (Panic, w') /\ w_locked w' = false /\ w_poisoned w' = true) /\
  (forall bs o q s e, crun ch (chunk_query ch bs o q s e) w = Some (Panic, w)) /\
  (exists w', crun ch chunk_close w = Some (Panic, w') /\ w_locked w' = false /\ w_poisoned w' = true).
Proof.
  intros L P. split; [|split].
  - intros ls p. unfold crun, chunk_insert, with_write_lock. rewrite run_bind. cbn [run call chandler]. rewrite L, P. cbn beta iota.
    rewrite run_bind. cbn [run call chandler]. eexists. split; [reflexivity|]. split; reflexivity.
  - intros bs o q s e. unfold crun, chunk_query. rewrite run_bind. cbn [run call chandler]. rewrite L, P. reflexivity.
  - unfold crun, chunk_close, with_write_lock. rewrite run_bind. cbn [run call chandler]. rewrite L, P. cbn beta iota.
    rewrite run_bind. cbn [run call chandler]. eexists. split; [reflexivity|]. split; reflexivity.
Qed.

Theorem R_poisons ch i h l ls1 p1 ls2 p2 p : c_indexer ch = TiKvIndexer i -> Forall ireq_ok h -> Z.of_nat (length h) < 2 ^ 64 ->
  lab_ok l -> In (ls1, p1) h -> In (ls2, p2) h -> In l ls1 -> In l ls2 -> ~ same_set ls1 ls2 ->
  in_window ch (tp_ts p1) -> in_window ch (tp_ts p2) -> in_window ch (tp_ts p) ->
  exists w w', after ch h = Some w /\ crun ch (chunk_insert ch [R_label l] p) w = Some (Panic, w') /\
    w_st w' = w_st w /\ w_ix w' = w_ix w /\ w_locked w' = false /\ w_poisoned w' = true.
Proof.
  intros Ei Hh HL Hl I1 I2 L1 L2 NS W1 W2 W. destruct (after_content ch h Hh HL) as (w & Ew & R). exists w.
  destruct (content_present ch h Hh _ _ I1 W1) as (x & X1 & X2). destruct (content_present ch h Hh _ _ I2 W2) as (y & Y1 & Y2).
  assert (T: (2 <= length (ids_of (regs (content_of ch h)) l))%nat).
  { apply (two_ids _ l x y X1 Y1).
    - intros ->. apply NS. eapply Permutation_trans; [apply Permutation_sym; exact X2|exact Y2].
    - eapply Permutation_in; [apply Permutation_sym; exact X2|assumption].
    - eapply Permutation_in; [apply Permutation_sym; exact Y2|assumption]. }
  unfold crun, chunk_insert. rewrite with_lock_run by apply R. unfold insert_body, is_in_range. fold (in_windowb ch (tp_ts p)).
  apply in_window_spec in W. rewrite W. cbn [negb]. rewrite run_qbind, run_ix by (cbn; apply R). cbn [w_ix set_lock].
  rewrite (find_R ch i w _ l R Ei Hl). cbn [fst snd].
  destruct (ids_of (regs (content_of ch h)) l) as [|id [|id2 ids]] eqn:Q; [cbn in T; lia|cbn in T; lia|]. rewrite <- Q in *. clear id id2 ids Q.
  assert (id_of_bytes (enc_ids (TiKvIndexer i) (ids_of (regs (content_of ch h)) l)) = Panic) as ->.
  { unfold id_of_bytes. rewrite enc_ids_len. destruct (Nat.eqb_spec (8 * length (ids_of (regs (content_of ch h)) l)) 8); [lia|reflexivity]. }
  cbn [rmap]. eexists. split; [exact Ew|]. split; [reflexivity|]. cbn. auto.
Qed.

(** ** one series with the label: the point is filed there *)
Lemma content_origin ch h : Forall ireq_ok h -> forall x, In x (content_of ch h) ->
  exists ls p, In (ls, p) h /\ same_set ls (fst x) /\ in_window ch (tp_ts p).
Proof.
  intros Hh [ls pts] Hx. destruct (content_sound ch h Hh _ _ Hx) as [_ S1].
  pose proof (content_pts ch h Hh) as F. rewrite Forall_forall in F. destruct (F _ Hx) as [N _]. cbn [snd] in N.
  destruct pts as [|p pts]; [congruence|]. destruct (S1 p (or_introl eq_refl)) as (ls' & A & B & C). exists ls', p. auto.
Qed.

Lemma all_same_nodup (l : list Z) x : NoDup l -> In x l -> (forall y, In y l -> y = x) -> l = [x].
Proof.
  intros N I H. destruct l as [|a l]; [destruct I|]. assert (a = x) as -> by (apply H; now left). f_equal.
  destruct l as [|b l]; [reflexivity|]. exfalso. apply NoDup_cons_iff in N as [N _]. apply N.
  assert (b = x) as -> by (apply H; right; now left). now left.
Qed.

Lemma nth_at {X} (A1 : list X) x A2 : nth_error (A1 ++ x :: A2) (length A1) = Some x.
Proof. rewrite nth_error_app2, Nat.sub_diag by lia. reflexivity. Qed.

Lemma insert_found ch w A ls ls' p id : crep ch w A ->
  krun (series_id_by_labels (c_indexer ch) ls) (w_ix w) = (Ok (Some id), w_ix w) ->
  krun (series_id_by_labels (c_indexer ch) ls') (w_ix w) = (Ok (Some id), w_ix w) ->
  crun ch (chunk_insert ch ls p) w = crun ch (chunk_insert ch ls' p) w.
Proof.
  intros R E1 E2. unfold crun, chunk_insert. rewrite !with_lock_run by apply R. unfold insert_body.
  destruct (negb _); [reflexivity|]. rewrite !run_qbind, !run_ix by (cbn; apply R). cbn [w_ix set_lock]. rewrite E1, E2. reflexivity.
Qed.

Theorem R_misfiled ch i h l ls1 p1 p : c_indexer ch = TiKvIndexer i -> Forall ireq_ok h -> Z.of_nat (length h) < 2 ^ 64 ->
  lab_ok l -> In (ls1, p1) h -> In l ls1 -> in_window ch (tp_ts p1) ->
  (forall ls2 p2, In (ls2, p2) h -> In l ls2 -> in_window ch (tp_ts p2) -> same_set ls2 ls1) ->
  exists w, after ch h = Some w /\ crun ch (chunk_insert ch [R_label l] p) w = crun ch (chunk_insert ch ls1 p) w.
Proof.
  intros Ei Hh HL Hl I1 L1 W1 U. destruct (after_content ch h Hh HL) as (w & Ew & R). exists w. split; [assumption|].
  pose proof (content_wf ch h Hh) as W. pose proof (content_length ch h) as LC.
  assert (Hls: set_ok ls1). { rewrite Forall_forall in Hh. now apply Hh in I1 as [? _]. }
  pose proof (by_labels_run _ _ _ ls1 (cr_ix _ _ _ R) (regs_ids_ok (content_of ch h) ltac:(lia)) Hls) as F.
  pose proof (lookup_pos _ ls1 W Hls) as P. destruct (lookup_set (regs (content_of ch h)) ls1) as [e|] eqn:E.
  2:{ exfalso. destruct (content_present ch h Hh _ _ I1 W1) as (x & X1 & X2). specialize (P x X1).
      apply same_setb_spec in X2; [congruence| |apply Hls]. now apply (wf_keys _ x W). }
  destruct P as (A1 & pts & A2 & EA & Hid & Q & _). cbn [option_map] in F.
  assert (IE: In (snd e, pts) (content_of ch h)) by (rewrite EA; apply in_app_iff; right; now left).
  assert (Ke: keys_distinct (snd e)) by (now apply (wf_keys _ _ W IE)).
  apply same_setb_spec in Q; [|assumption|apply Hls].
  assert (Ide: id_ok (fst e)). { unfold id_ok. assert (length A1 < length (content_of ch h))%nat by (rewrite EA, app_length; cbn; lia). lia. }
  assert (O: ids_of (regs (content_of ch h)) l = [fst e]).
  { apply all_same_nodup.
    - apply asc_NoDup. apply asc_filter. apply regs_asc.
    - unfold ids_of. apply in_map. apply filter_In. split.
      + apply find_some in E as [E _]. now apply in_rev in E.
      + apply has_In. eapply Permutation_in; [apply Permutation_sym; exact Q|assumption].
    - intros y Hy. unfold ids_of in Hy. apply in_map_iff in Hy as (z & <- & Hz). apply filter_In in Hz as [Hz Hzl]. apply has_In in Hzl.
      apply regs_In in Hz as (j & ptz & Hz1 & Hz2). destruct (content_origin ch h Hh (snd z, ptz)) as (ls2 & p2 & J1 & J2 & J3); [eapply nth_error_In; exact Hz1|].
      cbn [fst] in J2. assert (In l ls2) as Jl by (eapply Permutation_in; [apply Permutation_sym; exact J2|assumption]).
      specialize (U _ _ J1 Jl J3). rewrite Hz2, Hid. do 2 f_equal.
      eapply (wf_distinct _ W j (length A1) (snd z, ptz) (snd e, pts)); [assumption|rewrite EA; apply nth_at|]. cbn [fst].
      eapply Permutation_trans; [apply Permutation_sym; exact J2|]. eapply Permutation_trans; [exact U|now apply Permutation_sym]. }
  pose proof (find_R ch i w _ l R Ei Hl) as G. rewrite O in G. cbn [enc_ids map concat] in G. rewrite app_nil_r, id_of_be in G by assumption. cbn [rmap] in G.
  exact (insert_found ch w _ _ _ p _ R G F).
Qed.

(** ** acknowledged and not stored *)
Lemma by_labels_failing ch ls w fs : 
  run (chandler ch) (lift (@CIx) (series_id_by_labels (c_indexer ch) ls)) (set_lock (failing w (Works :: fs)) true false) =
  Some (fst (krun (series_id_by_labels (c_indexer ch) ls) (w_ix w)), set_lock (failing w fs) true false).
Proof. destruct (c_indexer ch); reflexivity. Qed.

Lemma known_set ch h w ls p : Forall ireq_ok h -> Z.of_nat (length h) < 2 ^ 64 -> crep ch w (content_of ch h) -> In (ls, p) h -> in_window ch (tp_ts p) ->
  exists e A1 pts A2, krun (series_id_by_labels (c_indexer ch) ls) (w_ix w) = (Ok (Some (fst e)), w_ix w) /\ content_of ch h = A1 ++ (snd e, pts) :: A2 /\
    fst e = 1 + Z.of_nat (length A1) /\ same_setb (snd e) ls = true /\ (forall x, In x A1 -> same_setb (fst x) ls = false) /\ id_ok (fst e) /\
    pts_of (content_of ch h) (fst e) = pts.
Proof.
  intros Hh HL R I1 W1. pose proof (content_wf ch h Hh) as W. pose proof (content_length ch h) as LC.
  assert (Hls: set_ok ls). { rewrite Forall_forall in Hh. now apply Hh in I1 as [? _]. }
  pose proof (by_labels_run _ _ _ ls (cr_ix _ _ _ R) (regs_ids_ok (content_of ch h) ltac:(lia)) Hls) as F.
  pose proof (lookup_pos _ ls W Hls) as P. destruct (lookup_set (regs (content_of ch h)) ls) as [e|] eqn:E.
  2:{ exfalso. destruct (content_present ch h Hh _ _ I1 W1) as (x & X1 & X2). specialize (P x X1).
      apply same_setb_spec in X2; [congruence| |apply Hls]. now apply (wf_keys _ x W). }
  destruct P as (A1 & pts & A2 & EA & Hid & Q & N). exists e, A1, pts, A2. do 5 (split; [assumption|]). split.
  - unfold id_ok. assert (length A1 < length (content_of ch h))%nat by (rewrite EA, app_length; cbn; lia). lia.
  - rewrite EA, (pts_of_at A1 (snd e) [] A2 pts). now rewrite (proj2 (Z.eqb_eq _ _) Hid).
Qed.


Lemma keeps_last i pts p : (exists x, In x pts /\ tp_ts p <= tp_ts x) -> increasing pts -> keeps (TiKvStorage i) pts p = false.
Proof.
  intros (x & Hx & L) I. cbn [keeps]. destruct pts as [|q pts]; [destruct Hx|].
  pose proof (increasing_last (q :: pts) q x I Hx) as H. destruct (Z.ltb_spec (tp_ts (last (q :: pts) q)) (tp_ts p)); [|reflexivity].
  exfalso. lia.
Qed.

(* the storage write of a chunk that has the series, whatever its store does *)
Lemma write_failing ch w A id p fs : crep ch w A -> id_ok id -> tp_ok p -> pts_of A id <> [] ->
  exists r w', run (chandler ch) (lift (@CSt) (write_time_point (c_storage ch) id (tp_ts p) (tp_val p))) (set_lock (failing w fs) true false) = Some (r, w') /\
    r <> Panic /\ w_ix w' = w_ix w /\ w_poisoned w' = false /\
    ((exists fs', fs = FailsClean :: fs' \/ fs = Works :: FailsClean :: fs') -> w_st w' = w_st w).
Proof.
  intros R Hid Hp N. destruct (cr_st _ _ _ R id) as [F G]; [unfold id_ok in Hid; lia|].
  destruct (pts_of A id) as [|q pts]; [congruence|]. clear N.
  destruct (c_storage ch) as [|i] eqn:S1; cbn [write_time_point series_key] in *.
  - unfold sled_write. cbn [lift qbind bind call run]. unfold chandler at 1. rewrite S1. cbn [kv_fault_handler w_st w_faults failing set_lock set_st].
    destruct fs as [|[] fs]; cbn [hd tl run lift bind]; rewrite ?G; cbn [run lift bind call].
    + unfold chandler at 1. rewrite S1. cbn. eexists _, _. split; [reflexivity|]. repeat split; try discriminate. intros (? & [|]); discriminate.
    + unfold chandler at 1. rewrite S1. cbn [kv_fault_handler w_st w_faults failing set_lock set_st].
      destruct fs as [|[] fs]; cbn; eexists _, _; (split; [reflexivity|]); repeat split; try discriminate; intros (? & [|]); discriminate.
    + eexists _, _. split; [reflexivity|]. repeat split; discriminate.
    + eexists _, _. split; [reflexivity|]. repeat split; discriminate.
  - unfold tikv_write. cbn [lift qbind bind call run]. unfold chandler at 1. rewrite S1. cbn [kv_fault_handler w_st w_faults failing set_lock set_st].
    pose proof (enc_series_len (q :: pts)) as Hlen.
    assert (Hlast: tp_ok (last (q :: pts) q)).
    { rewrite Forall_forall in F. apply F. destruct (@exists_last _ (q :: pts)) as (l' & x & E); [congruence|]. rewrite E, last_last. apply in_app_iff. right. now left. }
    assert (D: decode_time_point (skipn (length (enc_series (q :: pts)) - 16) (enc_series (q :: pts))) = Ok (last (q :: pts) q)).
    { rewrite (skipn_last_enc _ (q :: pts) q) by (congruence || reflexivity). rewrite decode_encode by apply Hlast. now destruct (last (q :: pts) q). }
    assert (B: (length (enc_series (q :: pts)) <? 16)%nat = false) by (cbn [length] in Hlen; lia).
    destruct fs as [|[] fs]; cbn [hd tl run lift bind]; rewrite ?G; cbn [run lift bind call]; rewrite ?B, ?D.
    + destruct (tp_ts p <=? _); cbn [run lift bind call].
      * eexists _, _. split; [reflexivity|]. repeat split; try discriminate.
      * unfold chandler at 1. rewrite S1. cbn. eexists _, _. split; [reflexivity|]. repeat split; try discriminate. intros (? & [|]); discriminate.
    + destruct (tp_ts p <=? _); cbn [run lift bind call].
      * eexists _, _. split; [reflexivity|]. repeat split; try discriminate.
      * unfold chandler at 1. rewrite S1. cbn [kv_fault_handler w_st w_faults failing set_lock set_st].
        destruct fs as [|[] fs]; cbn; eexists _, _; (split; [reflexivity|]); repeat split; try discriminate; intros (? & [|]); discriminate.
    + eexists _, _. split; [reflexivity|]. repeat split; discriminate.
    + eexists _, _. split; [reflexivity|]. repeat split; discriminate.
Qed.

Theorem acked ch h ls p0 p fs : Forall ireq_ok h -> Z.of_nat (length h) < 2 ^ 64 -> tp_ok p ->
  In (ls, p0) h -> in_window ch (tp_ts p0) -> in_window ch (tp_ts p) ->
  exists w w', after ch h = Some w /\ crun ch (chunk_insert ch ls p) (failing w (Works :: fs)) = Some (Ok tt, w') /\ w_ix w' = w_ix w /\
    ((exists fs', fs = FailsClean :: fs' \/ fs = Works :: FailsClean :: fs') -> w_st w' = w_st w).
Proof.
  intros Hh HL Hp I0 W0 W. destruct (after_content ch h Hh HL) as (w & Ew & R).
  destruct (known_set ch h w ls p0 Hh HL R I0 W0) as (e & A1 & pts & A2 & F & EA & Hid & Q & N & Ide & Ep).
  assert (NE: pts <> []).
  { pose proof (content_pts ch h Hh) as X. rewrite EA in X. apply Forall_app in X as [_ X]. apply Forall_cons_iff in X as [[X _] _]. exact X. }
  rewrite <- Ep in NE. destruct (write_failing ch w _ (fst e) p fs R Ide Hp NE) as (r & w' & E & NP & X1 & X2 & X3).
  exists w. unfold crun, chunk_insert. rewrite with_lock_run; [|cbn; apply R|cbn; apply R].
  unfold insert_body, is_in_range. fold (in_windowb ch (tp_ts p)). apply in_window_spec in W. rewrite W. cbn [negb].
  rewrite run_qbind, by_labels_failing, F. cbn [fst]. rewrite run_bind, E. cbn [run].
  eexists. split; [exact Ew|]. split; [destruct r; [reflexivity|reflexivity|congruence]|]. split; [exact X1|exact X3].
Qed.

Lemma add_bound i A ls p : set_ok ls -> Forall (fun e => set_ok (fst e)) A ->
  exists ls' pts y, In (ls', pts) (add_point (TiKvStorage i) A ls p) /\ same_set ls' ls /\ In y pts /\ tp_ts p <= tp_ts y.
Proof.
  intros Hls. induction A as [|[l pts] A IH]; intros F; cbn [add_point].
  - exists ls, [p], p. split; [now left|]. split; [apply Permutation_refl|]. split; [now left|lia].
  - apply Forall_cons_iff in F as [F1 F2]. cbn [fst] in F1. destruct (same_setb l ls) eqn:Q.
    + apply same_setb_spec in Q; [|apply F1|apply Hls]. destruct (keeps (TiKvStorage i) pts p) eqn:K.
      * exists l, (pts ++ [p]), p. split; [now left|]. split; [assumption|]. split; [apply in_app_iff; right; now left|lia].
      * cbn [keeps] in K. destruct pts as [|q pts]; [discriminate|]. exists l, (q :: pts), (last (q :: pts) q). split; [now left|]. split; [assumption|].
        split; [|lia]. destruct (@exists_last _ (q :: pts)) as (l' & x & E); [congruence|]. rewrite E, last_last. apply in_app_iff. right. now left.
    + destruct (IH F2) as (a & b & c & H1 & H2). exists a, b, c. split; [now right|assumption].
Qed.
Lemma content_bound ch i h : c_storage ch = TiKvStorage i -> Forall ireq_ok h -> forall ls p, In (ls, p) h -> in_window ch (tp_ts p) ->
  exists ls' pts y, In (ls', pts) (content_of ch h) /\ same_set ls' ls /\ In y pts /\ tp_ts p <= tp_ts y.
Proof.
  intros Es. induction h as [|[l q] h IH] using rev_ind; intros H ls p Hin Hw; [destruct Hin|].
  apply Forall_app in H as [H1 H2]. apply Forall_cons_iff in H2 as [[Hl Hq] _]. cbn [fst snd] in *.
  pose proof (wf_sets _ (content_wf ch h H1)) as F.
  unfold content_of. rewrite fold_left_app. cbn [fold_left]. fold (content_of ch h). unfold ins. cbn [fst snd].
  apply in_app_or in Hin as [Hin|[Q|[]]].
  - destruct (IH H1 ls p Hin Hw) as (a & b & y & X1 & X2 & X3 & X4). destruct (in_windowb ch (tp_ts q)); [|exists a, b, y; auto].
    destruct (add_mono (c_storage ch) _ l q _ _ y X1 X3) as (b' & Y1 & Y2). exists a, b', y. auto.
  - assert (ls = l) as -> by congruence. assert (p = q) as -> by congruence.
    apply in_window_spec in Hw. rewrite Hw, Es. now apply add_bound.
Qed.

Theorem stale_dropped ch i h ls p0 p : c_storage ch = TiKvStorage i -> Forall ireq_ok h -> Z.of_nat (length h) + 1 < 2 ^ 64 -> tp_ok p ->
  In (ls, p0) h -> in_window ch (tp_ts p0) -> in_window ch (tp_ts p) -> tp_ts p <= tp_ts p0 ->
  exists w w', after ch h = Some w /\ crun ch (chunk_insert ch ls p) w = Some (Ok tt, w') /\
    forall bs o q s e, Forall lab_ok q ->
      option_map fst (crun ch (chunk_query ch bs o q s e) w') = option_map fst (crun ch (chunk_query ch bs o q s e) w).
Proof.
  intros Es Hh HL Hp I0 W0 W Hle. destruct (after_content ch h Hh ltac:(lia)) as (w & Ew & R). pose proof (content_length ch h) as LC.
  assert (Hls: set_ok ls). { rewrite Forall_forall in Hh. now apply Hh in I0 as [? _]. }
  pose proof (insert_run ch w _ ls p R Hls Hp ltac:(lia)) as I. apply in_window_spec in W. rewrite W in I. destruct I as (w' & E & R' & _).
  exists w, w'. split; [exact Ew|]. split; [exact E|]. intros bs o q s e Hq.
  destruct (known_set ch h w ls p0 Hh ltac:(lia) R I0 W0) as (x & A1 & pts & A2 & F & EA & Hid & Q & N & Ide & Ep).
  assert (add_point (c_storage ch) (content_of ch h) ls p = content_of ch h) as X.
  { rewrite EA, add_at by assumption. rewrite Es. rewrite keeps_last; [reflexivity| |].
    - assert (Hx: exists y, In y pts /\ tp_ts p0 <= tp_ts y).
      { destruct (content_bound ch i h Es Hh _ _ I0 W0) as (a & b & y & X1 & X2 & X3 & X4).
        assert (IE: In (snd x, pts) (content_of ch h)) by (rewrite EA; apply in_app_iff; right; now left).
        pose proof (content_wf ch h Hh) as Wf.
        apply same_setb_spec in Q; [|now apply (wf_keys _ _ Wf IE)|apply Hls].
        assert (NX: nth_error (content_of ch h) (length A1) = Some (snd x, pts)) by (rewrite EA; apply nth_at).
        apply In_nth_error in X1 as (j & Hj).
        assert (j = length A1) as Ej.
        { eapply (wf_distinct _ Wf j (length A1) _ _ Hj NX). cbn [fst]. eapply Permutation_trans; [exact X2|now apply Permutation_sym]. }
        rewrite Ej in Hj. assert (b = pts) as -> by congruence. exists y. auto. }
      destruct Hx as (y & Hy & L). exists y. split; [assumption|lia].
    - pose proof (tikv_content_increasing ch i h Es) as I. unfold all_increasing in I. rewrite Forall_forall in I. 
      apply (I (snd x, pts)). rewrite EA. apply in_app_iff. right. now left. }
  rewrite X in R'. rewrite (query_run _ bs o _ _ q s e R') by (try assumption; lia). rewrite (query_run _ bs o _ _ q s e R) by (try assumption; lia). reflexivity.
Qed.
