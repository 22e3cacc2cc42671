(* C22 without order assumptions, and what a crash during an insert leaves behind. *)
From Coq Require Import ZifyBool ZifyNat Permutation.
From Verif Require Import Rust Prog Gorilla GorillaSpec Storage StorageSpec StorageProofs Labels Indexer IndexSpec
  LabelProofs Chunk ChunkSpec ChunkProofs ChunkFacts ConcSpec Conc.
Ltac Zify.zify_post_hook ::= Z.div_mod_to_equations.

Lemma points_pair pts : points_of 0 (map (pair 0) pts) = pts.
Proof. unfold points_of. induction pts as [|p l IH]; [reflexivity|]. cbn. now rewrite IH. Qed.
Lemma accepted_all l : forall kept, increasing (kept ++ l) -> accepted l kept = kept ++ l.
Proof.
  induction l as [|p l IH]; intros kept H; cbn [accepted]; [now rewrite app_nil_r|].
  assert (E: match kept with [] => [p] | q :: _ => if tp_ts (last kept q) <? tp_ts p then kept ++ [p] else kept end = kept ++ [p]).
  { destruct kept as [|q k]; [reflexivity|]. assert (tp_ts (last (q :: k) q) < tp_ts p); [|replace (_ <? _) with true by lia; reflexivity].
    assert (L: In (last (q :: k) q) (q :: k)).
    { destruct (@exists_last _ (q :: k)) as (a & b & F); [discriminate|]. rewrite F, last_last. apply in_app_iff. right. now left. }
    revert L H. generalize (last (q :: k) q) as z. generalize (q :: k) as K. clear. induction K as [|x K IH]; intros z L H; [contradiction|]. destruct L as [->|L]; destruct H as [H1 H2].
    - rewrite Forall_forall in H1. apply H1. apply in_app_iff. right. now left.
    - now apply IH. }
  rewrite E, IH by (rewrite <- app_assoc; exact H). now rewrite <- app_assoc.
Qed.
Lemma stored_reader st bs s e pts : Forall tp_ok pts -> (forall i, st = TiKvStorage i -> increasing pts) ->
  stored_read st bs s e pts = reader bs s e pts.
Proof.
  intros H Hi. unfold stored_read.
  assert (A: Forall app_ok (map (pair 0) pts)).
  { rewrite Forall_forall in *. intros a Ha. apply in_map_iff in Ha as (p & <- & Hp). split; cbn [fst snd]; [lia|auto]. }
  destruct st as [|ident].
  - rewrite (read_series_reader _ bs _ _ _ _ _ (sled_holds _ A)) by lia. cbn [fst]. now rewrite points_pair.
  - rewrite (read_series_reader _ bs _ _ _ _ _ (tikv_holds ident _ A)) by lia. cbn [fst]. rewrite points_pair.
    rewrite accepted_all; [reflexivity|]. exact (Hi ident eq_refl).
Qed.
Theorem chunk_refines_any ch bs o h q s e : Forall ireq_ok h -> Z.of_nat (length h) < 2 ^ 64 -> Forall lab_ok q ->
  exists w, after ch h = Some w /\
    crun ch (chunk_query ch bs o q s e) w =
    Some (if (e <? c_start ch) || (c_end ch <? s) then Err (OutOfRangeErr (c_start ch) (c_end ch))
          else collect (stored_read (c_storage ch) bs s e) (matching (content_of ch h) q), w).
Proof.
  intros H L Hq. destruct (after_content ch h H L) as (w & Ew & R). exists w. split; [assumption|].
  pose proof (content_length ch h). rewrite (query_run ch bs o w (content_of ch h)) by (assumption || lia).
  destruct (_ || _); [reflexivity|]. do 2 f_equal. apply collect_ext.
  intros x Hx. apply matching_pts in Hx as (_ & _ & Hin & _). symmetry. apply stored_reader.
  - pose proof (content_pts ch h H) as F. rewrite Forall_forall in F. now apply F.
  - intros i Ei. pose proof (tikv_content_increasing ch i h Ei) as F. unfold all_increasing in F. rewrite Forall_forall in F. now apply F.
Qed.

Lemma add_nth st A ls p i ls' pts : nth_error A i = Some (ls', pts) -> exists pts', nth_error (add_point st A ls p) i = Some (ls', pts') /\
  (pts' = pts \/ (pts' = pts ++ [p] /\ same_setb ls' ls = true)).
Proof.
  revert i. induction A as [|[l q] A IH]; intros [|i] H; try discriminate; cbn [add_point].
  - cbn in H. assert (l = ls') as -> by congruence. assert (q = pts) as -> by congruence.
    destruct (same_setb ls' ls) eqn:Q; [|exists pts; auto]. destruct (keeps st pts p); [exists (pts ++ [p])|exists pts]; split; try reflexivity; auto.
  - cbn [nth_error] in H. destruct (same_setb l ls); cbn [nth_error]; [exists pts; auto|]. now apply IH.
Qed.
Lemma after_snoc ch h r w w' : after ch h = Some w -> forall x, crun ch (chunk_insert ch (fst r) (snd r)) w = Some (x, w') ->
  after ch (h ++ [r]) = Some w'.
Proof.
  unfold after. generalize (new_world [] []). induction h as [|a h IH]; intros w0 Ew x E; cbn [after_from app] in *.
  - assert (w0 = w) as -> by congruence. now rewrite E.
  - destruct (crun ch (chunk_insert ch (fst a) (snd a)) w0) as [[y w1]|]; [|discriminate]. now apply (IH w1 Ew x).
Qed.

Theorem crash_store ch h r n : Forall ireq_ok h -> ireq_ok r -> Z.of_nat (length h) + 1 < 2 ^ 64 ->
  exists w w1, after ch h = Some w /\ after ch (h ++ [r]) = Some w1 /\
    let w' := snd (crash_at (chandler ch) n (chunk_insert ch (fst r) (snd r)) w) in
    w_st w' = w_st w \/ w_st w' = w_st w1.
Proof.
  intros H [Hls Hp] L. destruct (after_content ch h H ltac:(lia)) as (w & Ew & R). pose proof (content_length ch h) as CL.
  pose proof (insert_run ch w _ (fst r) (snd r) R Hls Hp ltac:(lia)) as I.
  assert (exists x w1, crun ch (chunk_insert ch (fst r) (snd r)) w = Some (x, w1)) as (x & w1 & E).
  { destruct (in_windowb _ _); [destruct I as (w1 & E & _)|]; eauto. }
  exists w, w1. split; [assumption|]. split; [eapply after_snoc; eassumption|].
  exact (insert_crash ch (fst r) (snd r) w n x w1 E).
Qed.

Theorem crash_points ch bs h r n id ls pts : bs_contract bs -> Forall ireq_ok h -> ireq_ok r -> Z.of_nat (length h) + 1 < 2 ^ 64 ->
  all_increasing (content_of ch (h ++ [r])) -> In (id, (ls, pts)) (numbered 1 (content_of ch h)) -> increasing pts ->
  exists w pts', after ch h = Some w /\
    (pts' = pts \/ (pts' = pts ++ [snd r] /\ same_set ls (fst r) /\ in_window ch (tp_ts (snd r)))) /\
    forall s e, s <= e ->
      fst (krun (read_time_series (c_storage ch) bs id s e) (w_st (snd (crash_at (chandler ch) n (chunk_insert ch (fst r) (snd r)) w)))) =
      read_spec pts' s e.
Proof.
  intros Hb H [Hls Hp] L Hinc Hin Hipts. destruct (crash_store ch h r n H (conj Hls Hp) L) as (w & w1 & Ew & Ew1 & C). cbv zeta in C.
  destruct (after_content ch h H ltac:(lia)) as (w0 & Ew0 & R). assert (w0 = w) as -> by congruence.
  destruct (after_content ch (h ++ [r])) as (w2 & Ew2 & R1).
  { apply Forall_app. split; [assumption|]. constructor; [split; assumption|constructor]. }
  { rewrite app_length. cbn [length]. lia. }
  assert (w2 = w1) as -> by congruence. pose proof (content_length ch h) as CL.
  destruct (numbered_In _ _ _ Hin) as (i & Hi & Hid). cbn [fst snd] in Hi, Hid.
  assert (Li: (i < length (content_of ch h))%nat) by (apply nth_error_Some; congruence).
  assert (Pt: forall A q, nth_error A i = Some (ls, q) -> pts_of A id = q).
  { intros A q Hq. unfold pts_of. replace (1 <=? id) with true by lia. replace (Z.to_nat (id - 1)) with i by lia. now rewrite Hq. }
  exists w. destruct C as [C|C]; rewrite C.
  - exists pts. split; [assumption|]. split; [now left|]. intros s e Hse.
    rewrite (read_series_reader _ bs _ _ _ _ _ (cr_st _ _ _ R)) by lia. cbn [fst]. rewrite (Pt _ _ Hi). now apply reader_spec.
  - assert (Ec: content_of ch (h ++ [r]) = ins ch (content_of ch h) r) by (unfold content_of; rewrite fold_left_app; reflexivity).
    assert (X: exists pts', nth_error (content_of ch (h ++ [r])) i = Some (ls, pts') /\
      (pts' = pts \/ (pts' = pts ++ [snd r] /\ same_set ls (fst r) /\ in_window ch (tp_ts (snd r))))).
    { rewrite Ec. unfold ins. destruct (in_windowb ch (tp_ts (snd r))) eqn:W; [|eauto].
      destruct (add_nth (c_storage ch) _ (fst r) (snd r) i ls pts Hi) as (pts' & E1 & E2). exists pts'. split; [assumption|].
      destruct E2 as [->|[-> Q]]; [now left|]. right. split; [reflexivity|]. split; [|now apply in_window_spec].
      apply same_setb_spec in Q; [assumption| |apply Hls].
      apply nth_error_In in Hi. apply (content_sound ch h H) in Hi as [Hi _]. apply Hi. }
    destruct X as (pts' & E1 & E2). exists pts'. split; [assumption|]. split; [assumption|]. intros s e Hse.
    rewrite (read_series_reader _ bs _ _ _ _ _ (cr_st _ _ _ R1)) by lia. cbn [fst]. rewrite (Pt _ _ E1). apply reader_spec; try assumption.
    apply nth_error_In in E1. unfold all_increasing in Hinc. rewrite Forall_forall in Hinc. exact (Hinc _ E1).
Qed.
