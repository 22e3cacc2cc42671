(* What a chunk answers after its stores lost the last sets made. *)
From Coq Require Import ZifyBool ZifyNat Permutation.
From Verif Require Import Rust StringProofs Prog Gorilla GorillaSpec Storage StorageSpec StorageProofs Labels Indexer IndexSpec
  LabelProofs IntersectProofs IndexProofs IndexHist Chunk ChunkSpec ChunkProofs ChunkFacts ConcSpec Conc CrashProofs ReadsSpec ReadsMay ReadsCrash ReadsConc
  Flush LossSpec FlushProofs.
Ltac Zify.zify_post_hook ::= Z.div_mod_to_equations.

(** ** the requests taken *)
Lemma fold_taken ch h : forall A, fold_left (ins ch) (taken ch h) A = fold_left (ins ch) h A.
Proof.
  induction h as [|r h IH]; intros A; [reflexivity|]. cbn [taken filter fold_left]. fold (taken ch h).
  destruct (in_windowb ch (tp_ts (snd r))) eqn:W; [cbn [fold_left]; apply IH|]. rewrite IH. unfold ins at 3. rewrite W. reflexivity.
Qed.
Lemma content_taken ch h : content_of ch (taken ch h) = content_of ch h.
Proof. apply fold_taken. Qed.
Lemma taken_snoc ch h r : taken ch (h ++ [r]) = taken ch h ++ if in_windowb ch (tp_ts (snd r)) then [r] else [].
Proof. unfold taken. rewrite filter_app. cbn [filter]. destruct (in_windowb _ _); reflexivity. Qed.
Lemma taken_ok ch h : Forall ireq_ok h -> Forall ireq_ok (taken ch h).
Proof. rewrite !Forall_forall. intros H x Hx. apply filter_In in Hx as [Hx _]. auto. Qed.
Lemma taken_length ch h : (length (taken ch h) <= length h)%nat.
Proof. induction h as [|r h IH]; [reflexivity|]. cbn [taken filter]. fold (taken ch h). destruct (in_windowb _ _); cbn [length]; lia. Qed.
Lemma but_last_0 {A} (l : list A) : but_last 0 l = l.
Proof. unfold but_last. rewrite Nat.sub_0_r. apply firstn_all. Qed.
Lemma but_last_snoc {A} a (l : list A) x : but_last (S a) (l ++ [x]) = but_last a l.
Proof.
  unfold but_last. rewrite app_length. cbn [length]. replace (length l + 1 - S a)%nat with (length l - a)%nat by lia.
  rewrite firstn_app. replace (length l - a - length l)%nat with O by lia. cbn [firstn]. apply app_nil_r.
Qed.
Lemma but_last_app {A} a (l : list A) : exists l', l = but_last a l ++ l'.
Proof. unfold but_last. exists (skipn (length l - a) l). symmetry. apply firstn_skipn. Qed.
Lemma but_last_In {A} a (l : list A) x : In x (but_last a l) -> In x l.
Proof. intros H. destruct (but_last_app a l) as (l' & ->). apply in_app_iff. now left. Qed.
Lemma but_last_ok ch h a : Forall ireq_ok h -> Forall ireq_ok (but_last a (taken ch h)).
Proof. intros H. apply (taken_ok ch) in H. rewrite Forall_forall in *. intros x Hx. apply H. now apply but_last_In in Hx. Qed.
Lemma but_last_grown ch h a : grown (content_of ch (but_last a (taken ch h))) (content_of ch h).
Proof.
  rewrite <- (content_taken ch h). destruct (but_last_app a (taken ch h)) as (l' & E). rewrite E at 2. unfold content_of.
  rewrite fold_left_app. apply grown_fold.
Qed.

(** ** the point store *)
Definition slog (ch : chunk) (st : kv) (h : list ireq) : Prop := forall a,
  holds_series (c_storage ch) (skipn a st) (pts_of (content_of ch (but_last a (taken ch h)))).

Lemma pts_nil id : pts_of [] id = [].
Proof. unfold pts_of. destruct (1 <=? id); [|reflexivity]. destruct (Z.to_nat (id - 1)); reflexivity. Qed.
Lemma slog_new ch : slog ch [] [].
Proof.
  intros a. rewrite skipn_nil. eapply holds_ext; [|apply holds_empty]. intros id. unfold but_last. cbn [taken filter List.length].
  cbn [Nat.sub firstn]. change (content_of ch []) with ([] : content). now rewrite pts_nil.
Qed.
Lemma sled_write_log id t v s : exists x, snd (krun (write_time_point SledStorage id t v) s) = x :: s.
Proof.
  cbn [write_time_point]. unfold sled_write. cbn [krun qbind bind call]. destruct (kv_get s _); cbn [krun qbind bind call snd]; eexists; reflexivity.
Qed.
Lemma insert_log ch w ls p w1 : c_storage ch = SledStorage -> w_faults w = [] -> crun ch (chunk_insert ch ls p) w = Some (Ok tt, w1) ->
  exists x, w_st w1 = x :: w_st w.
Proof.
  intros Hs Hf. unfold crun, chunk_insert, with_write_lock. rewrite run_bind, run_call. cbn [chandler]. destruct (w_locked w); [discriminate|].
  destruct (w_poisoned w); [rewrite run_bind, run_call; cbn [chandler run]; discriminate|]. rewrite run_bind.
  assert (B: forall w2 r w3, w_faults w2 = [] -> run (chandler ch) (insert_body ch ls p) w2 = Some (r, w3) -> r = Ok tt -> exists x, w_st w3 = x :: w_st w2).
  { clear -Hs. intros w2 r w3 Hf. unfold insert_body. destruct (negb _); [cbn [run]; intros E Er; congruence|]. rewrite run_qbind, run_ix by assumption.
    destruct (fst (krun _ _)) as [[id|]|e|]; try (intros E Er; congruence).
    - rewrite run_bind, run_st by reflexivity. cbn [run]. rewrite Hs. intros E _. injection E as <- <-. cbn [w_st set_st set_ix].
      apply sled_write_log.
    - rewrite run_bind, run_call. cbn [chandler]. rewrite run_qbind, run_ix by reflexivity.
      destruct (fst (krun (create_index _ _ _) _)); try (intros E Er; congruence).
      rewrite run_qbind, run_st by reflexivity. rewrite Hs. intros E Er. cbn [w_st set_st set_ix set_next] in E.
      match type of E with context [krun (write_time_point SledStorage ?i ?t ?v) ?s] => destruct (sled_write_log i t v s) as (x & Ex); rewrite Ex in E;
        destruct (fst (krun (write_time_point SledStorage i t v) s)) end; cbn [run] in E; injection E as <- <-; try discriminate.
      exists x. reflexivity. }
  match goal with |- context [run _ (insert_body ch ls p) ?x] => set (w2 := x) end.
  destruct (run (chandler ch) (insert_body ch ls p) w2) as [[r w3]|] eqn:E; [|discriminate]. rewrite run_bind, run_call. cbn [chandler run].
  intros Er. injection Er as -> <-. destruct (B w2 _ _ Hf E eq_refl) as (x & Ex). exists x. cbn [w_st set_lock]. rewrite Ex. reflexivity.
Qed.
Lemma slog_step ch w h r o w1 : c_storage ch = SledStorage -> crep ch w (content_of ch h) -> slog ch (w_st w) h -> ireq_ok r ->
  Z.of_nat (length (content_of ch h)) + 1 < 2 ^ 64 -> crun ch (chunk_insert ch (fst r) (snd r)) w = Some (o, w1) -> slog ch (w_st w1) (h ++ [r]).
Proof.
  intros Hs R S1 [Hls Hp] HL E. pose proof (insert_run ch w _ (fst r) (snd r) R Hls Hp HL) as I. unfold slog. rewrite taken_snoc.
  destruct (in_windowb ch (tp_ts (snd r))) eqn:W.
  - destruct I as (w2 & E2 & R2 & _). assert (w2 = w1) as -> by congruence. destruct (insert_log ch w _ _ _ Hs (cr_faults _ _ _ R) E2) as (x & Ex).
    intros [|a].
    + rewrite but_last_0. cbn [skipn]. pose proof (cr_st _ _ _ R2) as H. eapply holds_ext; [|exact H]. intros id. f_equal.
      unfold content_of. rewrite fold_left_app. fold (content_of ch (taken ch h)). rewrite content_taken. cbn [fold_left]. unfold ins. now rewrite W.
    + rewrite Ex. cbn [skipn]. rewrite but_last_snoc. apply S1.
  - assert (w1 = w) as -> by congruence. rewrite app_nil_r. apply S1.
Qed.

(** ** the index store *)
Lemma suffix_key (L : kv) k s : NoDup (map fst L) -> forall Z1 Y, L = Z1 ++ Y ->
  kv_get (Y ++ s) k = kv_get s k \/ kv_get (Y ++ s) k = kv_get (L ++ s) k.
Proof.
  assert (N: forall Y, ~ In k (map fst Y) -> forall s, kv_get (Y ++ s) k = kv_get s k).
  { induction Y as [|[k' v] Y IH]; intros H s0; [reflexivity|]. cbn [app kv_get map fst] in *.
    destruct (bytes_eqb k' k) eqn:Q; [apply bytes_eqb_spec in Q; subst; exfalso; apply H; now left|]. apply IH. intros F. apply H. now right. }
  intros Nd Z1 Y ->. destruct (in_dec (list_eq_dec Z.eq_dec) k (map fst Y)) as [Hi|Hn]; [|left; now apply N].
  right. rewrite <- app_assoc. symmetry. apply N. rewrite map_app in Nd. clear -Nd Hi. induction Z1 as [|x Z1 IH]; [intros []|].
  cbn [map app] in *. inversion Nd as [|? ? N1 N2]; subst. intros [F|F]; [apply N1; rewrite F; apply in_app_iff; now right|now apply IH].
Qed.
(* every key has the value it has when some of the series are registered, at least the first [n] *)
Definition between (ix : indexer) (s : kv) (R : reg) (n : nat) : Prop :=
  forall k, exists s' m, (n <= m)%nat /\ rep ix s' (firstn m R) /\ kv_get s k = kv_get s' k.
Definition ilog (ch : chunk) (ix : kv) (h : list ireq) : Prop := forall b,
  exists n, (n <= length (content_of ch h))%nat /\ between (c_indexer ch) (skipn b ix) (regs (content_of ch h)) n.

Lemma regs_length A : length (regs A) = length A.
Proof. unfold regs. rewrite map_length. generalize 1. induction A as [|a A IH]; intros n; [reflexivity|]. cbn [numbered length]. now rewrite IH. Qed.
Lemma add_len st A ls p : (length (add_point st A ls p) <= S (length A))%nat.
Proof. induction A as [|[l q] A IH]; cbn [add_point length]; [lia|]. destruct (same_setb l ls); cbn [length]; lia. Qed.
Lemma ins_len ch A r : (length (ins ch A r) <= S (length A))%nat.
Proof. unfold ins. destruct (in_windowb _ _); [apply add_len|lia]. Qed.

(* part of the sets of one insert *)
Lemma insert_between ch w A r o w1 Z1 Y s : crep ch w A -> ireq_ok r -> Z.of_nat (length A) + 1 < 2 ^ 64 ->
  crun ch (chunk_insert ch (fst r) (snd r)) w = Some (o, w1) -> w_ix w1 = Z1 ++ Y ++ w_ix w -> s = Y ++ w_ix w ->
  between (c_indexer ch) s (regs (ins ch A r)) (length A).
Proof.
  intros R [Hls Hp] HL E Ez ->.
  pose proof (insert_run ch w _ (fst r) (snd r) R Hls Hp HL) as I.
  assert (R1: crep ch w1 (ins ch A r)).
  { unfold ins. destruct (in_windowb ch (tp_ts (snd r))); [destruct I as (w2 & E2 & R2 & _); congruence|]. congruence. }
  intros k. unfold crun in E. destruct (run_log ch _ w o w1 E (cr_faults _ _ _ R)) as (L & EL & KL).
  assert (L = Z1 ++ Y) as -> by (apply (app_inv_tail (w_ix w)); rewrite <- app_assoc; congruence).
  destruct (suffix_key (Z1 ++ Y) k (w_ix w)) with (Z1 := Z1) (Y := Y) as [G|G]; [|reflexivity| |].
  - rewrite KL. apply NoDup_rev. apply insert_NoDup; [apply R|assumption].
  - exists (w_ix w), (length A). split; [lia|]. split; [|exact G]. rewrite <- (grown_regs A (ins ch A r)) by apply grown_ins. apply R.
  - exists (w_ix w1), (S (length A)). split; [lia|]. split; [|congruence]. rewrite firstn_all2; [apply R1|]. rewrite regs_length. apply ins_len.
Qed.
Lemma skipn_part {A} b (L l : list A) : (b <= length L)%nat -> exists Z1 Y, L = Z1 ++ Y /\ skipn b (L ++ l) = Y ++ l.
Proof.
  intros H. exists (firstn b L), (skipn b L). split; [symmetry; apply firstn_skipn|]. rewrite skipn_app. now replace (b - length L)%nat with O by lia.
Qed.
Lemma skipn_rest {A} b (L l : list A) : (length L <= b)%nat -> skipn b (L ++ l) = skipn (b - length L) l.
Proof. intros H. rewrite skipn_app, skipn_all2 by assumption. reflexivity. Qed.
Lemma between_grown ix s R R' n : (n <= length R)%nat -> R = firstn (length R) R' -> between ix s R n -> between ix s R' n.
Proof.
  intros L E H k. destruct (H k) as (s' & m & Lm & Hr & Ek). exists s', (Nat.min m (length R)). split; [lia|]. split; [|assumption].
  rewrite E, firstn_firstn in Hr. exact Hr.
Qed.
Lemma between_le ix s R n n' : (n' <= n)%nat -> between ix s R n -> between ix s R n'.
Proof. intros L H k. destruct (H k) as (s' & m & Lm & Hr). exists s', m. split; [lia|assumption]. Qed.
Lemma between_same ix s R : rep ix s R -> between ix s R (length R).
Proof. intros H k. exists s, (length R). rewrite firstn_all. auto. Qed.

Lemma ilog_new ch : ilog ch [] [].
Proof. intros b. exists O. split; [lia|]. rewrite skipn_nil. intros k. exists [], O. split; [lia|]. split; [apply rep_empty|reflexivity]. Qed.
Lemma content_snoc ch h r : content_of ch (h ++ [r]) = ins ch (content_of ch h) r.
Proof. unfold content_of. rewrite fold_left_app. reflexivity. Qed.
Lemma ilog_step ch w h r o w1 : crep ch w (content_of ch h) -> ilog ch (w_ix w) h -> ireq_ok r ->
  Z.of_nat (length (content_of ch h)) + 1 < 2 ^ 64 -> crun ch (chunk_insert ch (fst r) (snd r)) w = Some (o, w1) -> ilog ch (w_ix w1) (h ++ [r]).
Proof.
  intros R I Hr HL E b. rewrite content_snoc. pose proof (grown_length _ _ (grown_ins ch (content_of ch h) r)) as GL.
  pose proof E as E'. unfold crun in E'. destruct (run_log ch _ w o w1 E' (cr_faults _ _ _ R)) as (L & EL & _).
  rewrite EL. destruct (Nat.le_gt_cases b (length L)) as [Hb|Hb].
  - destruct (skipn_part b L (w_ix w) Hb) as (Z1 & Y & -> & ->). exists (length (content_of ch h)). split; [assumption|].
    eapply insert_between; try eassumption; [|reflexivity]. now rewrite EL, <- app_assoc.
  - rewrite skipn_rest by lia. destruct (I (b - length L)%nat) as (n & Hn & B). exists n. split; [lia|].
    eapply between_grown; [rewrite regs_length; exact Hn| |exact B]. rewrite regs_length. apply grown_regs. apply grown_ins.
Qed.

(** ** after a history *)
Lemma after_logs ch h : Forall ireq_ok h -> Z.of_nat (length h) < 2 ^ 64 ->
  exists w, after ch h = Some w /\ crep ch w (content_of ch h) /\ (c_storage ch = SledStorage -> slog ch (w_st w) h) /\ ilog ch (w_ix w) h.
Proof.
  induction h as [|r h IH] using rev_ind; intros Hh HL.
  - exists (new_world [] []). split; [reflexivity|]. split; [apply crep_new|]. split; [intros _; apply slog_new|apply ilog_new].
  - apply Forall_app in Hh as [Hh Hr]. inversion Hr as [|x l Hr' _]; subst. rewrite app_length in HL. cbn [length] in HL.
    destruct (IH Hh ltac:(lia)) as (w & E & R & S1 & I1).
    destruct (after_content ch (h ++ [r])) as (w1 & E1 & R1); [apply Forall_app; split; assumption|rewrite app_length; cbn [length]; lia|].
    pose proof (content_length ch h) as CL.
    assert (exists o, crun ch (chunk_insert ch (fst r) (snd r)) w = Some (o, w1)) as (o & Eo).
    { pose proof (insert_run ch w (content_of ch h) (fst r) (snd r) R (proj1 Hr') (proj2 Hr') ltac:(lia)) as I.
      destruct (in_windowb ch (tp_ts (snd r))).
      - destruct I as (w2 & I & _). exists (Ok tt). assert (E2: Some w2 = Some w1) by (etransitivity; [symmetry; exact (after_snoc ch h r w w2 E _ I)|exact E1]). injection E2 as ->. exact I.
      - exists (Err (OutOfRangeErr (c_start ch) (c_end ch))). assert (E2: Some w = Some w1) by (etransitivity; [symmetry; exact (after_snoc ch h r w w E _ I)|exact E1]). injection E2 as ->. exact I. }
    exists w1. split; [assumption|]. split; [assumption|]. split.
    + intros Hs. eapply slog_step; try eassumption; [auto|lia].
    + eapply ilog_step; try eassumption. lia.
Qed.

(** ** contents cut short *)
Lemma cut_regs C A : regs (cut C A) = regs A.
Proof. apply regs_ext. unfold cut. rewrite map_map. reflexivity. Qed.
Lemma cut_length C A : length (cut C A) = length A.
Proof. apply map_length. Qed.
Lemma cut_nth C A i : nth_error (cut C A) i = option_map (fun e => (fst e, points_in C (fst e))) (nth_error A i).
Proof. unfold cut. apply nth_error_map. Qed.
Lemma points_at C A i e : grown C A -> wfc A -> nth_error A i = Some e ->
  points_in C (fst e) = match nth_error C i with Some c => snd c | None => [] end.
Proof.
  intros G W Hi. unfold points_in.
  assert (P: forall j c, nth_error C j = Some c -> same_setb (fst c) (fst e) = true -> j = i).
  { intros j [ls pts] Hj Q. destruct (G _ _ _ Hj) as (p & Hp & _). cbn [fst] in Q.
    apply same_setb_spec in Q; [|apply (wf_keys A (ls, p) W); now apply nth_error_In in Hp|apply (wf_keys A e W); now apply nth_error_In in Hi].
    eapply (wf_distinct A W j i (ls, p) e); eassumption. }
  destruct (find (fun e0 => same_setb (fst e0) (fst e)) C) as [c|] eqn:F.
  - apply find_some in F as [F1 F2]. apply In_nth_error in F1 as (j & Hj). rewrite <- (P j c Hj F2), Hj. reflexivity.
  - destruct (nth_error C i) as [[ls pts]|] eqn:Hc; [|reflexivity]. destruct (G _ _ _ Hc) as (p & Hp & _).
    assert (e = (ls, p)) as -> by congruence. apply nth_error_In in Hc. pose proof (find_none _ _ F _ Hc) as N. cbn [fst] in N.
    assert (same_setb ls ls = true); [|congruence]. apply same_setb_spec; try apply Permutation_refl; apply (wf_keys A (ls, p) W); now apply nth_error_In in Hp.
Qed.
Lemma cut_pts C A id : grown C A -> wfc A -> pts_of (cut C A) id = pts_of C id.
Proof.
  intros G W. unfold pts_of. destruct (1 <=? id); [|reflexivity]. rewrite cut_nth. destruct (nth_error A _) as [e|] eqn:Hi; cbn [option_map snd].
  - apply (points_at C A); assumption.
  - destruct (nth_error C _) as [[ls pts]|] eqn:Hc; [|reflexivity]. destruct (G _ _ _ Hc) as (p & Hp & _). congruence.
Qed.
Lemma cut_wfc C A : wfc A -> wfc C -> wfc (cut C A).
Proof.
  intros [W1 W2 W3] [V1 V2 V3]. constructor.
  - unfold cut. rewrite Forall_forall in *. intros x Hx. apply in_map_iff in Hx as (e & <- & He). cbn [fst]. auto.
  - unfold cut. rewrite Forall_forall in *. intros x Hx. apply in_map_iff in Hx as (e & <- & He). cbn [snd]. unfold points_in.
    destruct (find _ C) as [c|] eqn:F; [|constructor]. apply find_some in F as [F _]. auto.
  - intros i j a b Ha Hb S1. rewrite cut_nth in Ha, Hb. destruct (nth_error A i) as [x|] eqn:Hx; [|discriminate].
    destruct (nth_error A j) as [y|] eqn:Hy; [|discriminate]. cbn [option_map] in *.
    injection Ha as <-. injection Hb as <-. cbn [fst] in S1. eapply W3; eassumption.
Qed.
Lemma cut_increasing C A : all_increasing C -> all_increasing (cut C A).
Proof.
  intros H. unfold all_increasing, cut in *. rewrite Forall_forall in *. intros x Hx. apply in_map_iff in Hx as (e & <- & _). cbn [snd].
  unfold points_in. destruct (find _ C) as [c|] eqn:F; [|constructor]. apply find_some in F as [F _]. auto.
Qed.
Lemma increasing_prefix a b : prefix a b -> increasing b -> increasing a.
Proof.
  intros (c & ->). induction a as [|x a IH]; intros H; [exact I|]. destruct H as [H1 H2]. split; [|now apply IH]. apply Forall_app in H1. apply H1.
Qed.
Lemma grown_increasing A B : grown A B -> all_increasing B -> all_increasing A.
Proof.
  intros G H. unfold all_increasing in *. rewrite Forall_forall in *. intros [ls pts] Hx. apply In_nth_error in Hx as (i & Hi).
  destruct (G _ _ _ Hi) as (p & Hp & P). apply nth_error_In in Hp. cbn [snd]. eapply increasing_prefix; [exact P|]. exact (H _ Hp).
Qed.

(** ** the index is whole *)
Lemma loss_crd ch w h a : c_storage ch = SledStorage -> Forall ireq_ok h -> rep (c_indexer ch) (w_ix w) (regs (content_of ch h)) -> slog ch (w_st w) h ->
  crd ch (lost w a 0) (after_loss ch h a).
Proof.
  intros Hs Hh Hix Hst. pose proof (content_wf ch h Hh) as W. pose proof (content_wf ch _ (but_last_ok ch h a Hh)) as V.
  constructor; try reflexivity; unfold lost, new_world, after_loss; cbn [w_ix w_st skipn].
  - rewrite cut_regs. exact Hix.
  - eapply holds_ext; [|apply Hst]. intros id. symmetry. apply cut_pts; [apply but_last_grown|assumption].
  - now apply cut_wfc.
Qed.
Theorem loss_exact ch bs o h a q s e : c_storage ch = SledStorage -> Forall ireq_ok h -> Z.of_nat (length h) < 2 ^ 64 -> Forall lab_ok q ->
  exists w, after ch h = Some w /\
    crun ch (chunk_query ch bs o q s e) (lost w a 0) =
    Some (if (e <? c_start ch) || (c_end ch <? s) then Err (OutOfRangeErr (c_start ch) (c_end ch))
          else collect (reader bs s e) (matching (after_loss ch h a) q), lost w a 0).
Proof.
  intros Hs Hh HL Hq. destruct (after_logs ch h Hh HL) as (w & E & R & S1 & _). exists w. split; [assumption|].
  apply query_crd; [|unfold after_loss; rewrite cut_length; pose proof (content_length ch h); lia|assumption].
  apply loss_crd; try assumption; [apply R|auto].
Qed.
Lemma after_loss_increasing ch h a : all_increasing (content_of ch h) -> all_increasing (after_loss ch h a).
Proof. intros H. apply cut_increasing. eapply grown_increasing; [apply but_last_grown|exact H]. Qed.
Theorem loss_exact_spec ch bs o h a q s e : bs_contract bs -> c_storage ch = SledStorage -> Forall ireq_ok h -> Z.of_nat (length h) < 2 ^ 64 ->
  all_increasing (content_of ch h) -> Forall lab_ok q -> s <= e ->
  exists w, after ch h = Some w /\
    crun ch (chunk_query ch bs o q s e) (lost w a 0) = Some (query_spec ch (after_loss ch h a) q s e, lost w a 0).
Proof.
  intros Hb Hs Hh HL Hi Hq Hse. destruct (loss_exact ch bs o h a q s e Hs Hh HL Hq) as (w & E & Q). exists w. split; [assumption|].
  rewrite Q. unfold query_spec. destruct (_ || _); [reflexivity|]. do 2 f_equal. apply collect_ext. intros x Hx.
  apply reader_spec; try assumption. apply matching_pts in Hx as (_ & _ & Hin & _).
  pose proof (after_loss_increasing ch h a Hi) as F. unfold all_increasing in F. rewrite Forall_forall in F. now apply F.
Qed.

(** ** part of the index is missing *)
Lemma run_may ch {A} (G : forall X, ccmd X -> X -> Prop) w (p : prog ccmd A) : w_faults w = [] -> w_locked w = false -> 
  (forall X c x, reads X c -> chandler ch X c w = Some (x, w) -> G X c x) -> readp p ->
  exists a, run (chandler ch) p w = Some (a, w) /\ may G p a.
Proof.
  intros Hf Hl HG. induction 1 as [a|X c k Hc Hk IH]; [exists a; split; reflexivity|].
  assert (exists x, chandler ch X c w = Some (x, w)) as (x & E).
  { clear -Hc Hf Hl. assert (exists x w', chandler ch X c w = Some (x, w')) as (x & w' & E).
    { destruct Hc as [k|k|]; cbn [chandler kv_fault_handler]; [eauto|eauto|rewrite Hl; eauto]. }
    exists x. rewrite E. now rewrite (reads_same ch X c w x w' Hc Hf E). }
  destruct (IH x) as (a & Ea & Ma). exists a. cbn [run may]. rewrite E. split; [assumption|]. exists x. auto.
Qed.

Lemma cut_firstn C A n : cut C (firstn n A) = firstn n (cut C A).
Proof. unfold cut. symmetry. apply firstn_map. Qed.
Lemma grown_firstn (A : content) n : grown (firstn n A) A.
Proof.
  intros i ls pts H. exists pts. split; [|apply prefix_refl]. rewrite <- (firstn_skipn n A), nth_error_app1; [assumption|].
  apply nth_error_Some. congruence.
Qed.
Lemma loss_seen ch bs o C A n st ix q s e : grown C A -> wfc A -> Z.of_nat (length A) < 2 ^ 64 -> (n <= length A)%nat ->
  holds_series (c_storage ch) st (pts_of C) -> between (c_indexer ch) ix (regs A) n -> Forall lab_ok q ->
  exists M, seen (cut C (firstn n A)) (cut C A) q M /\
    crun ch (chunk_query ch bs o q s e) (new_world st ix) = Some (answer_from ch (reader bs s e) M s e, new_world st ix).
Proof.
  intros G W HL Hn Hst Hix Hq. set (w := new_world st ix).
  assert (G1: grown (cut C (firstn n A)) (cut C A)) by (rewrite cut_firstn; apply grown_firstn).
  destruct (run_may ch (GC ch (cut C (firstn n A)) (cut C A)) w (chunk_query ch bs o q s e) eq_refl eq_refl) as (a & Ea & Ma); [|apply query_reads|].
  - intros X c x Hc. revert x. destruct Hc as [k|k|]; intros x E; cbn [chandler kv_fault_handler] in E; cbn [GC GS GI].
    + exists st. split; [|injection E as E; exact (eq_sym E)]. exists (pts_of (cut C A)). split.
      * eapply holds_ext; [|exact Hst]. intros id. symmetry. now apply cut_pts.
      * intros id. split; [now apply grown_pts|apply prefix_refl].
    + destruct (Hix k) as (s' & m & Lm & Hr & Ek). exists s', m. split.
      * split; [rewrite cut_length, firstn_length; lia|]. rewrite cut_regs. exact Hr.
      * injection E as E. rewrite <- E. cbn [w w_ix new_world]. now rewrite Ek.
    + cbn [w w_locked w_poisoned new_world] in E. now injection E as <-.
  - destruct (query_may ch bs (cut C (firstn n A)) (cut C A) G1) with (o := o) (q := q) (s := s) (e := e) (r := a) as (M & Se & Er); try assumption.
    + rewrite cut_length. exact HL.
    + pose proof (wf_sets _ W) as F. rewrite Forall_forall in *. intros x Hx. unfold cut in Hx. apply in_map_iff in Hx as (y & <- & Hy). cbn [fst]. auto.
    + exists M. split; [assumption|]. unfold crun. rewrite Ea, Er. reflexivity.
Qed.
Lemma seen_spec ch bs A0 A1 q M s e : bs_contract bs -> all_increasing A1 -> s <= e -> seen A0 A1 q M ->
  answer_from ch (reader bs s e) M s e = answer_from ch (fun pts => read_spec pts s e) M s e.
Proof.
  intros Hb Hi Hse Se. unfold answer_from. destruct (_ || _); [reflexivity|]. apply collect_ext. intros [id [ls pts]] Hx. cbn [snd].
  destruct (se_real _ _ _ _ Se _ _ _ Hx) as (pts1 & Hn & P). apply numbered_In in Hn as (i & Hn & _). cbn [snd] in Hn. apply nth_error_In in Hn.
  apply reader_spec; try assumption. unfold all_increasing in Hi. rewrite Forall_forall in Hi. eapply increasing_prefix; [exact P|]. exact (Hi _ Hn).
Qed.

(* whatever both stores lose *)
Theorem loss_any ch bs o h a b q s e : c_storage ch = SledStorage -> Forall ireq_ok h -> Z.of_nat (length h) < 2 ^ 64 -> Forall lab_ok q ->
  exists w n M, after ch h = Some w /\
    seen (cut (content_of ch (but_last a (taken ch h))) (firstn n (content_of ch h))) (after_loss ch h a) q M /\
    crun ch (chunk_query ch bs o q s e) (lost w a b) = Some (answer_from ch (reader bs s e) M s e, lost w a b).
Proof.
  intros Hs Hh HL Hq. destruct (after_logs ch h Hh HL) as (w & E & R & S1 & I1). destruct (I1 b) as (n & Hn & B).
  destruct (loss_seen ch bs o (content_of ch (but_last a (taken ch h))) (content_of ch h) n (skipn a (w_st w)) (skipn b (w_ix w)) q s e) as (M & Se & Q);
    try assumption.
  - apply but_last_grown.
  - now apply content_wf.
  - pose proof (content_length ch h). lia.
  - apply S1. assumption.
  - exists w, n, M. auto.
Qed.

(* the power fails part way through an insert, with the index flushed before it *)
Theorem loss_crash ch bs o h r c a b q s e : c_storage ch = SledStorage -> c_indexer ch = SledIndexer -> Forall ireq_ok h ->
  Forall (fun x => fst x <> []) h -> ireq_ok r -> Z.of_nat (length h) + 1 < 2 ^ 64 -> Forall lab_ok q ->
  exists wn, after_f ch h = Some wn /\
    let wn' := snd (crash_at (lhandler ch) c (chunk_insert_f ch (fst r) (snd r)) wn) in
    ((b <= snd wn')%nat -> exists hh M, (hh = h \/ hh = h ++ [r]) /\
      seen (cut (content_of ch (but_last a (taken ch hh))) (content_of ch h))
           (cut (content_of ch (but_last a (taken ch hh))) (content_of ch (h ++ [r]))) q M /\
      crun ch (chunk_query ch bs o q s e) (lost (fst wn') a b) = Some (answer_from ch (reader bs s e) M s e, lost (fst wn') a b)).
Proof.
  intros Hs Hi Hh Hne Hr HL Hq. destruct (index_flushed ch h Hi Hh Hne ltac:(lia)) as (w & Ew & Ef). exists (w, O). split; [assumption|]. cbv zeta. intros Hb.
  destruct (after_logs ch h Hh ltac:(lia)) as (w0 & E0 & R & S1 & I1). assert (w0 = w) as -> by congruence.
  assert (Hh1: Forall ireq_ok (h ++ [r])) by (apply Forall_app; split; [assumption|constructor; [assumption|constructor]]).
  destruct (after_logs ch (h ++ [r]) Hh1) as (w1 & E1 & R1 & S2 & I2); [rewrite app_length; cbn [length]; lia|].
  pose proof (content_length ch h) as CL.
  assert (exists x, crun ch (chunk_insert ch (fst r) (snd r)) w = Some (x, w1)) as (x & Ex).
  { pose proof (insert_run ch w (content_of ch h) (fst r) (snd r) R (proj1 Hr) (proj2 Hr) ltac:(lia)) as I.
    destruct (in_windowb ch (tp_ts (snd r))).
    - destruct I as (w2 & I & _). exists (Ok tt). assert (E2: Some w2 = Some w1) by (etransitivity; [symmetry; exact (after_snoc ch h r w w2 Ew _ I)|exact E1]). injection E2 as ->. exact I.
    - exists (Err (OutOfRangeErr (c_start ch) (c_end ch))). assert (E2: Some w = Some w1) by (etransitivity; [symmetry; exact (after_snoc ch h r w w Ew _ I)|exact E1]). injection E2 as ->. exact I. }
  destruct (er_crash ch _ _ (insert_erases ch (fst r) (snd r)) c w O (cr_faults _ _ _ R)) as (c' & Ec & L & EL & LL).
  set (wn' := snd (crash_at (lhandler ch) c (chunk_insert_f ch (fst r) (snd r)) (w, O))) in *. cbn [Nat.add] in LL.
  pose proof (insert_crash ch (fst r) (snd r) w c' x w1 Ex) as C. cbv zeta in C. rewrite <- Ec in C.
  destruct (crash_log ch _ c' w x w1 Ex (cr_faults _ _ _ R)) as (L1 & L2 & F1 & F2). rewrite <- Ec in F1, F2.
  destruct (skipn_part b L (w_ix w)) as (Z1 & Y & EZ & EY); [lia|].
  assert (B: between (c_indexer ch) (skipn b (w_ix (fst wn'))) (regs (content_of ch (h ++ [r]))) (length (content_of ch h))).
  { rewrite content_snoc, EL, EY. eapply (insert_between ch w _ r x w1 (L2 ++ Z1) Y); try eassumption; [lia| |reflexivity].
    rewrite F2, EL, EZ, <- !app_assoc. reflexivity. }
  assert (X: exists hh, (hh = h \/ hh = h ++ [r]) /\ slog ch (w_st (fst wn')) hh).
  { destruct C as [C|C]; rewrite C; [exists h|exists (h ++ [r])]; auto. }
  destruct X as (hh & Hhh & Sl). exists hh.
  pose proof (grown_ins ch (content_of ch h) r) as GI1. rewrite <- content_snoc in GI1.
  assert (G: grown (content_of ch (but_last a (taken ch hh))) (content_of ch (h ++ [r]))).
  { eapply grown_trans; [apply but_last_grown|]. destruct Hhh as [->|Hx]; [exact GI1|rewrite Hx; apply grown_refl]. }
  destruct (loss_seen ch bs o (content_of ch (but_last a (taken ch hh))) (content_of ch (h ++ [r])) (length (content_of ch h))
              (skipn a (w_st (fst wn'))) (skipn b (w_ix (fst wn'))) q s e) as (M & Se & Q); try assumption.
  - now apply content_wf.
  - pose proof (content_length ch (h ++ [r])) as CL2. rewrite app_length in CL2. cbn [length] in CL2. lia.
  - now apply grown_length.
  - apply Sl.
  - exists M. split; [assumption|]. split; [|exact Q].
    assert (EC: cut (content_of ch (but_last a (taken ch hh))) (firstn (length (content_of ch h)) (content_of ch (h ++ [r]))) =
            cut (content_of ch (but_last a (taken ch hh))) (content_of ch h)).
    { clear -GI1. unfold cut. revert GI1. generalize (content_of ch (h ++ [r])). generalize (content_of ch h). induction c as [|[l p] A IH]; intros B GI1; [reflexivity|].
      destruct B as [|[l' p'] B]; [destruct (GI1 0%nat _ _ eq_refl) as (? & ? & _); discriminate|].
      destruct (GI1 0%nat _ _ eq_refl) as (p2 & E & _). injection E as -> ->. cbn [length firstn map fst]. f_equal. apply IH.
      intros i ls pts H. exact (GI1 (S i) ls pts H). }
    rewrite <- EC. exact Se.
Qed.

(** ** nothing is invented *)
Theorem loss_sound ch bs o h a b q s e w l : c_storage ch = SledStorage -> Forall ireq_ok h -> Z.of_nat (length h) < 2 ^ 64 -> Forall lab_ok q ->
  after ch h = Some w -> crun ch (chunk_query ch bs o q s e) (lost w a b) = Some (Ok l, lost w a b) -> forall x, In x l ->
  (exists lb, In lb q /\ In lb (s_meta x)) /\
  forall p, In p (s_points x) -> in_window ch (tp_ts p) /\ exists ls, same_set ls (s_meta x) /\ In (ls, p) (but_last a (taken ch h)).
Proof.
  intros Hs Hh HL Hq Ew Hl x Hx. destruct (loss_any ch bs o h a b q s e Hs Hh HL Hq) as (w0 & n & M & E0 & Se & Q).
  assert (w0 = w) as -> by congruence. rewrite Q in Hl. assert (Ea: answer_from ch (reader bs s e) M s e = Ok l) by congruence. clear Q Hl.
  unfold answer_from in Ea. destruct (_ || _); [discriminate|].
  assert (CI: exists id ls pts, In (id, (ls, pts)) M /\ reader bs s e pts = Ok (s_points x) /\ s_meta x = sort_labels ls).
  { clear Se. revert l Ea Hx. induction M as [|[id [ls pts]] M IH]; intros l E Hx; cbn [collect] in E; [injection E as <-; contradiction|].
    destruct (reader bs s e pts) as [d|er|] eqn:Ed; try discriminate. cbn [rbind] in E. destruct (collect (reader bs s e) M) as [rest|er|] eqn:Er; try discriminate. cbn [rbind] in E.
    assert (K: In x rest -> exists id0 ls0 pts0, In (id0, (ls0, pts0)) ((id, (ls, pts)) :: M) /\ reader bs s e pts0 = Ok (s_points x) /\ s_meta x = sort_labels ls0).
    { intros Hr. destruct (IH _ eq_refl Hr) as (i & l0 & p0 & H1 & H2). exists i, l0, p0. split; [now right|assumption]. }
    destruct d as [|y d]; injection E as <-; [now apply K|]. destruct Hx as [<-|Hx]; [|now apply K].
    exists id, ls, pts. split; [now left|]. auto. }
  destruct CI as (id & ls & pts & HM & Hr & Hm). rewrite Hm. split.
  - destruct (se_some _ _ _ _ Se _ _ _ HM) as (lb & Hlb & Hh'). exists lb. split; [assumption|].
    apply has_In in Hh'. eapply Permutation_in; [apply sort_perm|assumption].
  - intros p Hp. apply (reader_sub _ _ _ _ _ Hr) in Hp.
    destruct (se_real _ _ _ _ Se _ _ _ HM) as (pts1 & Hn & (c & Ep)). apply numbered_In in Hn as (i & Hn & _). cbn [snd] in Hn. apply nth_error_In in Hn.
    unfold after_loss, cut in Hn. apply in_map_iff in Hn as ([ls' pts'] & En & Hin). cbn [fst] in En. injection En as -> En.
    assert (Hp1: In p pts1) by (rewrite Ep; apply in_app_iff; now left). rewrite <- En in Hp1. unfold points_in in Hp1.
    destruct (find _ _) as [[lc pc]|] eqn:F; [|contradiction]. apply find_some in F as [F1 F2]. cbn [fst snd] in *.
    pose proof (but_last_ok ch h a Hh) as Hok.
    destruct (content_sound ch _ Hok lc pc F1) as [Ks Sn]. destruct (Sn p Hp1) as (l0 & B1 & B2 & B3). split; [assumption|].
    exists l0. split; [|assumption]. eapply Permutation_trans; [exact B2|]. eapply Permutation_trans; [|apply sort_perm].
    apply same_setb_spec in F2; [assumption|apply Ks|]. apply (wf_keys _ _ (content_wf ch h Hh) Hin).
Qed.
