(* Proofs about a chunk running alone: it refines the abstract content of ChunkSpec. *)
From Coq Require Import ZifyBool ZifyNat Permutation Sorted.
From Verif Require Import Rust Prog Gorilla GorillaSpec Storage StorageSpec StorageProofs Labels Indexer IndexSpec
  LabelProofs IntersectProofs IndexProofs IndexHist Chunk ChunkSpec.
Ltac Zify.zify_post_hook ::= Z.div_mod_to_equations.

(** ** running *)
Lemma run_bind {C W A B} (h : handler C W) (p : prog C A) (f : A -> prog C B) w :
  run h (bind p f) w = match run h p w with Some (a, w') => run h (f a) w' | None => None end.
Proof.
  revert w. induction p as [a|X c k IH]; intros w; [reflexivity|].
  cbn [bind run]. destruct (h X c w) as [[x w']|]; [apply IH|reflexivity].
Qed.
Lemma run_qbind {C W A B} (h : handler C W) (p : prog C (res A)) (f : A -> prog C (res B)) w :
  run h (qbind p f) w =
  match run h p w with
  | Some (Ok a, w') => run h (f a) w'
  | Some (Err e, w') => Some (Err e, w')
  | Some (Panic, w') => Some (Panic, w')
  | None => None
  end.
Proof. unfold qbind. rewrite run_bind. destruct (run h p w) as [[[a|e|] w']|]; reflexivity. Qed.

Lemma run_st {A} ch (p : prog kcmd A) : forall w, w_faults w = [] ->
  run (chandler ch) (lift (@CSt) p) w = Some (fst (krun p (w_st w)), set_st w (snd (krun p (w_st w))) []).
Proof.
  induction p as [a|X c k IH]; intros w Hw.
  - cbn. destruct w; cbn in *. now subst.
  - cbn [lift run]. unfold chandler at 1. rewrite Hw. destruct c as [key|key v]; cbn [kv_fault_handler hd tl krun].
    + rewrite IH by reflexivity. reflexivity.
    + rewrite IH by reflexivity. reflexivity.
Qed.
Lemma run_ix {A} ch (p : prog kcmd A) : forall w, w_faults w = [] ->
  run (chandler ch) (lift (@CIx) p) w = Some (fst (krun p (w_ix w)), set_ix w (snd (krun p (w_ix w))) []).
Proof.
  induction p as [a|X c k IH]; intros w Hw.
  - cbn. destruct w; cbn in *. now subst.
  - cbn [lift run]. unfold chandler at 1. rewrite Hw. destruct c as [key|key v]; cbn [kv_fault_handler hd tl krun].
    + rewrite IH by reflexivity. reflexivity.
    + rewrite IH by reflexivity. reflexivity.
Qed.

(** ** numbering *)
Definition regs (A : content) : reg := map (fun e => (fst e, fst (snd e))) (numbered 1 A).

Lemma numbered_app n A B : numbered n (A ++ B) = numbered n A ++ numbered (n + Z.of_nat (length A)) B.
Proof.
  revert n. induction A as [|a A IH]; intros n; cbn [app numbered length].
  - f_equal. lia.
  - rewrite IH. do 3 f_equal. lia.
Qed.
Lemma numbered_nth n A i e : nth_error A i = Some e -> In (n + Z.of_nat i, e) (numbered n A).
Proof.
  revert n i. induction A as [|a A IH]; intros n [|i] H; try discriminate; cbn [numbered].
  - injection H as ->. left. f_equal. lia.
  - right. specialize (IH (n + 1) i H). replace (n + Z.of_nat (S i)) with (n + 1 + Z.of_nat i) by lia. exact IH.
Qed.
Lemma numbered_In n A x : In x (numbered n A) -> exists i, nth_error A i = Some (snd x) /\ fst x = n + Z.of_nat i.
Proof.
  revert n. induction A as [|a A IH]; intros n H; [contradiction|]. destruct H as [<-|H].
  - exists 0%nat. split; [reflexivity|]. cbn. lia.
  - apply IH in H as (i & H1 & H2). exists (S i). split; [exact H1|]. lia.
Qed.
Lemma regs_ext A B : map fst A = map fst B -> regs A = regs B.
Proof.
  unfold regs. generalize 1. revert B. induction A as [|a A IH]; intros [|b B] n H; try discriminate; [reflexivity|].
  cbn [map] in H. cbn [numbered map fst snd]. f_equal; [f_equal; congruence|]. apply IH. congruence.
Qed.
Lemma regs_snoc A x : regs (A ++ [x]) = regs A ++ [(Z.of_nat (length A) + 1, fst x)].
Proof. unfold regs. rewrite numbered_app, map_app. cbn [numbered map fst snd]. do 3 f_equal. lia. Qed.
Lemma regs_asc A : ascending (map fst (regs A)).
Proof.
  unfold regs. generalize 1. induction A as [|a A IH]; intros n; [constructor|]. cbn [numbered map]. constructor; [apply IH|].
  rewrite Forall_forall. intros x Hx. rewrite map_map in Hx. apply in_map_iff in Hx as (y & <- & Hy).
  apply numbered_In in Hy as (i & _ & E). cbn [fst] in *. lia.
Qed.
Lemma regs_ids_ok A : Z.of_nat (length A) < 2 ^ 64 -> ids_ok (regs A).
Proof.
  intros H. unfold ids_ok. rewrite Forall_forall. intros e He. unfold regs in He. apply in_map_iff in He as (y & <- & Hy).
  apply numbered_In in Hy as (i & H1 & E). cbn [fst].
  assert (i < length A)%nat by (apply nth_error_Some; congruence). unfold id_ok. lia.
Qed.

Definition pts_of (A : content) (id : Z) : list tp :=
  if 1 <=? id then match nth_error A (Z.to_nat (id - 1)) with Some e => snd e | None => [] end else [].

(** ** the invariant *)
Record wfc (A : content) : Prop := mkWfc {
  wf_sets : Forall (fun e => set_ok (fst e)) A;
  wf_pts : Forall (fun e => Forall tp_ok (snd e)) A;
  wf_distinct : forall i j a b, nth_error A i = Some a -> nth_error A j = Some b ->
    same_set (fst a) (fst b) -> i = j }.

Record crep (ch : chunk) (w : cworld) (A : content) : Prop := mkCrep {
  cr_ix : rep (c_indexer ch) (w_ix w) (regs A);
  cr_st : holds_series (c_storage ch) (w_st w) (pts_of A);
  cr_next : w_next w = wrapu 64 (Z.of_nat (length A) + 1);
  cr_locked : w_locked w = false;
  cr_poison : w_poisoned w = false;
  cr_faults : w_faults w = [];
  cr_wf : wfc A }.

(* the part of it that queries use *)
Record crd (ch : chunk) (w : cworld) (A : content) : Prop := mkCrd {
  rd_ix : rep (c_indexer ch) (w_ix w) (regs A);
  rd_st : holds_series (c_storage ch) (w_st w) (pts_of A);
  rd_locked : w_locked w = false;
  rd_poison : w_poisoned w = false;
  rd_faults : w_faults w = [];
  rd_wf : wfc A }.
Lemma crep_crd ch w A : crep ch w A -> crd ch w A.
Proof. intros [H1 H2 H3 H4 H5 H6 H7]. constructor; assumption. Qed.
(* the same when the store may hold more series than the chunk has *)
Record crq (ch : chunk) (w : cworld) (A : content) : Prop := mkCrq {
  rq_ix : rep (c_indexer ch) (w_ix w) (regs A);
  rq_st : forall id, 1 <= id <= Z.of_nat (length A) -> holds_at (c_storage ch) (w_st w) id (pts_of A id);
  rq_locked : w_locked w = false;
  rq_poison : w_poisoned w = false;
  rq_faults : w_faults w = [];
  rq_wf : wfc A }.
Lemma crd_crq ch w A : crd ch w A -> Z.of_nat (length A) < 2 ^ 64 -> crq ch w A.
Proof. intros [H1 H2 H3 H4 H5 H6] L. constructor; try assumption. intros id Hid. apply H2. lia. Qed.

Lemma crep_new ch : crep ch (new_world [] []) [].
Proof.
  constructor; try reflexivity.
  - apply rep_empty.
  - intros id Hid. unfold pts_of. destruct (1 <=? id); [|split; [constructor|reflexivity]].
    destruct (Z.to_nat (id - 1)); split; constructor.
  - constructor; [constructor|constructor|]. intros [|i] j a b H; discriminate.
Qed.

Lemma with_lock_run {A} ch (body : prog ccmd (res A)) w : w_locked w = false -> w_poisoned w = false ->
  run (chandler ch) (with_write_lock body) w =
  match run (chandler ch) body (set_lock w true false) with
  | Some (r, w') => Some (r, set_lock w' false (w_poisoned w' || is_panic r))
  | None => None
  end.
Proof.
  intros H1 H2. unfold with_write_lock. rewrite run_bind. cbn [run call chandler]. rewrite H1. rewrite H2. cbn beta iota.
  rewrite run_bind. destruct (run _ body _) as [[r w']|]; reflexivity.
Qed.

(** ** positions *)
Lemma regs_In A e : In e (regs A) -> exists i pts, nth_error A i = Some (snd e, pts) /\ fst e = 1 + Z.of_nat i.
Proof.
  unfold regs. intros H. apply in_map_iff in H as (y & <- & Hy). apply numbered_In in Hy as (i & H1 & H2).
  exists i, (snd (snd y)). cbn [fst snd]. rewrite <- surjective_pairing. auto.
Qed.

Lemma add_at st A1 ls' pts A2 ls p : (forall e, In e A1 -> same_setb (fst e) ls = false) -> same_setb ls' ls = true ->
  add_point st (A1 ++ (ls', pts) :: A2) ls p = A1 ++ (ls', if keeps st pts p then pts ++ [p] else pts) :: A2.
Proof.
  intros H E. induction A1 as [|[l q] A1 IH]; cbn [app add_point].
  - now rewrite E.
  - pose proof (H (l, q) (or_introl eq_refl)) as Hl. cbn [fst] in Hl. rewrite Hl. f_equal. apply IH. intros e He. apply H. now right.
Qed.
Lemma add_new st A ls p : (forall e, In e A -> same_setb (fst e) ls = false) ->
  add_point st A ls p = A ++ [(ls, [p])].
Proof.
  intros H. induction A as [|[l q] A IH]; [reflexivity|]. cbn [app add_point].
  pose proof (H (l, q) (or_introl eq_refl)) as Hl. cbn [fst] in Hl. rewrite Hl. f_equal. apply IH. intros e He. apply H. now right.
Qed.

Lemma wf_keys A e : wfc A -> In e A -> keys_distinct (fst e).
Proof. intros [H _ _] He. rewrite Forall_forall in H. now apply H. Qed.

(* where the label set is, if anywhere *)
Lemma lookup_pos A ls : wfc A -> set_ok ls ->
  match lookup_set (regs A) ls with
  | Some e => exists A1 pts A2, A = A1 ++ (snd e, pts) :: A2 /\ fst e = 1 + Z.of_nat (length A1) /\
                same_setb (snd e) ls = true /\ (forall x, In x A1 -> same_setb (fst x) ls = false)
  | None => forall x, In x A -> same_setb (fst x) ls = false
  end.
Proof.
  intros W Hls. destruct (lookup_set (regs A) ls) as [e|] eqn:E.
  - apply find_some in E as [E1 E2]. apply in_rev in E1. apply regs_In in E1 as (i & pts & H1 & H2).
    destruct (nth_error_split A i H1) as (A1 & A2 & EA & EL). exists A1, pts, A2.
    split; [exact EA|]. split; [lia|]. split; [exact E2|]. intros x Hx.
    destruct (same_setb (fst x) ls) eqn:Q; [|reflexivity]. exfalso.
    assert (Kx: keys_distinct (fst x)) by (apply (wf_keys A); [assumption|]; rewrite EA; apply in_app_iff; now left).
    assert (Ke: keys_distinct (snd e)).
    { apply (wf_keys A (snd e, pts)); [assumption|]. rewrite EA. apply in_app_iff. right. now left. }
    apply same_setb_spec in Q; [|assumption|apply Hls]. apply same_setb_spec in E2; [|assumption|apply Hls].
    apply In_nth_error in Hx as (j & Hj).
    assert (j < length A1)%nat by (apply nth_error_Some; congruence).
    assert (j = i); [|lia]. eapply (wf_distinct A W j i x (snd e, pts)); [|exact H1|].
    + rewrite EA, nth_error_app1; assumption.
    + cbn [fst]. eapply Permutation_trans; [exact Q|now apply Permutation_sym].
  - intros x Hx. destruct (same_setb (fst x) ls) eqn:Q; [|reflexivity]. exfalso.
    apply In_nth_error in Hx as (i & Hi).
    assert (R: In (1 + Z.of_nat i, fst x) (regs A)).
    { unfold regs. apply (in_map (fun e => (fst e, fst (snd e)))) with (x := (1 + Z.of_nat i, x)). now apply numbered_nth. }
    apply in_rev in R. pose proof (find_none _ _ E _ R) as N. cbn [snd] in N. congruence.
Qed.

Lemma pts_of_at A1 ls pts A2 pts' id :
  pts_of (A1 ++ (ls, pts') :: A2) id =
  if id =? 1 + Z.of_nat (length A1) then pts' else pts_of (A1 ++ (ls, pts) :: A2) id.
Proof.
  unfold pts_of. destruct (1 <=? id) eqn:L.
  - destruct (id =? 1 + Z.of_nat (length A1)) eqn:E.
    + replace (Z.to_nat (id - 1)) with (length A1) by lia. rewrite nth_error_app2, Nat.sub_diag by lia. reflexivity.
    + destruct (Nat.lt_ge_cases (Z.to_nat (id - 1)) (length A1)) as [H|H].
      * now rewrite !nth_error_app1 by assumption.
      * rewrite !nth_error_app2 by assumption. destruct (Z.to_nat (id - 1) - length A1)%nat as [|k] eqn:F; [lia|]. reflexivity.
  - destruct (id =? 1 + Z.of_nat (length A1)) eqn:E; [lia|reflexivity].
Qed.
Lemma pts_of_snoc A ls pts id :
  pts_of (A ++ [(ls, pts)]) id = if id =? Z.of_nat (length A) + 1 then pts else pts_of A id.
Proof.
  unfold pts_of. destruct (1 <=? id) eqn:L.
  - destruct (id =? Z.of_nat (length A) + 1) eqn:E.
    + replace (Z.to_nat (id - 1)) with (length A) by lia. rewrite nth_error_app2, Nat.sub_diag by lia. reflexivity.
    + destruct (Nat.lt_ge_cases (Z.to_nat (id - 1)) (length A)) as [H|H].
      * now rewrite !nth_error_app1 by assumption.
      * rewrite nth_error_app2 by assumption.
        destruct (Z.to_nat (id - 1) - length A)%nat as [|k] eqn:F; [lia|].
        assert (nth_error A (Z.to_nat (id - 1)) = None) as -> by (apply nth_error_None; lia). destruct k; reflexivity.
  - destruct (id =? Z.of_nat (length A) + 1) eqn:E; [lia|reflexivity].
Qed.

(** ** writing one point, either backend *)
Lemma write_ok st s f id p : holds_series st s f -> 0 <= id < 2 ^ 64 -> tp_ok p ->
  exists r s', krun (write_time_point st id (tp_ts p) (tp_val p)) s = (r, s') /\
    (r = if keeps st (f id) p then Ok tt else Err InternalErr) /\
    holds_series st s' (fun i => if i =? id then (if keeps st (f id) p then f id ++ [p] else f id) else f i).
Proof.
  intros H Hid Hp. destruct st.
  - destruct (sled_write_ok s f id p H Hid Hp) as (s' & E & H'). exists (Ok tt), s'. split; [exact E|].
    split; [reflexivity|]. cbn [keeps]. eapply holds_ext; [|exact H']. intros i. cbn beta.
    destruct (i =? id) eqn:Q; [|reflexivity]. replace i with id by lia. reflexivity.
  - pose proof (tikv_write_ok ident s f id p H Hid Hp) as W.
    assert (K: tikv_next (f id) p = keeps (TiKvStorage ident) (f id) p) by (unfold tikv_next, keeps; destruct (f id); reflexivity).
    rewrite K in W. destruct (keeps (TiKvStorage ident) (f id) p).
    + destruct W as (s' & E & H'). exists (Ok tt), s'. split; [exact E|]. split; [reflexivity|].
      eapply holds_ext; [|exact H']. intros i. cbn beta. destruct (i =? id) eqn:Q; [|reflexivity]. replace i with id by lia. reflexivity.
    + exists (Err InternalErr), s. split; [exact W|]. split; [reflexivity|].
      eapply holds_ext; [|exact H]. intros i. cbn beta. destruct (i =? id) eqn:Q; [|reflexivity]. replace i with id by lia. reflexivity.
Qed.

Lemma create_ok ix s R ls id : rep ix s R -> set_ok ls -> id_ok id -> lookup_set R ls = None ->
  exists s', krun (create_index ix ls id) s = (Ok tt, s') /\ rep ix s' (R ++ [(id, ls)]).
Proof.
  intros H Hls Hid N. destruct ix.
  - pose proof (sled_create_run s R ls id H Hls Hid) as C.
    destruct (existsb (fun e => same_setb (snd e) ls) R) eqn:E; [|exact C].
    apply lookup_set_some in E as (e & E). congruence.
  - now apply tikv_create_run.
Qed.

(** ** insert *)
Lemma wf_add st A ls p : wfc A -> set_ok ls -> tp_ok p -> wfc (add_point st A ls p).
Proof.
  intros W Hls Hp. pose proof (lookup_pos A ls W Hls) as L. destruct (lookup_set (regs A) ls) as [e|].
  - destruct L as (A1 & pts & A2 & EA & _ & Q & N). rewrite EA, add_at by assumption. rewrite EA in W.
    destruct W as [W1 W2 W3]. constructor.
    + apply Forall_app in W1 as [B1 B2]. inversion B2; subst. apply Forall_app. split; [assumption|]. constructor; assumption.
    + apply Forall_app in W2 as [B1 B2]. inversion B2 as [|x xs B4 B5]; subst. apply Forall_app. split; [assumption|].
      constructor; [|assumption]. cbn [snd] in *. destruct (keeps st pts p); [|auto].
      apply Forall_app. split; [assumption|repeat constructor; apply Hp].
    + intros i j a b Hi Hj S1.
      assert (T: forall k x, nth_error (A1 ++ (snd e, if keeps st pts p then pts ++ [p] else pts) :: A2) k = Some x ->
        exists y, nth_error (A1 ++ (snd e, pts) :: A2) k = Some y /\ fst x = fst y).
      { intros k x Hk. destruct (Nat.lt_ge_cases k (length A1)) as [G|G].
        - rewrite nth_error_app1 in Hk by assumption. exists x. rewrite nth_error_app1 by assumption. auto.
        - rewrite nth_error_app2 in Hk by assumption. rewrite nth_error_app2 by assumption.
          destruct (k - length A1)%nat; [|exists x; auto]. cbn in Hk. injection Hk as <-. eexists. split; reflexivity. }
      destruct (T _ _ Hi) as (a' & Ha & Fa). destruct (T _ _ Hj) as (b' & Hb & Fb).
      eapply W3; [exact Ha|exact Hb|]. now rewrite <- Fa, <- Fb.
  - rewrite add_new by assumption. destruct W as [W1 W2 W3]. constructor.
    + apply Forall_app. split; [assumption|]. constructor; [exact Hls|constructor].
    + apply Forall_app. split; [assumption|]. constructor; [|constructor]. cbn [snd].
      constructor; [exact Hp|constructor].
    + assert (Hlast: forall k x, nth_error (A ++ [(ls, [p])]) k = Some x ->
        (k < length A /\ nth_error A k = Some x)%nat \/ (k = length A /\ fst x = ls)).
      { intros k x Hk. destruct (Nat.lt_ge_cases k (length A)) as [G|G].
        - rewrite nth_error_app1 in Hk by assumption. auto.
        - right. rewrite nth_error_app2 in Hk by assumption. destruct (k - length A)%nat as [|m] eqn:F.
          + cbn in Hk. injection Hk as <-. split; [lia|reflexivity].
          + destruct m; discriminate. }
      assert (No: forall k x, nth_error A k = Some x -> ~ same_set (fst x) ls).
      { intros k x Hk S1. apply nth_error_In in Hk. pose proof (L x Hk) as F.
        assert (same_setb (fst x) ls = true); [|congruence]. apply same_setb_spec; [|apply Hls|assumption].
        rewrite Forall_forall in W1. now apply W1. }
      intros i j a b Hi Hj S1. destruct (Hlast _ _ Hi) as [[Gi Ni]|[Gi Fi]]; destruct (Hlast _ _ Hj) as [[Gj Nj]|[Gj Fj]].
      * eapply W3; eassumption.
      * exfalso. apply (No _ _ Ni). now rewrite <- Fj.
      * exfalso. apply (No _ _ Nj). rewrite <- Fi. now apply Permutation_sym.
      * congruence.
Qed.

Lemma set_lock_id w : w_locked w = false -> w_poisoned w = false -> set_lock w false false = w.
Proof. destruct w; cbn; intros -> ->. reflexivity. Qed.

Lemma insert_run ch w A ls p : crep ch w A -> set_ok ls -> tp_ok p -> Z.of_nat (length A) + 1 < 2 ^ 64 ->
  if in_windowb ch (tp_ts p)
  then exists w', crun ch (chunk_insert ch ls p) w = Some (Ok tt, w') /\ crep ch w' (add_point (c_storage ch) A ls p) /\
        w_closed w' = w_closed w
  else crun ch (chunk_insert ch ls p) w = Some (Err (OutOfRangeErr (c_start ch) (c_end ch)), w).
Proof.
  intros [Hix Hst Hn Hl Hpo Hf W] Hls Hp Hlen. unfold crun, chunk_insert. rewrite with_lock_run by assumption.
  unfold insert_body, is_in_range. fold (in_windowb ch (tp_ts p)).
  destruct (in_windowb ch (tp_ts p)) eqn:Hin; cbn [negb].
  2:{ cbn [run]. cbn [is_panic]. f_equal. f_equal. destruct w; cbn in *. now subst. }
  rewrite run_qbind, run_ix by (cbn; assumption). cbn [w_ix set_lock].
  rewrite (by_labels_run _ _ (regs A)) by (try assumption; apply regs_ids_ok; lia). cbn [fst snd].
  pose proof (lookup_pos A ls W Hls) as L. destruct (lookup_set (regs A) ls) as [e|] eqn:E; cbn [option_map].
  - destruct L as (A1 & pts & A2 & EA & Hid & Q & N).
    rewrite run_bind, run_st by reflexivity. cbn [w_st set_ix set_lock].
    assert (Hpts: pts_of A (fst e) = pts).
    { rewrite EA, (pts_of_at A1 (snd e) [] A2 pts). now rewrite (proj2 (Z.eqb_eq _ _) Hid). }
    assert (LA: (length A1 < length A)%nat) by (rewrite EA, app_length; cbn; lia).
    destruct (write_ok (c_storage ch) (w_st w) (pts_of A) (fst e) p Hst) as (r & s' & Ew & Er & H'); [lia|assumption|].
    rewrite Ew. cbn [fst snd run].
    assert (match r with Panic => Panic | _ => Ok tt end = Ok tt) as ->.
    { rewrite Er. destruct (keeps _ _ _); reflexivity. }
    eexists. split; [reflexivity|]. split; [|reflexivity]. cbn [is_panic orb set_lock w_poisoned set_st set_ix w_st w_ix w_next w_closed w_faults].
    constructor; cbn [w_st w_ix w_next w_locked w_poisoned w_faults]; try assumption; try reflexivity.
    + assert (regs (add_point (c_storage ch) A ls p) = regs A) as ->; [|assumption].
      rewrite EA, add_at by assumption. apply regs_ext. rewrite !map_app. reflexivity.
    + eapply holds_ext; [|exact H']. intros i. cbn beta.
      assert (AP: add_point (c_storage ch) A ls p = A1 ++ (snd e, if keeps (c_storage ch) pts p then pts ++ [p] else pts) :: A2)
        by (rewrite EA; now apply add_at).
      rewrite AP, (pts_of_at A1 (snd e) pts A2). rewrite <- EA, <- Hid, Hpts. reflexivity.
    + transitivity (w_next w); [reflexivity|]. rewrite Hn. do 3 f_equal. rewrite EA, add_at by assumption. now rewrite !app_length.
    + now apply wf_add.
  - rewrite run_bind. cbn [run call chandler w_next set_ix set_lock set_next]. rewrite Hn.
    assert (WU: wrapu 64 (Z.of_nat (length A) + 1) = Z.of_nat (length A) + 1) by (unfold wrapu; apply Z.mod_small; lia).
    rewrite WU.
    assert (Hidok: id_ok (Z.of_nat (length A) + 1)) by (unfold id_ok; lia).
    rewrite run_qbind, run_ix by reflexivity. cbn [w_ix set_next set_ix set_lock].
    destruct (create_ok (c_indexer ch) (w_ix w) (regs A) ls (Z.of_nat (length A) + 1) Hix Hls Hidok E) as (s1 & Ec & Hrep).
    rewrite Ec. cbn [fst snd]. rewrite run_qbind, run_st by reflexivity. cbn [w_st set_ix set_next set_lock].
    destruct (write_ok (c_storage ch) (w_st w) (pts_of A) (Z.of_nat (length A) + 1) p Hst Hidok Hp) as (r & s' & Ew & Er & H').
    rewrite Ew. cbn [fst snd].
    assert (P0: pts_of A (Z.of_nat (length A) + 1) = []).
    { unfold pts_of. replace (1 <=? Z.of_nat (length A) + 1) with true by lia.
      replace (Z.to_nat (Z.of_nat (length A) + 1 - 1)) with (length A) by lia.
      assert (nth_error A (length A) = None) as -> by (apply nth_error_None; lia). reflexivity. }
    rewrite P0 in Er, H'. assert (K0: keeps (c_storage ch) [] p = true) by (destruct (c_storage ch); reflexivity).
    rewrite K0 in Er, H'. rewrite Er. cbn [run].
    eexists. split; [reflexivity|]. split; [|reflexivity]. cbn [is_panic orb set_lock w_poisoned set_st set_ix w_st w_ix w_next w_closed w_faults set_next].
    rewrite add_new by assumption.
    constructor; cbn [w_st w_ix w_next w_locked w_poisoned w_faults]; try reflexivity.
    + rewrite regs_snoc. cbn [fst]. exact Hrep.
    + eapply holds_ext; [|exact H']. intros i. cbn beta. rewrite pts_of_snoc. cbn [app]. reflexivity.
    + rewrite app_length. cbn [length]. transitivity (wrapu 64 (Z.of_nat (length A) + 1 + 1)); [reflexivity|].
      f_equal. lia.
    + rewrite <- (add_new (c_storage ch)) by assumption. now apply wf_add.
Qed.

(** ** histories *)
Lemma add_length st A ls p : (length (add_point st A ls p) <= S (length A))%nat.
Proof.
  induction A as [|[l q] A IH]; cbn [add_point length]; [lia|]. destruct (same_setb l ls); cbn [length]; lia.
Qed.
Lemma ins_length ch A r : (length (ins ch A r) <= S (length A))%nat.
Proof. unfold ins. destruct (in_windowb ch _); [apply add_length|lia]. Qed.

Lemma after_run ch h : forall w A, crep ch w A -> Forall ireq_ok h -> Z.of_nat (length A + length h) < 2 ^ 64 ->
  exists w', after_from ch h w = Some w' /\ crep ch w' (fold_left (ins ch) h A) /\ w_closed w' = w_closed w.
Proof.
  induction h as [|[ls p] h IH]; intros w A R H L; [exists w; auto|].
  inversion H as [|x xs [H1 H2] H3]; subst. cbn [fst snd] in *. cbn [after_from fold_left fst snd].
  pose proof (insert_run ch w A ls p R H1 H2) as I. cbn [length] in L. specialize (I ltac:(lia)).
  unfold ins at 2. cbn [fst snd]. destruct (in_windowb ch (tp_ts p)).
  - destruct I as (w1 & E & R1 & C1). rewrite E.
    destruct (IH w1 _ R1 H3) as (w' & E' & R' & C'); [pose proof (add_length (c_storage ch) A ls p); lia|].
    exists w'. split; [assumption|]. split; [assumption|]. congruence.
  - rewrite I. apply IH; [assumption|assumption|lia].
Qed.

Theorem after_content ch h : Forall ireq_ok h -> Z.of_nat (length h) < 2 ^ 64 ->
  exists w, after ch h = Some w /\ crep ch w (content_of ch h).
Proof.
  intros H L. destruct (after_run ch h _ [] (crep_new ch) H) as (w & E & R & _); [cbn; lia|]. exists w. auto.
Qed.

(** ** query *)
Definition cand (e : Z * (list label * list tp)) : Z * list label := (fst e, sort_labels (fst (snd e))).

Lemma search_matching A q : search_regs (regs A) q = map (fun e => (fst e, fst (snd e))) (matching A q).
Proof.
  assert (K: forall l, known (regs A) l = occurs A l).
  { intros l. unfold known, occurs, regs. generalize 1. induction A as [|a A IH]; intros n; [reflexivity|].
    cbn [numbered map existsb snd fst]. f_equal. apply IH. }
  unfold search_regs, matching. unfold matches.
  assert (EX: existsb (known (regs A)) q = existsb (occurs A) q).
  { induction q as [|l q IH]; [reflexivity|]. cbn. now rewrite K, IH. }
  rewrite EX. destruct (existsb (occurs A) q); cbn [andb].
  - unfold regs at 2. generalize (numbered 1 A). intros m. induction m as [|e m IH]; [reflexivity|]. cbn [map filter fst snd].
    assert (F: forallb (fun l => negb (known (regs A) l) || has (fst (snd e)) l) q =
               forallb (fun l => negb (occurs A l) || has (fst (snd e)) l) q).
    { clear -K. induction q as [|l q IHq]; [reflexivity|]. cbn [forallb]. now rewrite K, IHq. }
    rewrite F, IH. clear. destruct (forallb _ q); reflexivity.
  - induction (numbered 1 A) as [|e m IH]; [reflexivity|exact IH].
Qed.

(* the reader of one stored series *)
Definition reader (bs : bsearch) (s e : Z) (pts : list tp) : res (list tp) :=
  match pts with [] => Err NotFoundErr | _ => read_tail bs pts s e end.

Lemma read_reader st bs s pts id a b : holds_at st s id pts -> krun (read_time_series st bs id a b) s = (reader bs a b pts, s).
Proof. intros H. rewrite (read_at st bs s pts) by assumption. unfold reader. destruct pts; reflexivity. Qed.
Lemma read_series_reader st bs s f id a b : holds_series st s f -> 0 <= id < 2 ^ 64 ->
  krun (read_time_series st bs id a b) s = (reader bs a b (f id), s).
Proof. intros H1 H2. apply read_reader. exact (H1 id H2). Qed.

Lemma collect_run ch bs s e w A m : crq ch w A ->
  (forall x, In x m -> pts_of A (fst x) = snd (snd x) /\ 1 <= fst x <= Z.of_nat (length A)) ->
  exists r, run (chandler ch) (forM (fun c =>
        let? data := lift (@CSt) (read_time_series (c_storage ch) bs (fst c) s e) in
        Ret (Ok (match data with
                 | [] => None
                 | _ => Some (mkSeries (fst c) (snd c) data)
                 end))) (map cand m)) w = Some (r, w) /\
    rmap somes r = collect (reader bs s e) m.
Proof.
  intros R Hm. induction m as [|x m IH]; [exists (Ok []); split; reflexivity|].
  destruct (IH (fun y Hy => Hm y (or_intror Hy))) as (r & Er & Ec). clear IH.
  destruct (Hm x (or_introl eq_refl)) as [P1 P2]. destruct x as [id [ls pts]]. cbn [fst snd] in P1, P2.
  cbn [map forM collect]. unfold cand at 1 2 3. cbn [fst snd].
  rewrite run_qbind, run_qbind, run_st by apply (rq_faults _ _ _ R).
  rewrite (read_reader _ bs (w_st w) (pts_of A id)) by (apply (rq_st _ _ _ R); assumption). cbn [fst snd].
  assert (SW: set_st w (w_st w) [] = w) by (pose proof (rq_faults _ _ _ R) as Hf; destruct w; cbn in *; now subst).
  rewrite SW, P1.
  destruct (reader bs s e pts) as [d|er|]; cbn [rbind run].
  - rewrite run_qbind, Er. destruct r as [l|er|]; cbn [rmap] in Ec; rewrite <- Ec.
    + exists (Ok (match d with [] => None | _ => Some (mkSeries id (sort_labels ls) d) end :: l)).
      split; [reflexivity|]. cbn [rmap rbind]. destruct d; reflexivity.
    + exists (Err er). split; reflexivity.
    + exists Panic. split; reflexivity.
  - exists (Err er). split; reflexivity.
  - exists Panic. split; reflexivity.
Qed.

Lemma matching_pts A q x : In x (matching A q) -> pts_of A (fst x) = snd (snd x) /\
  1 <= fst x <= Z.of_nat (length A) /\ In (snd x) A /\ matches A q (fst (snd x)) = true.
Proof.
  intros H. apply filter_In in H as [H HM]. apply numbered_In in H as (i & H1 & H2). rewrite H2.
  assert (i < length A)%nat by (apply nth_error_Some; congruence).
  split; [|split; [lia|split; [eapply nth_error_In; exact H1|assumption]]].
  unfold pts_of. replace (1 <=? 1 + Z.of_nat i) with true by lia.
  replace (Z.to_nat (1 + Z.of_nat i - 1)) with i by lia. now rewrite H1.
Qed.

Theorem query_crq ch bs o w A q s e : crq ch w A -> Z.of_nat (length A) < 2 ^ 64 -> Forall lab_ok q ->
  crun ch (chunk_query ch bs o q s e) w =
  Some (if (e <? c_start ch) || (c_end ch <? s) then Err (OutOfRangeErr (c_start ch) (c_end ch))
        else collect (reader bs s e) (matching A q), w).
Proof.
  intros R L Hq. unfold crun, chunk_query. rewrite run_bind. cbn [run call chandler].
  rewrite (rq_locked _ _ _ R), (rq_poison _ _ _ R). cbn beta iota.
  unfold is_with_range, is_duration_overlap. rewrite negb_involutive.
  destruct ((e <? c_start ch) || (c_end ch <? s)); [reflexivity|].
  rewrite run_qbind, run_ix by apply (rq_faults _ _ _ R).
  rewrite (metadata_run _ o _ (regs A)); [|apply (rq_ix _ _ _ R)|now apply regs_ids_ok| |apply regs_asc|assumption].
  2:{ unfold sets_ok. rewrite Forall_forall. intros x Hx. apply regs_In in Hx as (i & pts & H1 & _).
      pose proof (wf_sets _ (rq_wf _ _ _ R)) as F. rewrite Forall_forall in F. apply nth_error_In in H1. exact (F _ H1). }
  cbn [fst snd].
  assert (SW: set_ix w (w_ix w) [] = w) by (pose proof (rq_faults _ _ _ R) as Hf; destruct w; cbn in *; now subst).
  rewrite SW. rewrite search_matching, map_map. unfold meta. cbn [fst snd]. rewrite run_qbind.
  destruct (collect_run ch bs s e w A (matching A q) R) as (r & Er & Ec).
  { intros x Hx. apply matching_pts in Hx as (H1 & H2 & _). split; assumption. }
  unfold cand in Er. rewrite Er. rewrite <- Ec. destruct r; reflexivity.
Qed.
Theorem query_crd ch bs o w A q s e : crd ch w A -> Z.of_nat (length A) < 2 ^ 64 -> Forall lab_ok q ->
  crun ch (chunk_query ch bs o q s e) w =
  Some (if (e <? c_start ch) || (c_end ch <? s) then Err (OutOfRangeErr (c_start ch) (c_end ch))
        else collect (reader bs s e) (matching A q), w).
Proof. intros R L. apply query_crq; [now apply crd_crq|assumption]. Qed.

Theorem query_run ch bs o w A q s e : crep ch w A -> Z.of_nat (length A) < 2 ^ 64 -> Forall lab_ok q ->
  crun ch (chunk_query ch bs o q s e) w =
  Some (if (e <? c_start ch) || (c_end ch <? s) then Err (OutOfRangeErr (c_start ch) (c_end ch))
        else collect (reader bs s e) (matching A q), w).
Proof. intros R. apply query_crd. now apply crep_crd. Qed.
