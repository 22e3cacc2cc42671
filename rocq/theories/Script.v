(* A thread that writes and queries in turn, next to the swap thread, is as good as one thread for
   each of its calls: the calls are never under way at the same time. *)
From Coq Require Import ZifyBool ZifyNat Permutation.
From Verif Require Import Rust StringProofs Prog Gorilla GorillaSpec Storage StorageSpec Labels IndexSpec Indexer Chunk ChunkSpec TiKvInit Db DbSpec
  SwapSpec WritersSpec WritersProofs WritersMain ReadsConc.

(** ** schedules *)
Lemma upd_app1 {A} (a b : list A) i x : (i < length a)%nat -> upd (a ++ b) i x = upd a i x ++ b.
Proof.
  intros H. unfold upd. rewrite firstn_app, skipn_app. replace (i - length a)%nat with O by lia. cbn [firstn skipn]. rewrite app_nil_r.
  destruct (skipn i a) as [|y t] eqn:E; [|now rewrite <- app_assoc]. apply (f_equal (@length A)) in E. rewrite skipn_length in E. cbn in E. lia.
Qed.
Lemma upd_length {A} (l : list A) i x : length (upd l i x) = length l.
Proof.
  unfold upd. rewrite app_length. pose proof (firstn_skipn i l) as E. apply (f_equal (@length A)) in E. rewrite app_length in E.
  destruct (skipn i l); cbn [List.length] in *; lia.
Qed.
Lemma interleave_length {C W A} (h : handler C W) s : forall (ts : list (prog C A)) w, length (fst (interleave h s ts w)) = length ts.
Proof.
  induction s as [|i s IH]; intros ts w; [reflexivity|]. cbn [interleave]. destruct (nth_error ts i) as [p|]; [|apply IH].
  destruct (step h p w) as [[p' w']|]; [|apply IH]. rewrite IH. apply upd_length.
Qed.
(* threads that are not scheduled do not matter *)
Lemma interleave_more {C W A} (h : handler C W) (more : list (prog C A)) s : forall ts w, Forall (fun i => i < length ts)%nat s ->
  interleave h s (ts ++ more) w = (fst (interleave h s ts w) ++ more, snd (interleave h s ts w)).
Proof.
  induction s as [|i s IH]; intros ts w F; [reflexivity|]. apply Forall_cons_iff in F as [Hi F]. cbn [interleave]. rewrite nth_error_app1 by exact Hi.
  destruct (nth_error ts i) as [p|] eqn:E; [|now apply IH]. destruct (step h p w) as [[p' w']|]; [|now apply IH]. rewrite upd_app1 by exact Hi. apply IH. now rewrite upd_length.
Qed.
(* nor do their numbers *)
Lemma interleave_rename {C W A} (h : handler C W) (g : nat -> nat) s : forall (ts ts' : list (prog C A)) w, Forall (fun i => i < length ts)%nat s ->
  (forall i j, (i < length ts)%nat -> (j < length ts)%nat -> g i = g j -> i = j) -> (forall i, (i < length ts)%nat -> nth_error ts' (g i) = nth_error ts i) ->
  snd (interleave h (map g s) ts' w) = snd (interleave h s ts w) /\
  forall i, (i < length ts)%nat -> nth_error (fst (interleave h (map g s) ts' w)) (g i) = nth_error (fst (interleave h s ts w)) i.
Proof.
  induction s as [|i s IH]; intros ts ts' w F Inj Hn; [split; [reflexivity|exact Hn]|]. apply Forall_cons_iff in F as [Hi F]. cbn [map interleave]. rewrite (Hn i Hi).
  destruct (nth_error ts i) as [p|] eqn:E; [|now apply IH]. destruct (step h p w) as [[p' w']|]; [|now apply IH].
  rewrite <- (upd_length ts i p'). apply IH; rewrite upd_length; [exact F|exact Inj|]. intros j Hj.
  assert (Hg: (g i < length ts')%nat) by (apply nth_error_Some; rewrite (Hn i Hi); congruence).
  rewrite (Conc.nth_upd ts' (g i) p' (g j)) by exact Hg. rewrite (Conc.nth_upd ts i p' j) by exact Hi.
  destruct (Nat.eqb_spec (g j) (g i)) as [e|e].
  - apply Inj in e; [|assumption|assumption]. subst j. now rewrite Nat.eqb_refl.
  - destruct (Nat.eqb_spec j i) as [->|]; [congruence|]. now apply Hn.
Qed.

(** ** calls *)
Inductive vcall := VWrite (c : wcall) | VAsk (a : ask).
Definition vres (v : vcall) : Type := match v with VWrite _ => res unit | VAsk _ => res (list (list label * list tp)) end.
Definition vprog (v : vcall) : prog dcmd (vres v) := match v with VWrite c => wcall_prog c | VAsk a => ask_prog a end.
Definition vwrap (v : vcall) : vres v -> wanswer := match v with VWrite c => fun r => Wrote [r] | VAsk a => fun r => Answered [r] end.
Definition vthread (v : vcall) : prog dcmd wanswer := match v with VWrite c => client [c] | VAsk a => querier [a] end.
Lemma vthread_peq v : peq (vthread v) (bind (vprog v) (fun r => Ret (vwrap v r))).
Proof.
  destruct v; cbn [vthread vprog vwrap]; unfold client, querier; cbn [map sequence]; (eapply peq_trans; [apply peq_assoc|]); (apply peq_bind; [apply peq_refl|]); intros [x|e|]; apply peq_refl.
Qed.
Lemma vprog_do v : exists X (c : dcmd X) k, vprog v = Do c k.
Proof. destruct v as [[ls p|ls pts]|a]; do 3 eexists; reflexivity. Qed.

(* a program that makes calls, one after the other *)
Inductive script (A : Type) : Type :=
| SRet (a : A)
| SCall (v : vcall) (k : vres v -> script A).
Arguments SRet {A} a.
Arguments SCall {A} v k.
Fixpoint sprog {A} (s : script A) : prog dcmd A :=
  match s with
  | SRet a => Ret a
  | SCall v k => bind (vprog v) (fun r => sprog (k r))
  end.
(* the calls made and their results *)
Definition done := {v : vcall & vres v}.
Definition called (d : done) : vcall := projT1 d.
Definition reply (d : done) : wanswer := vwrap (projT1 d) (projT2 d).
Inductive follows {A} : script A -> list done -> script A -> Prop :=
| Fo_end s : follows s [] s
| Fo_call v k r ds s : follows (k r) ds s -> follows (SCall v k) (existT _ v r :: ds) s.
Lemma follows_snoc {A} (s : script A) ds v k r : follows s ds (SCall v k) -> follows s (ds ++ [existT _ v r]) (k r).
Proof.
  intros H. remember (SCall v k) as s' eqn:E. induction H as [s|v0 k0 r0 ds s H IH]; cbn [app].
  - subst s. constructor. constructor.
  - constructor. exact (IH E).
Qed.

(** ** a script and another thread *)
Section SIM.
  Context {A B : Type} (rot : prog dcmd wanswer) (s0 : script A) (fa : wanswer -> B) (fb : A -> B) (w0 : dworld).
  (* the threads for the calls V *)
  Definition vthreads (V : list vcall) : list (prog dcmd wanswer) := rot :: map vthread V.
  (* during the turn of call i only the other thread and the thread of the call are scheduled *)
  Definition turns (i : nat) (segs : list (list nat)) : Prop :=
    forall n seg, nth_error segs n = Some seg -> forall x, In x seg -> x = 0%nat \/ x = S (i + n).
  (* the calls ds have returned; then comes the one in the making or, when all is done, only the other thread *)
  Inductive sim (p0 p1 : prog dcmd B) (w : dworld) : Prop :=
  | Sim_busy ds v k q segs t0 :
      follows s0 ds (SCall v k) -> length segs = S (length ds) -> turns 0 segs ->
      (forall i d, nth_error ds i = Some d -> nth_error (fst (interleave dhandler (concat (firstn (S i) segs)) (vthreads (map called ds ++ [v])) w0)) (S i) = Some (Ret (reply d))) ->
      interleave dhandler (concat segs) (vthreads (map called ds ++ [v])) w0 = (t0 :: map (fun d => Ret (reply d)) ds ++ [q], w) ->
      peq p0 (bind t0 (fun a => Ret (fa a))) ->
      (exists q0, peq q (bind q0 (fun r => Ret (vwrap v r))) /\ peq p1 (bind q0 (fun r => bind (sprog (k r)) (fun a => Ret (fb a)))) /\ (forall r, q0 <> Ret r)) ->
      sim p0 p1 w
  | Sim_idle ds a segs post t0 :
      follows s0 ds (SRet a) -> length segs = length ds -> turns 0 segs -> Forall (eq 0%nat) post ->
      (forall i d, nth_error ds i = Some d -> nth_error (fst (interleave dhandler (concat (firstn (S i) segs)) (vthreads (map called ds)) w0)) (S i) = Some (Ret (reply d))) ->
      interleave dhandler (concat segs ++ post) (vthreads (map called ds)) w0 = (t0 :: map (fun d => Ret (reply d)) ds, w) ->
      peq p0 (bind t0 (fun a => Ret (fa a))) -> p1 = Ret (fb a) ->
      sim p0 p1 w.

  Lemma concat_snoc (segs : list (list nat)) seg j : concat (segs ++ [seg ++ [j]]) = concat (segs ++ [seg]) ++ [j].
  Proof. rewrite !concat_app. cbn [concat]. now rewrite !app_nil_r, app_assoc. Qed.
  Lemma turns_snoc i segs seg j : turns i (segs ++ [seg]) -> j = 0%nat \/ j = S (i + length segs) -> turns i (segs ++ [seg ++ [j]]).
  Proof.
    intros T H n s Hn x Hx. destruct (Nat.lt_ge_cases n (length segs)) as [L|L].
    - rewrite nth_error_app1 in Hn by exact L. apply (T n s); [now rewrite nth_error_app1|exact Hx].
    - rewrite nth_error_app2 in Hn by exact L. destruct (n - length segs)%nat as [|m] eqn:E; [|destruct m; discriminate]. assert (n = length segs) as -> by lia. injection Hn as <-. apply in_app_or in Hx as [Hx|[<-|[]]]; [|exact H].
      apply (T (length segs) seg); [rewrite nth_error_app2, Nat.sub_diag by lia; reflexivity|exact Hx].
  Qed.
  Lemma turns_more i segs : turns i segs -> turns i (segs ++ [[]]).
  Proof.
    intros T n s Hn x Hx. destruct (Nat.lt_ge_cases n (length segs)) as [L|L].
    - rewrite nth_error_app1 in Hn by exact L. exact (T n s Hn x Hx).
    - rewrite nth_error_app2 in Hn by exact L. destruct (n - length segs)%nat as [|m]; [injection Hn as <-; destruct Hx|destruct m; discriminate].
  Qed.
  Lemma turns_bound (segs : list (list nat)) (n : nat) : turns 0 segs -> (length segs < n)%nat -> Forall (fun i => i < n)%nat (concat segs).
  Proof.
    intros T L. apply Forall_forall. intros x Hx. apply in_concat in Hx as (seg & Hs & Hx). apply In_nth_error in Hs as (m & Hm).
    assert (m < length segs)%nat by (apply nth_error_Some; congruence). destruct (T m seg Hm x Hx) as [->| ->]; lia.
  Qed.
  Lemma firstn_snoc {T} (l : list T) x n : (n <= length l)%nat -> firstn n (l ++ [x]) = firstn n l.
  Proof. intros H. rewrite firstn_app. replace (n - length l)%nat with O by lia. cbn. apply app_nil_r. Qed.
  Lemma snoc_of {T} (l : list T) n : length l = S n -> exists l' x, l = l' ++ [x] /\ length l' = n.
  Proof. intros H. destruct (exists_last (l := l)) as (l' & x & ->); [destruct l; discriminate|]. exists l', x. rewrite app_length in H. cbn in H. split; [reflexivity|lia]. Qed.

  (* one more step of a thread *)
  Lemma one_more (sched : list nat) (ts us : list (prog dcmd wanswer)) w j X (c : dcmd X) k x w' : interleave dhandler sched ts w0 = (us, w) -> nth_error us j = Some (Do c k) -> dhandler X c w = Some (x, w') ->
    interleave dhandler (sched ++ [j]) ts w0 = (upd us j (k x), w').
  Proof. intros E N H. rewrite interleave_app, E. cbn [fst snd interleave]. rewrite N. cbn [step]. now rewrite H. Qed.

  Lemma sim_start : sim (bind rot (fun a => Ret (fa a))) (bind (sprog s0) (fun a => Ret (fb a))) w0.
  Proof.
    destruct s0 as [a|v k] eqn:E0.
    - rewrite <- E0. eapply (Sim_idle _ _ _ [] a [] [] rot); try reflexivity.
      + rewrite E0. constructor.
      + intros n seg H. destruct n; discriminate.
      + constructor.
      + intros i d H. destruct i; discriminate.
      + apply peq_refl.
      + now rewrite E0.
    - rewrite <- E0. eapply (Sim_busy _ _ _ [] v k (vthread v) [[]] rot); try reflexivity.
      + rewrite E0. constructor.
      + intros n seg H x Hx. destruct n as [|[|n]]; try discriminate. injection H as <-. destruct Hx.
      + intros i d H. destruct i; discriminate.
      + apply peq_refl.
      + exists (vprog v). split; [apply vthread_peq|]. split; [rewrite E0; apply peq_assoc|]. intros r H. destruct (vprog_do v) as (X & c & kk & H'). congruence.
  Qed.

  Lemma sim_rot p0 p1 w p0' w' : sim p0 p1 w -> step dhandler p0 w = Some (p0', w') -> sim p0' p1 w'.
  Proof.
    intros [ds v k q segs t0 Fo Ls T Rt E E0 E1|ds a segs post t0 Fo Ls T Fp Rt E E0 E1] St.
    - destruct t0 as [a|X c kk]; [apply peq_ret_inv in E0; subst p0; discriminate|]. cbn [bind] in E0. destruct (step_peq _ _ _ _ _ _ _ E0 St) as (x & Hx & E0').
      destruct (snoc_of _ _ Ls) as (segs' & seg & -> & Ls').
      eapply (Sim_busy _ _ _ ds v k q (segs' ++ [seg ++ [0%nat]]) (kk x)); [exact Fo|rewrite !app_length in *; exact Ls|apply turns_snoc; [exact T|now left]| | |exact E0'|exact E1].
      + intros i d Hd. specialize (Rt i d Hd). assert (i < length ds)%nat by (apply nth_error_Some; congruence). rewrite firstn_snoc in * by lia. exact Rt.
      + rewrite concat_snoc. rewrite (one_more _ _ _ _ 0 _ _ _ _ _ E eq_refl Hx). reflexivity.
    - destruct t0 as [a0|X c kk]; [apply peq_ret_inv in E0; subst p0; discriminate|]. cbn [bind] in E0. destruct (step_peq _ _ _ _ _ _ _ E0 St) as (x & Hx & E0').
      eapply (Sim_idle _ _ _ ds a segs (post ++ [0%nat]) (kk x)); [exact Fo|exact Ls|exact T| |exact Rt| |exact E0'|exact E1].
      + apply Forall_app. split; [exact Fp|]. constructor; [reflexivity|constructor].
      + rewrite app_assoc, (one_more _ _ _ _ 0 _ _ _ _ _ E eq_refl Hx). reflexivity.
  Qed.

  Lemma vthreads_more V v : vthreads (V ++ [v]) = vthreads V ++ [vthread v].
  Proof. unfold vthreads. now rewrite map_app. Qed.
  Lemma upd_last {T} (x : T) l y z : upd (x :: l ++ [y]) (S (length l)) z = x :: l ++ [z].
  Proof.
    unfold upd. cbn [firstn skipn app]. f_equal. rewrite firstn_app, skipn_app, Nat.sub_diag, firstn_all. cbn [firstn]. rewrite app_nil_r. f_equal.
    replace (skipn (length l) l) with (@nil T) by (symmetry; apply skipn_all2; lia). reflexivity.
  Qed.
  Lemma nth_last {T} (x : T) l y : nth_error (x :: l ++ [y]) (S (length l)) = Some y.
  Proof. cbn [nth_error]. rewrite nth_error_app2, Nat.sub_diag by lia. reflexivity. Qed.

  Lemma sim_script p0 p1 w p1' w' : sim p0 p1 w -> step dhandler p1 w = Some (p1', w') -> sim p0 p1' w'.
  Proof.
    intros [ds v k q segs t0 Fo Ls T Rt E E0 (q0 & Eq & E1 & Nr)|ds a segs post t0 Fo Ls T Fp Rt E E0 ->] St; [|discriminate].
    destruct q0 as [r|X c kk]; [now destruct (Nr r)|]. cbn [bind] in E1, Eq. destruct (step_peq _ _ _ _ _ _ _ E1 St) as (x & Hx & E1').
    apply peq_do_inv in Eq as (k' & -> & Eq). specialize (Eq x).
    destruct (snoc_of _ _ Ls) as (segs' & seg & -> & Ls'). set (j := S (length ds)).
    assert (Nj: nth_error (t0 :: map (fun d => Ret (reply d)) ds ++ [Do c k']) j = Some (Do c k')).
    { unfold j. rewrite <- (map_length (fun d => Ret (reply d) : prog dcmd wanswer) ds). apply nth_last. }
    pose proof (one_more _ _ _ _ j _ _ _ _ _ E Nj Hx) as E'. rewrite <- concat_snoc in E'.
    assert (U: upd (t0 :: map (fun d => Ret (reply d)) ds ++ [Do c k']) j (k' x) = t0 :: map (fun d => Ret (reply d)) ds ++ [k' x]).
    { unfold j. rewrite <- (map_length (fun d => Ret (reply d) : prog dcmd wanswer) ds). apply upd_last. }
    rewrite U in E'. clear U.
    assert (Ls2: length (segs' ++ [seg ++ [j]]) = S (length ds)) by (rewrite app_length in *; exact Ls).
    assert (T': turns 0 (segs' ++ [seg ++ [j]])) by (apply turns_snoc; [exact T|right; unfold j; lia]).
    assert (Rt': forall i d, nth_error ds i = Some d -> nth_error (fst (interleave dhandler (concat (firstn (S i) (segs' ++ [seg ++ [j]]))) (vthreads (map called ds ++ [v])) w0)) (S i) = Some (Ret (reply d))).
    { intros i d Hd. specialize (Rt i d Hd). assert (i < length ds)%nat by (apply nth_error_Some; congruence). rewrite firstn_snoc in * by lia. exact Rt. }
    destruct (kk x) as [r|Y c2 kk2] eqn:Ek.
    2:{ eapply (Sim_busy _ _ _ ds v k (k' x) _ t0); [exact Fo|exact Ls2|exact T'|exact Rt'|exact E'|exact E0|]. exists (Do c2 kk2). split; [exact Eq|]. split; [exact E1'|]. discriminate. }
    cbn [bind] in Eq, E1'. apply peq_ret_inv in Eq. rewrite Eq in E'.
    pose proof (follows_snoc _ _ _ _ r Fo) as Fo'. set (d := existT vres v r : done) in *. set (segs := segs' ++ [seg ++ [j]]) in *.
    assert (Em: map (fun d => Ret (reply d)) ds ++ [Ret (vwrap v r)] = map (fun d => Ret (reply d) : prog dcmd wanswer) (ds ++ [d])) by (rewrite map_app; reflexivity).
    assert (Ec: map called ds ++ [v] = map called (ds ++ [d])) by (rewrite map_app; reflexivity).
    rewrite Ec, Em in E'. rewrite Ec in Rt'.
    assert (Rt2: forall i e, nth_error (ds ++ [d]) i = Some e -> nth_error (fst (interleave dhandler (concat (firstn (S i) segs)) (vthreads (map called (ds ++ [d]))) w0)) (S i) = Some (Ret (reply e))).
    { intros i e He. destruct (Nat.lt_ge_cases i (length ds)) as [L|L]; [rewrite nth_error_app1 in He by exact L; exact (Rt' i e He)|].
      rewrite nth_error_app2 in He by exact L. destruct (i - length ds)%nat as [|m] eqn:Em2; [|destruct m; discriminate]. injection He as <-. assert (i = length ds) as -> by lia.
      rewrite <- Ls2, firstn_all, E'. cbn [fst nth_error]. rewrite Ls2. cbn [nth_error]. rewrite map_app, nth_error_app2; rewrite map_length; [|lia]. now rewrite Nat.sub_diag. }
    assert (Ls3: length segs = length (ds ++ [d])) by (rewrite Ls2, app_length; cbn; lia).
    destruct (k r) as [a|v2 k2] eqn:Ekr.
    - cbn [sprog bind] in E1'. apply peq_ret_inv in E1'. eapply (Sim_idle _ _ _ (ds ++ [d]) a segs [] t0); [exact Fo'|exact Ls3|exact T'|constructor|exact Rt2|now rewrite app_nil_r|exact E0|exact E1'].
    - assert (Bd: Forall (fun i => i < length (vthreads (map called (ds ++ [d]))))%nat (concat segs)) by (apply turns_bound; [exact T'|]; unfold vthreads; cbn [List.length]; rewrite !map_length; lia).
      eapply (Sim_busy _ _ _ (ds ++ [d]) v2 k2 (vthread v2) (segs ++ [[]]) t0); [exact Fo'|rewrite app_length; cbn; lia|now apply turns_more| | |exact E0|].
      + intros i e He. assert (i < length (ds ++ [d]))%nat by (apply nth_error_Some; congruence). rewrite firstn_snoc by lia. rewrite vthreads_more, interleave_more.
        * cbn [fst]. rewrite nth_error_app1; [exact (Rt2 i e He)|]. rewrite interleave_length. unfold vthreads. cbn [List.length]. rewrite !map_length. lia.
        * apply turns_bound; [|unfold vthreads; cbn [List.length]; rewrite !map_length, firstn_length; lia]. intros n sg Hn. apply T'. rewrite <- Hn. clear - Hn.
          rewrite <- (firstn_skipn (S i) segs) at 1. rewrite nth_error_app1; [reflexivity|]. apply nth_error_Some. congruence.
      + rewrite concat_app. cbn [concat]. rewrite !app_nil_r. rewrite vthreads_more, interleave_more by exact Bd. rewrite E'. reflexivity.
      + exists (vprog v2). split; [apply vthread_peq|]. split; [eapply peq_trans; [exact E1'|]; cbn [sprog]; apply peq_assoc|]. intros r' H. destruct (vprog_do v2) as (X' & c' & kk' & H'). congruence.
  Qed.

  Theorem sim_run sched : let '(ts, w) := interleave dhandler sched [bind rot (fun a => Ret (fa a)); bind (sprog s0) (fun a => Ret (fb a))] w0 in
    exists p0 p1, ts = [p0; p1] /\ sim p0 p1 w.
  Proof.
    assert (G: forall p0 p1 w, sim p0 p1 w -> let '(ts, w') := interleave dhandler sched [p0; p1] w in exists p0 p1, ts = [p0; p1] /\ sim p0 p1 w').
    2:{ apply G, sim_start. }
    induction sched as [|i sched IH]; intros p0 p1 w Hs; [cbn; eauto|]. cbn [interleave]. destruct i as [|[|i]]; cbn [nth_error].
    - destruct (step dhandler p0 w) as [[p' w']|] eqn:St; [|now apply IH]. change (upd [p0; p1] 0 p') with [p'; p1]. apply IH. exact (sim_rot _ _ _ _ _ Hs St).
    - destruct (step dhandler p1 w) as [[p' w']|] eqn:St; [|now apply IH]. change (upd [p0; p1] 1 p') with [p0; p']. apply IH. exact (sim_script _ _ _ _ _ Hs St).
    - destruct i; cbn [nth_error]; now apply IH.
  Qed.
End SIM.
