(* Part way through an insert, every key of the index store has the value it had before the
   insert or the one it has after it. *)
From Coq Require Import ZifyBool ZifyNat Permutation Sorted.
From Verif Require Import Rust Prog Gorilla GorillaSpec Storage StorageSpec StorageProofs Compactor Labels Indexer IndexSpec
  LabelProofs IntersectProofs IndexProofs IndexHist Chunk ChunkSpec ChunkProofs ConcSpec Conc.
Ltac Zify.zify_post_hook ::= Z.div_mod_to_equations.

(** ** the keys set by a store program *)
Fixpoint ksets {A} (p : prog kcmd A) (s : kv) : list bytes :=
  match p with
  | Ret _ => []
  | Do c k =>
      match c in kcmd X return (X -> prog kcmd A) -> list bytes with
      | KGet key => fun k => ksets (k (Ok (kv_get s key))) s
      | KSet key v => fun k => key :: ksets (k (Ok tt)) (kv_set s key v)
      end k
  end.
Lemma ksets_bind {A B} (p : prog kcmd A) (f : A -> prog kcmd B) s :
  ksets (bind p f) s = ksets p s ++ ksets (f (fst (krun p s))) (snd (krun p s)).
Proof.
  revert s. induction p as [a|X c k IH]; intros s; [reflexivity|].
  destruct c as [key|key v]; cbn [bind ksets krun]; rewrite IH; reflexivity.
Qed.

Lemma sled_reverse_ksets id ls : forall s, ksets (forM (sled_add_reverse id) ls) s = map encode_label ls /\
  exists us, fst (krun (forM (sled_add_reverse id) ls) s) = Ok us.
Proof.
  induction ls as [|l ls IH]; intros s; [split; [reflexivity|exists []; reflexivity]|].
  cbn [forM map]. unfold qbind at 1 3. rewrite ksets_bind, krun_bind.
  change (krun (sled_add_reverse id l) s) with
    (Ok tt, kv_set s (encode_label l) (match kv_get s (encode_label l) with None => to_dec id | Some s0 => s0 ++ [comma] ++ to_dec id end)).
  cbn [fst snd]. set (s1 := kv_set _ _ _). destruct (IH s1) as (E1 & us & E2). unfold qbind. rewrite ksets_bind, krun_bind, E1.
  destruct (krun (forM (sled_add_reverse id) ls) s1) as [a s2]. cbn [fst snd] in *. subst a. cbn [krun ksets fst]. rewrite app_nil_r.
  split; [reflexivity|eauto].
Qed.
Lemma tikv_reverse_ksets i id ls : forall s, ksets (tikv_add_reverse i id ls) s = map (fun l => i ++ encode_label l) ls.
Proof.
  induction ls as [|l ls IH]; intros s; [reflexivity|]. cbn [tikv_add_reverse map]. rewrite ksets_bind, krun_get. cbn [fst snd].
  cbn [ksets call app]. rewrite ksets_bind. cbn [bind call ksets krun fst snd app]. now rewrite IH.
Qed.

Lemma reverse_NoDup ix ls : set_ok ls -> NoDup (map (rkey ix) ls).
Proof.
  intros (H1 & H2 & _). apply distinct_NoDup in H2. clear -H1 H2. induction ls as [|l ls IH]; [constructor|].
  inversion H1 as [|x xs Hl Hls]; subst. inversion H2 as [|x xs Hn Hd]; subst. cbn [map]. constructor; [|now apply IH].
  intros Hi. apply in_map_iff in Hi as (l' & E & Hl'). rewrite Forall_forall in Hls. apply rkey_inj in E; auto. now subst.
Qed.
Lemma create_NoDup ix ls id s : set_ok ls -> NoDup (ksets (create_index ix ls id) s).
Proof.
  intros H. pose proof (reverse_NoDup ix ls H) as N.
  assert (NL: ~ In (lkey ix ls) (map (rkey ix) ls)).
  { intros Hi. apply in_map_iff in Hi as (l & E & Hl). symmetry in E. revert E. apply lkey_rkey; [assumption|].
    destruct H as (H & _). rewrite Forall_forall in H. auto. }
  assert (NI: ~ In (ikey ix id) (map (rkey ix) ls)).
  { intros Hi. apply in_map_iff in Hi as (l & E & Hl). symmetry in E. revert E. apply ikey_rkey. }
  destruct ix as [|i]; cbn [create_index].
  - unfold sled_create. unfold qbind at 1. rewrite ksets_bind, krun_get. cbn [fst snd ksets call app].
    destruct (kv_get s (encode_labels ls true)); [constructor|]. rewrite ksets_bind, krun_set. cbn [fst snd ksets call app].
    rewrite ksets_bind, krun_set. cbn [fst snd ksets call app]. unfold qbind. rewrite ksets_bind.
    destruct (sled_reverse_ksets id ls (kv_set (kv_set s (encode_labels ls true) (to_dec id)) (encode_time_series_id id) (encode_labels ls false))) as (E & us & E2).
    rewrite E, E2. cbn [ksets]. rewrite app_nil_r.
    constructor; [|constructor].
    + intros [E3|Hi]; [|now apply NL]. revert E3. apply (ikey_lkey SledIndexer).
    + exact NI.
    + exact N.
  - unfold tikv_create. rewrite ksets_bind, krun_set. cbn [fst snd ksets call app].
    rewrite ksets_bind, krun_set. cbn [fst snd ksets call app]. rewrite ksets_bind, tikv_reverse_ksets. cbn [ksets]. rewrite app_nil_r.
    constructor; [|constructor].
    + intros [E3|Hi]; [|now apply NI]. symmetry in E3. revert E3. apply (ikey_lkey (TiKvIndexer i)).
    + exact NL.
    + exact N.
Qed.

(** ** the index keys set by a chunk program *)
Definition iset_of {X} (c : ccmd X) : list bytes :=
  match c with
  | CIx c' => match c' with KSet k _ => [k] | KGet _ => [] end
  | _ => []
  end.
Fixpoint isets ch {A} (p : prog ccmd A) (w : cworld) : list bytes :=
  match p with
  | Ret _ => []
  | Do c k => match chandler ch _ c w with
              | None => []
              | Some (x, w') => iset_of c ++ isets ch (k x) w'
              end
  end.
Lemma isets_bind ch {A B} (p : prog ccmd A) (f : A -> prog ccmd B) w :
  isets ch (bind p f) w = isets ch p w ++ match run (chandler ch) p w with Some (a, w') => isets ch (f a) w' | None => [] end.
Proof.
  revert w. induction p as [a|X c k IH]; intros w; [reflexivity|]. cbn [bind isets run].
  destruct (chandler ch X c w) as [[x w']|]; [|reflexivity]. now rewrite IH, app_assoc.
Qed.
Lemma isets_st ch {A} (p : prog kcmd A) : forall w, isets ch (lift (@CSt) p) w = [].
Proof.
  induction p as [a|X c k IH]; intros w; [reflexivity|]. cbn [lift isets].
  destruct (chandler ch X (CSt c) w) as [[x w']|]; [|reflexivity]. cbn [iset_of app]. apply IH.
Qed.
Lemma isets_ix ch {A} (p : prog kcmd A) : forall w, w_faults w = [] -> isets ch (lift (@CIx) p) w = ksets p (w_ix w).
Proof.
  induction p as [a|X c k IH]; intros w Hw; [reflexivity|]. cbn [lift isets]. unfold chandler at 1. rewrite Hw.
  destruct c as [key|key v]; cbn [kv_fault_handler hd tl iset_of ksets app]; rewrite IH by reflexivity; reflexivity.
Qed.
Lemma isets_qbind ch {A B} (p : prog ccmd (res A)) (f : A -> prog ccmd (res B)) w :
  isets ch (qbind p f) w = isets ch p w ++ match run (chandler ch) p w with Some (Ok a, w') => isets ch (f a) w' | _ => [] end.
Proof. unfold qbind. rewrite isets_bind. destruct (run (chandler ch) p w) as [[[a|e|] w']|]; reflexivity. Qed.

Lemma step_key ch X (c : ccmd X) w x w' k : chandler ch X c w = Some (x, w') -> ~ In k (iset_of c) ->
  kv_get (w_ix w') k = kv_get (w_ix w) k.
Proof.
  destruct c as [X c|X c| | |b| | |]; cbn [chandler iset_of]; intros E N.
  - destruct (kv_fault_handler _ X c (w_st w, w_faults w)) as [[y [s fs]]|]; [|discriminate]. injection E as <- <-. reflexivity.
  - destruct c as [key|key v]; cbn [kv_fault_handler] in E.
    + injection E as <- <-. reflexivity.
    + assert (Nk: key <> k) by (intros ->; apply N; now left).
      destruct (hd Works (w_faults w)); injection E as <- <-; cbn [w_ix set_ix]; try reflexivity; now apply kv_get_set_other.
  - injection E as <- <-. reflexivity.
  - destruct (w_locked w); [discriminate|]. injection E as <- <-. reflexivity.
  - injection E as <- <-. reflexivity.
  - destruct (w_locked w); [discriminate|]. injection E as <- <-. reflexivity.
  - injection E as <- <-. reflexivity.
  - injection E as <- <-. reflexivity.
Qed.
Lemma run_key ch {A} (p : prog ccmd A) k : forall w a w1, run (chandler ch) p w = Some (a, w1) -> ~ In k (isets ch p w) ->
  kv_get (w_ix w1) k = kv_get (w_ix w) k.
Proof.
  induction p as [b|X c kk IH]; intros w a w1 E N; cbn [run isets] in *; [now injection E as <- <-|].
  destruct (chandler ch X c w) as [[x w']|] eqn:F; [|discriminate]. rewrite in_app_iff in N.
  rewrite (IH x w' a w1 E) by tauto. eapply step_key; [exact F|tauto].
Qed.
Theorem crash_key ch {A} (p : prog ccmd A) k : forall n w a w1, NoDup (isets ch p w) -> run (chandler ch) p w = Some (a, w1) ->
  let w' := snd (crash_at (chandler ch) n p w) in
  kv_get (w_ix w') k = kv_get (w_ix w) k \/ kv_get (w_ix w') k = kv_get (w_ix w1) k.
Proof.
  cbv zeta. induction p as [b|X c kk IH]; intros n w a w1 Nd E; [destruct n; left; reflexivity|]. destruct n as [|n]; [left; reflexivity|].
  cbn [run isets crash_at] in *. destruct (chandler ch X c w) as [[x w']|] eqn:F; [|left; reflexivity].
  destruct (in_dec (list_eq_dec Z.eq_dec) k (iset_of c)) as [Hi|Hn].
  - right. assert (Nk: ~ In k (isets ch (kk x) w')).
    { clear -Nd Hi. induction (iset_of c) as [|y l IHl]; [contradiction|]. cbn [app] in Nd. inversion Nd as [|z zs N1 N2]; subst.
      destruct Hi as [->|Hi]; [|now apply IHl]. intros Hk. apply N1. apply in_app_iff. now right. }
    assert (Nd': NoDup (isets ch (kk x) w')).
    { clear -Nd. induction (iset_of c) as [|y l IHl]; [assumption|]. cbn [app] in Nd. inversion Nd; subst. now apply IHl. }
    destruct (IH x n w' a w1 Nd' E) as [G|G]; [|exact G]. rewrite G. symmetry. eapply run_key; eassumption.
  - assert (Nd': NoDup (isets ch (kk x) w')).
    { clear -Nd. induction (iset_of c) as [|y l IHl]; [assumption|]. cbn [app] in Nd. inversion Nd; subst. now apply IHl. }
    destruct (IH x n w' a w1 Nd' E) as [G|G]; [left|right; exact G]. rewrite G. eapply step_key; eassumption.
Qed.

Lemma insert_NoDup ch ls p w : w_faults w = [] -> set_ok ls -> NoDup (isets ch (chunk_insert ch ls p) w).
Proof.
  intros Hf Hls. unfold chunk_insert, with_write_lock. rewrite isets_bind. cbn [isets call run chandler].
  destruct (w_locked w); [constructor|]. cbn [iset_of app]. destruct (w_poisoned w).
  { rewrite isets_bind. cbn [isets call run chandler iset_of app]. constructor. }
  rewrite isets_bind.
  match goal with |- NoDup (?a ++ ?b) => assert (b = []) as -> end.
  { destruct (run _ (insert_body ch ls p) _) as [[r w']|]; [|reflexivity]. rewrite isets_bind. reflexivity. }
  rewrite app_nil_r. unfold insert_body. destruct (negb _); [constructor|]. rewrite isets_qbind, isets_ix by (cbn; assumption).
  match goal with |- NoDup (ksets ?p ?s ++ _) => assert (ksets p s = []) as -> end.
  { destruct (c_indexer ch); cbn [series_id_by_labels]; unfold sled_by_labels, tikv_by_labels, qbind; rewrite ksets_bind; reflexivity. }
  cbn [app]. rewrite run_ix by (cbn; assumption). destruct (fst (krun _ _)) as [[id|]|e|]; try constructor.
  - rewrite isets_bind, isets_st. destruct (run _ _ _) as [[? ?]|]; constructor.
  - rewrite isets_bind. cbn [isets call run chandler iset_of app]. rewrite isets_qbind, isets_ix by reflexivity.
    match goal with |- NoDup (?a ++ ?b) => assert (b = []) as -> end.
    { rewrite run_ix by reflexivity. destruct (fst (krun (create_index _ _ _) _)) as [u|e|]; try reflexivity.
      rewrite isets_qbind, isets_st. destruct (run _ _ _) as [[[? |?|] ?]|]; reflexivity. }
    rewrite app_nil_r. now apply create_NoDup.
Qed.

(** ** stopping *)
Lemma crash_snoc {C W A} (h : handler C W) n : forall (p q q' : prog C A) w w' w'', crash_at h n p w = (q, w') -> step h q w' = Some (q', w'') ->
  exists m, crash_at h m p w = (q', w'').
Proof.
  induction n as [|n IH]; intros p q q' w w' w'' E St; cbn [crash_at] in E.
  - injection E as -> ->. exists 1%nat. destruct q as [a|X c k]; cbn [step] in St; [discriminate|]. cbn [crash_at].
    destruct (h X c w') as [[x w2]|]; [|discriminate]. injection St as <- <-. destruct (k x); reflexivity.
  - destruct p as [a|X c k]; [injection E as <- <-; discriminate St|]. destruct (h X c w) as [[x w1]|] eqn:F.
    + destruct (IH _ _ _ _ _ _ E St) as (m & Em). exists (S m). cbn [crash_at]. now rewrite F.
    + injection E as <- <-. cbn [step] in St. rewrite F in St. discriminate.
Qed.
Lemma crash_ret {C W A} (h : handler C W) n : forall (p : prog C A) w a w', crash_at h n p w = (Ret a, w') -> run h p w = Some (a, w').
Proof.
  induction n as [|n IH]; intros p w a w' E; cbn [crash_at] in E.
  - injection E as -> ->. reflexivity.
  - destruct p as [b|X c k]; [injection E as -> ->; reflexivity|]. cbn [run]. destruct (h X c w) as [[x w1]|] eqn:F; [|discriminate E].
    now apply IH.
Qed.
Lemma crash_map {C W A B} (h : handler C W) (f : A -> B) n : forall (p : prog C A) w,
  crash_at h n (bind p (fun x => Ret (f x))) w =
  (bind (fst (crash_at h n p w)) (fun x => Ret (f x)), snd (crash_at h n p w)).
Proof.
  induction n as [|n IH]; intros p w; [reflexivity|]. destruct p as [a|X c k]; [reflexivity|]. cbn [bind crash_at].
  destruct (h X c w) as [[x w1]|]; [apply IH|reflexivity].
Qed.
Lemma step_faults ch X (c : ccmd X) w x w' : chandler ch X c w = Some (x, w') -> w_faults w = [] -> w_faults w' = [].
Proof.
  destruct c as [X c|X c| | |b| | |]; cbn [chandler]; intros E Hf; rewrite ?Hf in E.
  - destruct c; cbn [kv_fault_handler hd tl] in E; injection E as <- <-; reflexivity.
  - destruct c; cbn [kv_fault_handler hd tl] in E; injection E as <- <-; reflexivity.
  - injection E as <- <-. exact Hf.
  - destruct (w_locked w); [discriminate|]. injection E as <- <-. exact Hf.
  - injection E as <- <-. exact Hf.
  - destruct (w_locked w); [discriminate|]. injection E as <- <-. exact Hf.
  - injection E as <- <-. exact Hf.
  - injection E as <- <-. exact Hf.
Qed.
Lemma crash_faults ch {A} n : forall (p : prog ccmd A) w, w_faults w = [] -> w_faults (snd (crash_at (chandler ch) n p w)) = [].
Proof.
  induction n as [|n IH]; intros p w Hf; [exact Hf|]. destruct p as [a|X c k]; [exact Hf|]. cbn [crash_at].
  destruct (chandler ch X c w) as [[x w1]|] eqn:F; [|exact Hf]. apply IH. eapply step_faults; eassumption.
Qed.
