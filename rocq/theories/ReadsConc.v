(* Queries and inserts of one chunk, interleaved. *)
From Coq Require Import ZifyBool ZifyNat Permutation Sorted.
From Verif Require Import Rust Prog Gorilla GorillaSpec Storage StorageSpec StorageProofs Compactor Labels Indexer IndexSpec
  LabelProofs IntersectProofs IndexProofs IndexHist Chunk ChunkSpec ChunkProofs ChunkFacts ConcSpec Conc CrashProofs
  ReadsSpec ReadsMay ReadsCrash.
Ltac Zify.zify_post_hook ::= Z.div_mod_to_equations.

(** ** contents only grow *)
Lemma grown_ins ch A r : grown A (ins ch A r).
Proof.
  intros i ls pts H. unfold ins. destruct (in_windowb ch _); [|exists pts; split; [assumption|apply prefix_refl]].
  destruct (add_nth (c_storage ch) A (fst r) (snd r) i ls pts H) as (pts' & E & [->|[-> _]]); eexists; (split; [exact E|]).
  - apply prefix_refl.
  - exists [snd r]. reflexivity.
Qed.
Lemma grown_fold ch h : forall A, grown A (fold_left (ins ch) h A).
Proof.
  induction h as [|r h IH]; intros A; [apply grown_refl|]. cbn [fold_left]. eapply grown_trans; [apply grown_ins|apply IH].
Qed.

(** ** programs that only read *)
Inductive reads : forall X, ccmd X -> Prop :=
| Rd_st k : reads _ (CSt (KGet k))
| Rd_ix k : reads _ (CIx (KGet k))
| Rd_pass : reads _ CReadPass.
Inductive readp {A} : prog ccmd A -> Prop :=
| RP_ret a : readp (Ret a)
| RP_do X c k : reads X c -> (forall x, readp (k x)) -> readp (Do c k).
Lemma readp_bind {A B} (p : prog ccmd A) (f : A -> prog ccmd B) : readp p -> (forall a, readp (f a)) -> readp (bind p f).
Proof. intros H F. induction H as [a|X c k Hc Hk IH]; [apply F|]. constructor; [assumption|]. intros x. apply IH. Qed.
Lemma readp_qbind {A B} (p : prog ccmd (res A)) (f : A -> prog ccmd (res B)) : readp p -> (forall a, readp (f a)) -> readp (qbind p f).
Proof. intros H F. apply readp_bind; [assumption|]. intros [a|e|]; [apply F|constructor..]. Qed.
Lemma readp_forM {A B} (f : A -> prog ccmd (res B)) l : (forall x, readp (f x)) -> readp (forM f l).
Proof.
  intros H. induction l as [|x l IH]; cbn [forM]; [constructor|]. apply readp_qbind; [apply H|]. intros b. apply readp_qbind; [assumption|]. intros. constructor.
Qed.
(* store programs that only read *)
Inductive gets {A} : prog kcmd A -> Prop :=
| G_ret a : gets (Ret a)
| G_do key k : (forall x, gets (k x)) -> gets (Do (KGet key) k).
Lemma gets_bind {A B} (p : prog kcmd A) (f : A -> prog kcmd B) : gets p -> (forall a, gets (f a)) -> gets (bind p f).
Proof. intros H F. induction H as [a|key k Hk IH]; [apply F|]. cbn [bind]. constructor. intros x. apply IH. Qed.
Lemma gets_qbind {A B} (p : prog kcmd (res A)) (f : A -> prog kcmd (res B)) : gets p -> (forall a, gets (f a)) -> gets (qbind p f).
Proof. intros H F. apply gets_bind; [assumption|]. intros [a|e|]; [apply F|constructor..]. Qed.
Lemma gets_call key : gets (call (KGet key)).
Proof. constructor. intros. constructor. Qed.
Lemma gets_forM {A B} (f : A -> prog kcmd (res B)) l : (forall x, gets (f x)) -> gets (forM f l).
Proof.
  intros H. induction l as [|x l IH]; cbn [forM]; [constructor|]. apply gets_qbind; [apply H|]. intros b. apply gets_qbind; [assumption|]. intros. constructor.
Qed.
Lemma gets_ix {A} (p : prog kcmd A) : gets p -> readp (lift (@CIx) p).
Proof. induction 1 as [a|key k Hk IH]; cbn [lift]; constructor; [constructor|assumption]. Qed.
Lemma gets_st {A} (p : prog kcmd A) : gets p -> readp (lift (@CSt) p).
Proof. induction 1 as [a|key k Hk IH]; cbn [lift]; constructor; [constructor|assumption]. Qed.

Lemma metadata_gets ix o q : gets (series_metadata_contains_labels ix o q).
Proof.
  destruct ix; cbn [series_metadata_contains_labels].
  - unfold sled_metadata, sled_contains. apply gets_qbind.
    + apply gets_qbind; [|constructor]. apply gets_forM. intros l. unfold sled_get_id. apply gets_qbind; [apply gets_call|constructor].
    + intros ids. apply gets_qbind; [|constructor]. apply gets_forM. intros id. apply gets_qbind; [apply gets_call|constructor].
  - unfold tikv_metadata, tikv_contains. apply gets_qbind.
    + apply gets_bind; [|constructor]. generalize (map (fun l => ident ++ encode_label l) q). intros ks. induction ks as [|k ks IH]; cbn [tikv_gets]; [constructor|].
      apply gets_bind; [apply gets_call|]. intros r. apply gets_bind; [assumption|constructor].
    + intros ids. apply gets_bind; [|constructor]. induction ids as [|id ids IH]; cbn [tikv_metas]; [constructor|].
      apply gets_bind; [apply gets_call|]. intros r. apply gets_bind; [assumption|constructor].
Qed.
Lemma query_reads ch bs o q s e : readp (chunk_query ch bs o q s e).
Proof.
  unfold chunk_query. apply readp_bind; [constructor; [constructor|]; intros; constructor|]. intros [|]; [constructor|].
  destruct (negb _); [constructor|]. apply readp_qbind; [apply gets_ix, metadata_gets|]. intros cs. apply readp_qbind; [|constructor].
  apply readp_forM. intros c. apply readp_qbind; [|constructor]. apply gets_st.
  destruct (c_storage ch); cbn [read_time_series]; unfold sled_read, tikv_read; (apply gets_qbind; [apply gets_call|constructor]).
Qed.
Lemma reads_same ch X c w x w' : reads X c -> w_faults w = [] -> chandler ch X c w = Some (x, w') -> w' = w.
Proof.
  intros Hc Hf. revert x. destruct Hc as [k|k|]; intros x E; cbn [chandler kv_fault_handler] in E.
  - injection E as _ <-. rewrite Hf. destruct w; cbn in *. now subst.
  - injection E as _ <-. rewrite Hf. destruct w; cbn in *. now subst.
  - destruct (w_locked w); [discriminate|]. now injection E as _ <-.
Qed.

(** ** the invariant *)
Lemma holding_map {A B} (f : A -> B) (p : prog ccmd A) : holding p -> holding (bind p (fun x => Ret (f x))).
Proof.
  induction 1 as [b k r Hk|X c k Hc Hk IH]; cbn [bind].
  - eapply Ho_unlock. cbn beta. rewrite Hk. reflexivity.
  - apply Ho_do; [assumption|]. exact IH.
Qed.

Lemma holding_no_lock {A} (p : prog ccmd A) : holding p -> wants_lock p = true -> False.
Proof. intros [b k r Hk|X c k Hc Hk]; [discriminate|]. destruct Hc; discriminate. Qed.

Section Interleaved.
  Variables (ch : chunk) (bs : bsearch) (ops : list cop) (Ast : content).
  Hypothesis (Hops : Forall cop_ok ops) (HL : Z.of_nat (length Ast + length ops) < 2 ^ 64).
  Notation prg := (cop_prog ch bs).
  Definition cont (order : list nat) : content := fold_left (ins ch) (reqs_of ops order) Ast.

  Lemma reqs_app a b : reqs_of ops (a ++ b) = reqs_of ops a ++ reqs_of ops b.
  Proof. induction a as [|i a IH]; [reflexivity|]. cbn [app reqs_of]. now rewrite IH, app_assoc. Qed.
  Lemma reqs_length order : (length (reqs_of ops order) <= length order)%nat.
  Proof.
    induction order as [|i order IH]; [reflexivity|]. cbn [reqs_of length]. rewrite app_length.
    destruct (nth_error ops i) as [[r|]|]; cbn [length]; lia.
  Qed.
  Lemma cont_grown a b : grown (cont a) (cont (a ++ b)).
  Proof. unfold cont. rewrite reqs_app, fold_left_app. apply grown_fold. Qed.
  Lemma cont_snoc a j r : nth_error ops j = Some (Ins r) -> cont (a ++ [j]) = ins ch (cont a) r.
  Proof. intros E. unfold cont. rewrite reqs_app, fold_left_app. cbn [reqs_of]. rewrite E. reflexivity. Qed.
  Lemma cont_length a : NoDup a -> (forall i, In i a -> exists r, nth_error ops i = Some (Ins r)) -> (length (cont a) <= length Ast + length ops)%nat.
  Proof.
    intros Nd H. unfold cont. pose proof (fold_ins_length ch (reqs_of ops a) Ast). pose proof (reqs_length a).
    assert (length a <= length ops)%nat; [|lia]. rewrite <- (seq_length (length ops) 0). apply NoDup_incl_length; [assumption|].
    intros i Hi. apply in_seq. destruct (H i Hi) as (r & E). assert (i < length ops)%nat by (apply nth_error_Some; congruence). lia.
  Qed.

  Notation ires := (insert_result ch).
  Lemma ins_run w a j r : crep ch w (cont a) -> (length (cont a) < length Ast + length ops)%nat -> nth_error ops j = Some (Ins r) ->
    exists w', run (chandler ch) (prg (Ins r)) w = Some (Inserted (ires r), w') /\ crep ch w' (cont (a ++ [j])).
  Proof.
    intros R L E. rewrite Forall_forall in Hops. pose proof (Hops _ (nth_error_In _ _ E)) as [Hls Hp]. cbn [cop_prog].
    rewrite run_bind. pose proof (insert_run ch w _ (fst r) (snd r) R Hls Hp ltac:(lia)) as I. unfold crun in I.
    rewrite (cont_snoc _ _ _ E). unfold insert_result, ins. destruct (in_windowb ch (tp_ts (snd r))).
    - destruct I as (w' & -> & R' & _). exists w'. split; [reflexivity|assumption].
    - rewrite I. exists w. split; [reflexivity|assumption].
  Qed.

  Definition settled (ts : list (prog ccmd answer)) (done : list nat) (skip : option nat) : Prop :=
    length ts = length ops /\ NoDup done /\
    (forall i, In i done -> exists r, nth_error ops i = Some (Ins r) /\ nth_error ts i = Some (Ret (Inserted (ires r)))) /\
    (forall i r, nth_error ops i = Some (Ins r) -> ~ In i done -> skip <> Some i -> nth_error ts i = Some (prg (Ins r))) /\
    (forall i o q s e, nth_error ops i = Some (Ask o q s e) -> exists p, nth_error ts i = Some p /\ readp p).
  Inductive inv (ts : list (prog ccmd answer)) (w : cworld) (done order : list nat) : Prop :=
  | I_free : order = done -> crep ch w (cont done) -> settled ts done None -> inv ts w done order
  | I_held j r n p wA : order = done ++ [j] -> ~ In j done -> nth_error ops j = Some (Ins r) -> crep ch wA (cont done) ->
      crash_at (chandler ch) n (prg (Ins r)) wA = (p, w) -> nth_error ts j = Some p -> holding p -> w_locked w = true ->
      settled ts done (Some j) -> inv ts w done order.

  Lemma ins_locking r : exists k, prg (Ins r) = Do CWriteLock k /\ forall b, holding (k b).
  Proof.
    cbn [cop_prog]. destruct (lop_locking ch (OpInsert (fst r) (snd r))) as (k & E & H). cbn [lop_prog] in E. rewrite E. cbn [bind].
    eexists. split; [reflexivity|]. intros b. apply holding_map. apply H.
  Qed.

  Lemma inv_faults ts w done order : inv ts w done order -> w_faults w = [].
  Proof.
    intros [_ R _|j r n p wA _ _ _ R E _ _ _ _]; [apply (cr_faults _ _ _ R)|].
    pose proof (crash_faults ch n (prg (Ins r)) wA (cr_faults _ _ _ R)) as F. rewrite E in F. exact F.
  Qed.

  Lemma more_room done j r : NoDup done -> ~ In j done -> nth_error ops j = Some (Ins r) ->
    (forall i, In i done -> exists r, nth_error ops i = Some (Ins r)) -> (length (cont done) < length Ast + length ops)%nat.
  Proof.
    intros Nd Nj Ej H. unfold cont. pose proof (fold_ins_length ch (reqs_of ops done) Ast). pose proof (reqs_length done).
    assert (length (j :: done) <= length ops)%nat; [|cbn [length] in *; lia].
    rewrite <- (seq_length (length ops) 0). apply NoDup_incl_length; [now constructor|].
    assert (B: forall i x, nth_error ops i = Some x -> In i (seq 0 (length ops))).
    { intros i x E. apply in_seq. assert (i < length ops)%nat by (apply nth_error_Some; congruence). lia. }
    intros i [<-|Hi]; [eapply B; exact Ej|]. destruct (H i Hi) as (r' & E). eapply B. exact E.
  Qed.

  (* what a thread that only reads can see *)
  Lemma observed ts w done order A0 A1 X c x w' : inv ts w done order -> reads X c -> chandler ch X c w = Some (x, w') ->
    grown A0 (cont done) -> grown (cont order) A1 -> GC ch A0 A1 X c x.
  Proof.
    intros Iv Hc E G0 G1.
    assert (KI: forall wB a k, crep ch wB (cont a) -> grown A0 (cont a) -> grown (cont a) A1 ->
      GI (c_indexer ch) (regs A1) (length A0) _ (KGet k) (Ok (kv_get (w_ix wB) k))).
    { intros wB a k R Ga Gb. cbn [GI]. exists (w_ix wB), (length (cont a)). split; [|reflexivity]. split; [now apply grown_length|].
      rewrite <- grown_regs by assumption. apply (cr_ix _ _ _ R). }
    assert (KS: forall wB a, crep ch wB (cont a) -> grown A0 (cont a) -> grown (cont a) A1 -> some_st ch A0 A1 (w_st wB)).
    { intros wB a R Ga Gb. exists (pts_of (cont a)). split; [apply (cr_st _ _ _ R)|]. intros id. split; now apply grown_pts. }
    pose proof (inv_faults _ _ _ _ Iv) as Hf.
    destruct Iv as [-> R (Le & Nd & Dn & Nw & Qr)|j r n p wA -> Nj Ej R Ec Tj Hp Lk (Le & Nd & Dn & Nw & Qr)].
    - revert x E. destruct Hc as [k|k|]; intros x E; cbn [chandler kv_fault_handler] in E; rewrite ?Hf in E; cbn [hd tl] in E.
      + injection E as <- _. cbn [GC GS]. exists (w_st w). split; [now apply (KS w done)|reflexivity].
      + injection E as <- _. cbn [GC]. now apply (KI w done).
      + rewrite (cr_locked _ _ _ R) in E. injection E as <- _. cbn [GC]. apply (cr_poison _ _ _ R).
    - assert (Room: (length (cont done) < length Ast + length ops)%nat).
      { apply (more_room done j r); try assumption. intros i Hi. destruct (Dn i Hi) as (r' & E' & _). eauto. }
      destruct (ins_run wA done j r R Room Ej) as (wE & Er & RE).
      assert (Ga: grown (cont done) A1) by (eapply grown_trans; [apply cont_grown|exact G1]).
      assert (Gb: grown A0 (cont (done ++ [j]))) by (eapply grown_trans; [exact G0|apply cont_grown]).
      rewrite Forall_forall in Hops. pose proof (Hops _ (nth_error_In _ _ Ej)) as [Hls Hp'].
      assert (Ew: w = snd (crash_at (chandler ch) n (prg (Ins r)) wA)) by (rewrite Ec; reflexivity).
      revert x E. destruct Hc as [k|k|]; intros x E; cbn [chandler kv_fault_handler] in E; rewrite ?Hf in E; cbn [hd tl] in E.
      + injection E as <- _. cbn [GC GS].
        assert (OS: one_set ch (prg (Ins r))) by (cbn [cop_prog]; apply one_then; [apply insert_one|intros; constructor]).
        destruct (one_set_crash ch _ OS n wA _ _ Er) as [F|F]; rewrite <- Ew in F; rewrite F.
        * exists (w_st wA). split; [now apply (KS wA done)|reflexivity].
        * exists (w_st wE). split; [now apply (KS wE (done ++ [j]))|reflexivity].
      + injection E as <- _. cbn [GC].
        assert (ND: NoDup (isets ch (prg (Ins r)) wA)).
        { cbn [cop_prog]. rewrite isets_bind. pose proof (insert_NoDup ch (fst r) (snd r) wA (cr_faults _ _ _ R) Hls) as N.
          destruct (run _ (chunk_insert ch _ _) wA) as [[? ?]|]; cbn [isets]; now rewrite app_nil_r. }
        destruct (crash_key ch (prg (Ins r)) k n wA _ _ ND Er) as [F|F]; rewrite <- Ew in F; rewrite F.
        * now apply (KI wA done).
        * now apply (KI wE (done ++ [j])).
      + rewrite Lk in E. discriminate.
  Qed.

  Lemma inv_step ts w done order i p p' w' : inv ts w done order -> nth_error ts i = Some p -> step (chandler ch) p w = Some (p', w') ->
    exists d, inv (upd ts i p') w' (done ++ d) (order ++ if wants_lock p then [i] else []).
  Proof.
    intros Iv Hi St. assert (Li: (i < length ts)%nat) by (apply nth_error_Some; congruence).
    pose proof (inv_faults _ _ _ _ Iv) as Hf.
    assert (Hop: exists c, nth_error ops i = Some c).
    { destruct (nth_error ops i) as [c|] eqn:E; [eauto|]. apply nth_error_None in E.
      destruct Iv as [_ _ (Le & _)|j0 r0 n0 p0 wA0 _ _ _ _ _ _ _ _ (Le & _)]; lia. }
    destruct Hop as (c & Eop).
    destruct c as [r|o q s e].
    - (* an insert *)
      destruct Iv as [-> R (Le & Nd & Dn & Nw & Qr)|j r' n pj wA -> Nj Ej R Ec Tj Hp Lk (Le & Nd & Dn & Nw & Qr)].
      + destruct (in_dec Nat.eq_dec i done) as [Hin|Hin].
        { destruct (Dn i Hin) as (r2 & _ & E2). assert (p = Ret (Inserted (ires r2))) by congruence. subst p. discriminate St. }
        assert (p = prg (Ins r)) as ->.
        { assert (X: nth_error ts i = Some (prg (Ins r))) by (apply Nw; [assumption|assumption|discriminate]). congruence. }
        destruct (ins_locking r) as (k & Ek & Hk).
        assert (C1: crash_at (chandler ch) 1 (prg (Ins r)) w = (p', w')).
        { rewrite Ek in St |- *. cbn [step crash_at] in *. destruct (chandler ch _ CWriteLock w) as [[x w2]|]; [|discriminate]. injection St as <- <-. destruct (k x); reflexivity. }
        rewrite Ek in St |- *. cbn [step chandler] in St. rewrite (cr_locked _ _ _ R) in St. injection St as <- <-.
        cbn [wants_lock]. exists []. rewrite app_nil_r.
        eapply (I_held _ _ done (done ++ [i]) i r 1%nat); try eassumption; try reflexivity.
        * rewrite nth_upd by assumption. now rewrite Nat.eqb_refl.
        * apply Hk.
        * split; [now rewrite upd_length|]. split; [assumption|]. split; [|split].
          -- intros j Hj. destruct (Dn j Hj) as (rj & Ej & Tj). exists rj. split; [assumption|]. rewrite nth_upd by assumption.
             destruct (Nat.eqb_spec j i) as [->|N]; [contradiction|assumption].
          -- intros j rj Ej Nj Sk. rewrite nth_upd by assumption. destruct (Nat.eqb_spec j i) as [->|N]; [congruence|].
             apply Nw; [assumption|assumption|discriminate].
          -- intros j o q s e Ej. destruct (Qr _ _ _ _ _ Ej) as (pq & Tq & Rq). exists pq. split; [|assumption]. rewrite nth_upd by assumption.
             destruct (Nat.eqb_spec j i) as [->|N]; [congruence|assumption].
      + destruct (Nat.eq_dec i j) as [->|Nij].
        * assert (pj = p) as -> by congruence. assert (r' = r) as -> by congruence. clear Tj.
          destruct (crash_snoc _ n _ _ _ _ _ _ Ec St) as (m & Em).
          destruct Hp as [b k rr Hk|X c k Hc Hk].
          -- cbn [step chandler] in St. injection St as <- <-. cbn [wants_lock]. rewrite app_nil_r.
             assert (Room: (length (cont done) < length Ast + length ops)%nat).
             { apply (more_room done j r); try assumption. intros i Hi'. destruct (Dn i Hi') as (r2 & E' & _). eauto. }
             destruct (ins_run wA done j r R Room Ej) as (wE & Er & RE).
             rewrite Hk in Em. pose proof (crash_ret _ _ _ _ _ _ Em) as Er2. rewrite Er in Er2. injection Er2 as <- ->.
             rewrite Hk. exists [j]. apply I_free; [reflexivity|assumption|].
             split; [now rewrite upd_length|]. split; [|split; [|split]].
             ++ apply (Permutation_NoDup (l := j :: done)); [apply Permutation_cons_append|]. now constructor.
             ++ intros i Hi'. apply in_app_iff in Hi' as [Hi'|[<-|[]]].
                ** destruct (Dn i Hi') as (rj & Ej' & Tj). exists rj. split; [assumption|]. rewrite nth_upd by assumption.
                   destruct (Nat.eqb_spec i j) as [->|N]; [contradiction|assumption].
                ** exists r. split; [assumption|]. rewrite nth_upd by assumption. now rewrite Nat.eqb_refl.
             ++ intros i ri Ei Ni _. rewrite nth_upd by assumption. destruct (Nat.eqb_spec i j) as [->|N].
                ** exfalso. apply Ni. apply in_app_iff. right. now left.
                ** apply Nw; [assumption| |congruence]. intros X. apply Ni. apply in_app_iff. now left.
             ++ intros i o q s e Ei. destruct (Qr _ _ _ _ _ Ei) as (pq & Tq & Rq). exists pq. split; [|assumption]. rewrite nth_upd by assumption.
                destruct (Nat.eqb_spec i j) as [->|N]; [congruence|assumption].
          -- destruct (plain_runs ch X c w Hc) as (x & w2 & E & El). cbn [step] in St. rewrite E in St. injection St as <- <-.
             assert (wants_lock (Do c k) = false) as -> by (destruct Hc; reflexivity). exists []. rewrite !app_nil_r.
             eapply (I_held _ _ done (done ++ [j]) j r m (k x) wA); try eassumption; try reflexivity.
             ++ rewrite nth_upd by assumption. now rewrite Nat.eqb_refl.
             ++ apply Hk.
             ++ congruence.
             ++ split; [now rewrite upd_length|]. split; [assumption|]. split; [|split].
                ** intros i Hi'. destruct (Dn i Hi') as (rj & Ej' & Tj). exists rj. split; [assumption|]. rewrite nth_upd by assumption.
                   destruct (Nat.eqb_spec i j) as [->|N]; [contradiction|assumption].
                ** intros i ri Ei Ni Sk. rewrite nth_upd by assumption. destruct (Nat.eqb_spec i j) as [->|N]; [congruence|].
                   now apply Nw.
                ** intros i o q s e Ei. destruct (Qr _ _ _ _ _ Ei) as (pq & Tq & Rq). exists pq. split; [|assumption]. rewrite nth_upd by assumption.
                   destruct (Nat.eqb_spec i j) as [->|N]; [congruence|assumption].
        * exfalso. destruct (in_dec Nat.eq_dec i done) as [Hin|Hin].
          { destruct (Dn i Hin) as (r2 & _ & E2). assert (p = Ret (Inserted (ires r2))) by congruence. subst p. discriminate St. }
          assert (p = prg (Ins r)) as ->.
          { assert (X: nth_error ts i = Some (prg (Ins r))) by (apply Nw; [assumption|assumption|congruence]). congruence. }
          destruct (ins_locking r) as (k & Ek & Hk). rewrite Ek in St. cbn [step chandler] in St. rewrite Lk in St. discriminate.
    - (* a query *)
      assert (Rp: readp p).
      { destruct Iv as [_ _ (_ & _ & _ & _ & Qr)|j0 r0 n0 p0 wA0 _ _ _ _ _ _ _ _ (_ & _ & _ & _ & Qr)];
          destruct (Qr _ _ _ _ _ Eop) as (pq & Tq & Rq); assert (pq = p) by congruence; now subst. }
      destruct Rp as [a|X c k Hc Hk]; [discriminate St|]. cbn [step] in St.
      destruct (chandler ch X c w) as [[x w2]|] eqn:E; [|discriminate]. injection St as <- <-.
      pose proof (reads_same ch X c w x w2 Hc Hf E) as ->.
      assert (wants_lock (Do c k) = false) as -> by (destruct Hc; reflexivity). exists []. rewrite !app_nil_r.
      assert (SE: forall sk, settled ts done sk -> settled (upd ts i (k x)) done sk).
      { intros sk (Le & Nd & Dn & Nw & Qr). split; [now rewrite upd_length|]. split; [assumption|]. split; [|split].
        - intros j Hj. destruct (Dn j Hj) as (rj & Ej & Tj). exists rj. split; [assumption|]. rewrite nth_upd by assumption.
          destruct (Nat.eqb_spec j i) as [->|N]; [congruence|assumption].
        - intros j rj Ej Nj Sk. rewrite nth_upd by assumption. destruct (Nat.eqb_spec j i) as [->|N]; [congruence|]. now apply Nw.
        - intros j o' q' s' e' Ej. rewrite nth_upd by assumption. destruct (Nat.eqb_spec j i) as [->|N]; [|now apply (Qr j o' q' s' e')].
          exists (k x). split; [reflexivity|apply Hk]. }
      destruct Iv as [-> R Se|j r' n pj wA -> Nj Ej R Ec Tj Hp Lk Se].
      + apply I_free; [reflexivity|assumption|now apply SE].
      + eapply (I_held _ _ done (done ++ [j]) j r' n pj wA); try eassumption; try reflexivity; [|now apply SE].
        rewrite nth_upd by assumption. destruct (Nat.eqb_spec j i) as [->|N]; [congruence|assumption].
  Qed.

  Lemma inv_sched sched : forall ts w done order A0, inv ts w done order -> grown A0 (cont done) ->
    let ts' := fst (interleave (chandler ch) sched ts w) in
    let order' := order ++ lock_order (chandler ch) sched ts w in
    exists d, inv ts' (snd (interleave (chandler ch) sched ts w)) (done ++ d) order' /\
      forall j o q s e p r, nth_error ops j = Some (Ask o q s e) -> nth_error ts j = Some p -> nth_error ts' j = Some (Ret r) ->
        may (GC ch A0 (cont order')) p r.
  Proof.
    cbv zeta. induction sched as [|i sched IH]; intros ts w done order A0 Iv G; cbn [interleave lock_order].
    - exists []. rewrite !app_nil_r. split; [assumption|]. intros j o q s e p r _ H1 H2. cbn [fst] in H2. assert (p = Ret r) as -> by congruence. reflexivity.
    - destruct (nth_error ts i) as [p|] eqn:Hi; [|now apply IH].
      destruct (step (chandler ch) p w) as [[p' w']|] eqn:St; [|now apply IH].
      destruct (inv_step _ _ _ _ _ _ _ _ Iv Hi St) as (d & Iv').
      destruct (IH _ _ _ _ A0 Iv') as (d' & Iv2 & Q); [eapply grown_trans; [exact G|apply cont_grown]|].
      exists (d ++ d'). rewrite app_assoc. rewrite app_assoc. split; [assumption|].
      intros j o q s e pj r Ej Tj Rj. assert (Li: (i < length ts)%nat) by (apply nth_error_Some; congruence).
      specialize (Q j o q s e). rewrite nth_upd in Q by assumption.
      destruct (Nat.eqb_spec j i) as [->|N]; [|now apply Q].
      specialize (Q p' r Ej eq_refl Rj). assert (pj = p) as -> by congruence.
      assert (Rp: readp p).
      { destruct Iv as [_ _ (_ & _ & _ & _ & Qr)|j0 r0 n0 p0 wA0 _ _ _ _ _ _ _ _ (_ & _ & _ & _ & Qr)];
          destruct (Qr _ _ _ _ _ Ej) as (pq & Tq & Rq); assert (pq = p) by congruence; now subst. }
      destruct Rp as [a|X c k Hc Hk]; [discriminate St|]. cbn [step] in St.
      destruct (chandler ch X c w) as [[x w2]|] eqn:E; [|discriminate]. injection St as <- <-. cbn [may]. exists x. split; [|exact Q].
      eapply observed; [exact Iv|exact Hc|exact E|exact G|]. rewrite <- app_assoc. apply cont_grown.
  Qed.

  Lemma inv_start w : crep ch w Ast -> inv (map prg ops) w [] [].
  Proof.
    intros R. apply I_free; [reflexivity|exact R|]. split; [apply map_length|]. split; [constructor|]. split; [intros i []|]. split.
    - intros i r E _ _. rewrite (map_nth_error _ _ _ E). reflexivity.
    - intros i o q s e E. rewrite (map_nth_error _ _ _ E). eexists. split; [reflexivity|]. cbn [cop_prog].
      apply readp_bind; [apply query_reads|constructor].
  Qed.

  (* exactly the inserts that have returned are done *)
  Lemma inv_done ts w done order i : inv ts w done order ->
    In i done <-> exists r, nth_error ops i = Some (Ins r) /\ exists a, nth_error ts i = Some (Ret a).
  Proof.
    intros Iv. split.
    - intros Hi. destruct Iv as [_ _ (_ & _ & Dn & _)|j0 r0 n0 p0 wA0 _ _ _ _ _ _ _ _ (_ & _ & Dn & _)]; destruct (Dn i Hi) as (r & E & T); eauto.
    - intros (r & E & a & T). destruct (in_dec Nat.eq_dec i done) as [Hin|Hin]; [assumption|exfalso].
      destruct (ins_locking r) as (k & Ek & _).
      destruct Iv as [_ _ (_ & _ & _ & Nw & _)|j r' n p wA _ Nj Ej _ _ Tj Hp _ (_ & _ & _ & Nw & _)].
      + rewrite (Nw i r E Hin) in T by discriminate. congruence.
      + destruct (Nat.eq_dec j i) as [->|N]; [|rewrite (Nw i r E Hin) in T by congruence; congruence].
        assert (p = Ret a) as -> by congruence. inversion Hp.
  Qed.
  Lemma inv_wf ts w done order : inv ts w done order -> NoDup order /\ (exists d, order = done ++ d) /\
    (forall i, In i order -> exists r, nth_error ops i = Some (Ins r) /\ nth_error ts i <> Some (prg (Ins r))) /\
    wfc (cont order) /\ Z.of_nat (length (cont order)) < 2 ^ 64 /\
    (forall i r a, nth_error ops i = Some (Ins r) -> nth_error ts i = Some (Ret a) -> a = Inserted (ires r)) /\
    ((forall i, In i order -> exists a, nth_error ts i = Some (Ret a)) -> crep ch w (cont order)).
  Proof.
    intros Iv.
    assert (DI: forall done', (forall i, In i done' -> exists r, nth_error ops i = Some (Ins r) /\ nth_error ts i = Some (Ret (Inserted (ires r)))) ->
      forall i, In i done' -> exists r, nth_error ops i = Some (Ins r) /\ nth_error ts i <> Some (prg (Ins r))).
    { intros done' H i Hi. destruct (H i Hi) as (r & E & T). exists r. split; [assumption|]. rewrite T. destruct (ins_locking r) as (k & Ek & _). rewrite Ek. discriminate. }
    assert (RR: forall done' : list nat, (forall i, In i done' -> exists r, nth_error ops i = Some (Ins r) /\ nth_error ts i = Some (Ret (Inserted (ires r)))) ->
      forall i r a, In i done' -> nth_error ops i = Some (Ins r) -> nth_error ts i = Some (Ret a) -> a = Inserted (ires r)).
    { intros done' H i r a Hi E T. destruct (H i Hi) as (r' & E' & T'). congruence. }
    pose proof (fun i => inv_done ts w done order i Iv) as ID.
    destruct Iv as [-> R (Le & Nd & Dn & Nw & Qr)|j r n p wA -> Nj Ej R Ec Tj Hp Lk (Le & Nd & Dn & Nw & Qr)].
    - split; [assumption|]. split; [exists []; now rewrite app_nil_r|]. split; [now apply DI|]. split; [apply (cr_wf _ _ _ R)|]. split; [|split].
      + pose proof (cont_length done Nd) as L. specialize (L (fun i Hi => match Dn i Hi with ex_intro _ r (conj E _) => ex_intro _ r E end)). lia.
      + intros i r a E T. apply (RR done Dn i); [|assumption|assumption]. apply ID. eauto.
      + intros _. assumption.
    - assert (Room: (length (cont done) < length Ast + length ops)%nat).
      { apply (more_room done j r); try assumption. intros i Hi'. destruct (Dn i Hi') as (r2 & E' & _). eauto. }
      destruct (ins_run wA done j r R Room Ej) as (wE & Er & RE).
      split; [|split; [exists [j]; reflexivity|split; [|split; [apply (cr_wf _ _ _ RE)|split; [|split]]]]].
      + apply (Permutation_NoDup (l := j :: done)); [apply Permutation_cons_append|]. now constructor.
      + intros i Hi. apply in_app_iff in Hi as [Hi|[<-|[]]]; [now apply (DI done)|]. exists r. split; [assumption|]. rewrite Tj.
        destruct (ins_locking r) as (k & Ek & _). rewrite Ek. intros X. injection X as ->. apply (holding_no_lock _ Hp). reflexivity.
      + rewrite (cont_snoc _ _ _ Ej). pose proof (ins_length ch (cont done) r). lia.
      + intros i r' a E T. apply (RR done Dn i r'); [|assumption|assumption]. apply ID. eauto.
      + intros H. exfalso. destruct (H j) as (a & Ta); [apply in_app_iff; right; now left|]. assert (p = Ret a) as -> by congruence. inversion Hp.
  Qed.
End Interleaved.

(** ** schedules *)
Lemma interleave_app {C W A} (h : handler C W) s1 s2 : forall (ts : list (prog C A)) w,
  interleave h (s1 ++ s2) ts w = interleave h s2 (fst (interleave h s1 ts w)) (snd (interleave h s1 ts w)).
Proof.
  induction s1 as [|i s1 IH]; intros ts w; [reflexivity|]. cbn [app interleave].
  destruct (nth_error ts i) as [p|]; [|apply IH]. destruct (step h p w) as [[p' w']|]; apply IH.
Qed.
Lemma lock_order_app {A} h s1 s2 : forall (ts : list (prog ccmd A)) w,
  lock_order h (s1 ++ s2) ts w = lock_order h s1 ts w ++ lock_order h s2 (fst (interleave h s1 ts w)) (snd (interleave h s1 ts w)).
Proof.
  induction s1 as [|i s1 IH]; intros ts w; [reflexivity|]. cbn [app interleave lock_order].
  destruct (nth_error ts i) as [p|]; [|apply IH]. destruct (step h p w) as [[p' w']|]; [|apply IH]. now rewrite IH, app_assoc.
Qed.
Lemma interleave_other {C W A} (h : handler C W) s j : ~ In j s -> forall (ts : list (prog C A)) w,
  nth_error (fst (interleave h s ts w)) j = nth_error ts j.
Proof.
  induction s as [|i s IH]; intros N ts w; [reflexivity|]. cbn [interleave].
  assert (Ni: i <> j) by (intros ->; apply N; now left). assert (Ns: ~ In j s) by (intros X; apply N; now right).
  destruct (nth_error ts i) as [p|] eqn:E; [|now apply IH]. destruct (step h p w) as [[p' w']|]; [|now apply IH].
  rewrite IH by assumption. rewrite nth_upd by (apply nth_error_Some; congruence). destruct (Nat.eqb_spec j i); [congruence|reflexivity].
Qed.

Theorem reads_between ch bs h ops s1 s2 w : Forall ireq_ok h -> Forall cop_ok ops -> Z.of_nat (length h + length ops) < 2 ^ 64 ->
  after ch h = Some w ->
  let ts := map (cop_prog ch bs) ops in
  let ts1 := fst (interleave (chandler ch) s1 ts w) in
  let ts2 := fst (interleave (chandler ch) (s1 ++ s2) ts w) in
  let w2 := snd (interleave (chandler ch) (s1 ++ s2) ts w) in
  let order := lock_order (chandler ch) (s1 ++ s2) ts w in
  exists done,
    prefix done order /\ NoDup order /\
    (forall i, In i done <-> exists r, nth_error ops i = Some (Ins r) /\ exists a, nth_error ts1 i = Some (Ret a)) /\
    (forall i, In i order -> exists r, nth_error ops i = Some (Ins r) /\ nth_error ts2 i <> Some (cop_prog ch bs (Ins r))) /\
    (forall i r a, nth_error ops i = Some (Ins r) -> nth_error ts2 i = Some (Ret a) -> a = Inserted (insert_result ch r)) /\
    ((forall i, In i order -> exists a, nth_error ts2 i = Some (Ret a)) -> crep ch w2 (content_of ch (h ++ reqs_of ops order))) /\
    forall j o q s e a, nth_error ops j = Some (Ask o q s e) -> ~ In j s1 -> nth_error ts2 j = Some (Ret a) ->
      exists M, seen (content_of ch (h ++ reqs_of ops done)) (content_of ch (h ++ reqs_of ops order)) q M /\
        a = Queried (answer_from ch (stored_read (c_storage ch) bs s e) M s e).
Proof.
  intros H Hops L Ew. cbv zeta.
  destruct (after_content ch h H ltac:(lia)) as (w0 & Ew0 & R). assert (w0 = w) as -> by congruence. pose proof (content_length ch h) as CL.
  assert (HL: Z.of_nat (length (content_of ch h) + length ops) < 2 ^ 64) by lia.
  pose proof (inv_start ch bs ops (content_of ch h) w R) as I0.
  destruct (inv_sched ch bs ops (content_of ch h) Hops HL s1 _ _ _ _ (content_of ch h) I0 (grown_refl _)) as (d1 & I1 & _).
  cbn [app] in I1.
  destruct (inv_sched ch bs ops (content_of ch h) Hops HL s2 _ _ _ _ _ I1 (grown_refl _)) as (d2 & I2 & Q2).
  rewrite <- interleave_app in I2. rewrite <- lock_order_app in I2.
  rewrite <- interleave_app in Q2. rewrite <- lock_order_app in Q2.
  assert (Ec: forall a, cont ch ops (content_of ch h) a = content_of ch (h ++ reqs_of ops a)).
  { intros a. unfold cont, content_of. now rewrite fold_left_app. }
  destruct (inv_wf ch bs ops _ Hops HL _ _ _ _ I2) as (N2 & (d & E2) & B2 & W2 & L2 & R2 & F2). rewrite Ec in *.
  assert (FR: Forall ireq_ok (h ++ reqs_of ops (lock_order (chandler ch) (s1 ++ s2) (map (cop_prog ch bs) ops) w))).
  { apply Forall_app. split; [assumption|]. generalize (lock_order (chandler ch) (s1 ++ s2) (map (cop_prog ch bs) ops) w). intros l. induction l as [|i l IH]; [constructor|].
    cbn [reqs_of]. apply Forall_app. split; [|assumption]. destruct (nth_error ops i) as [[r|]|] eqn:E; constructor; [|constructor].
    rewrite Forall_forall in Hops. apply (Hops _ (nth_error_In _ _ E)). }
  exists d1. split; [exists (d2 ++ d); now rewrite app_assoc|]. split; [assumption|].
  split; [intros i; apply (inv_done ch bs ops _ _ _ _ _ i I1)|]. split; [assumption|]. split; [assumption|]. split; [assumption|].
  intros j o q s e a Ej Nj Ta.
  assert (T1: nth_error (fst (interleave (chandler ch) s1 (map (cop_prog ch bs) ops) w)) j = Some (cop_prog ch bs (Ask o q s e))).
  { rewrite interleave_other by assumption. now apply map_nth_error. }
  pose proof (Q2 j o q s e _ a Ej T1 Ta) as Mq. rewrite !Ec in Mq. cbn [cop_prog] in Mq. apply may_bind in Mq as (r & Mq & Er). cbn [may] in Er.
  assert (G: grown (content_of ch (h ++ reqs_of ops d1)) (content_of ch (h ++ reqs_of ops (lock_order (chandler ch) (s1 ++ s2) (map (cop_prog ch bs) ops) w)))).
  { rewrite E2. rewrite <- !Ec. rewrite <- app_assoc. apply cont_grown. }
  rewrite Forall_forall in Hops. pose proof (Hops _ (nth_error_In _ _ Ej)) as Hq. cbn [cop_ok] in Hq.
  destruct (query_may ch bs _ _ G L2 (wf_sets _ W2) o q s e r Hq Mq) as (M & Se & ->). exists M. split; [assumption|]. rewrite Er. f_equal.
  unfold answer_from. destruct (_ || _); [reflexivity|]. apply collect_ext. intros [id [ls pts]] Hx. cbn [snd].
  destruct (se_real _ _ _ _ Se _ _ _ Hx) as (pts1 & Hn & (c & Ep)). apply numbered_In in Hn as (i & Hn & _). cbn [snd] in Hn. apply nth_error_In in Hn.
  symmetry. apply stored_reader.
  - pose proof (wf_pts _ W2) as F. rewrite Forall_forall in F. pose proof (F _ Hn) as F'. cbn [snd] in F'. rewrite Ep in F'. now apply Forall_app in F'.
  - intros i' Ei. pose proof (tikv_content_increasing ch i' (h ++ reqs_of ops (lock_order (chandler ch) (s1 ++ s2) (map (cop_prog ch bs) ops) w)) Ei) as F. unfold all_increasing in F.
    rewrite Forall_forall in F. specialize (F _ Hn). cbn [snd] in F. rewrite Ep in F.
    clear -F. induction pts as [|x l IH]; [exact I|]. cbn [app increasing] in *. destruct F as [F1 F2]. apply Forall_app in F1. split; [tauto|now apply IH].
Qed.
