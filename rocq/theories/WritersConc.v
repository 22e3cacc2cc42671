(* Proofs about clients, queries and the swap thread interleaved: all threads together. *)
From Coq Require Import ZifyBool ZifyNat Permutation.
From Verif Require Import Rust StringProofs Prog Gorilla GorillaSpec Storage StorageSpec StorageProofs Labels IndexSpec Indexer
  LabelProofs IndexProofs Chunk ChunkSpec ChunkProofs ChunkFacts Conc Utils DirSpec DirProofs TiKvInit Db DbSpec MapProofs
  DbProofs DbHist DbFacts SwapSpec SwapProofs SwapConc SwapMain WritersSpec WritersProofs ReadsCrash.
Local Notation plain := SwapProofs.plain.

(** ** lists *)
Lemma upd_app {A} (l m : list A) i x : (i < length l)%nat -> upd (l ++ m) i x = upd l i x ++ m.
Proof.
  intros H. unfold upd. rewrite firstn_app, skipn_app. replace (i - length l)%nat with 0%nat by lia. cbn [firstn skipn]. rewrite app_nil_r, <- app_assoc. f_equal.
  destruct (skipn i l) eqn:E; [|reflexivity]. apply (f_equal (@length A)) in E. rewrite skipn_length in E. cbn in E. lia.
Qed.
Lemma Forall_upd {A} (P : A -> Prop) l i x : Forall P l -> P x -> Forall P (upd l i x).
Proof.
  intros H Hx. revert i. induction H as [|y l Hy H IH]; intros i; [destruct i; constructor|]. destruct i as [|i].
  - unfold upd. cbn [firstn skipn app]. constructor; assumption.
  - rewrite upd_cons. constructor; [assumption|apply IH].
Qed.

Ltac wsimp := cbv [set_heap set_fs set_curl set_secl set_cur set_sec free_lock rw_read rw_write rw_unread rw_unwrite];
  cbn [d_heap d_cur d_sec d_curl d_secl d_fs rw_readers rw_writer rw_poisoned pred negb orb Nat.eqb fst snd].

(** ** the swap in pieces *)
Definition cI (new old : nat) : prog dcmd (res unit) :=
  bind (lift (fun X c => @DC X old c) chunk_close) (fun r =>
    match r with
    | Ok _ => Do (DCurStore new) (fun _ => Do (DCurUnwrite false) (fun _ => Ret (Ok tt)))
    | Err x => Do (DCurUnwrite false) (fun _ => Ret (Err x))
    | Panic => Do (DCurUnwrite true) (fun _ => Ret Panic)
    end).
Definition cG (new : nat) : prog dcmd (res unit) :=
  Do DCurWrite (fun c : bool * (nat * chunk) => if fst c then Do (DCurUnwrite true) (fun _ => Ret Panic) else cI new (fst (snd c))).
Definition cF (new : nat) : prog dcmd (res unit) := Do DCurUnread (fun _ => cG new).
Definition cE (new : nat) : prog dcmd (res unit) := Do (DSecUnwrite false) (fun _ => cF new).
Definition cD (new old : nat) : prog dcmd (res unit) := Do (DSecPush old) (fun _ => cE new).
Definition cC (new old : nat) : prog dcmd (res unit) :=
  Do DSecWrite (fun po => if po : bool then Do (DSecUnwrite true) (fun _ => Do DCurUnread (fun _ => Ret Panic)) else cD new old).
Definition cB (new : nat) : prog dcmd (res unit) :=
  Do DCurRead (fun c : bool * (nat * chunk) => if fst c then Do DCurUnread (fun _ => Ret Panic) else cC new (fst (snd c))).
Definition cA (r : res dchunk) : prog dcmd (res unit) :=
  match r with Ok nd => Do (DAlloc nd) cB | Err e => Ret (Err e) | Panic => Ret Panic end.
Lemma swap_pieces cf s : peq (db_swap cf s) (bind (lift (@DF) (create_chunk cf s)) cA).
Proof.
  unfold db_swap, qbind. apply peq_bind; [apply peq_refl|]. intros [nd|e|]; cbn [cA]; try apply peq_refl.
  cbn [bind call]. constructor. intros new. unfold with_current. cbn [bind call]. constructor. intros [[] [old ch]]; cbn [bind fst snd call].
  - constructor. intros _. cbn [bind]. apply peq_refl.
  - constructor. intros [|]; cbn [bind call].
    + constructor. intros _. cbn [bind]. constructor. intros _. apply peq_refl.
    + constructor. intros _. cbn [bind]. constructor. intros _. cbn [bind]. constructor. intros _. cbn [bind]. constructor.
      intros [[] [old' ch']]; cbn [fst snd bind]; [apply peq_refl|]. unfold cI. apply peq_bind; [apply peq_refl|]. intros [u|e|]; apply peq_refl.
Qed.
(* the end of the swap, with the write guard *)
Definition soft X (c : ccmd X) (Q : X -> Prop) : Prop := forall ch cw x cw', w_poisoned cw = false -> chandler ch X c cw = Some (x, cw') ->
  Q x /\ w_st cw' = w_st cw /\ w_ix cw' = w_ix cw /\ w_poisoned cw' = false.
Inductive closing : prog dcmd (res unit) -> Prop :=
| Cl_end u k r : k tt = Ret r -> closing (Do (DCurUnwrite u) k)
| Cl_DC X i (c : ccmd X) Q k : soft X c Q -> (forall x, Q x -> closing (k x)) -> closing (Do (DC i c) k)
| Cl_store i k : closing (k tt) -> closing (Do (DCurStore i) k).
Lemma closing_cI new old : closing (cI new old).
Proof.
  unfold cI, chunk_close, with_write_lock. cbn [bind lift call].
  apply (Cl_DC _ _ _ (fun x => x = false)).
  { intros ch cw x cw' Hp H. cbn [chandler] in H. destruct (w_locked cw); [discriminate|]. injection H as <- <-. cbn. auto. }
  intros x ->. cbn [bind lift call]. apply (Cl_DC _ _ _ (fun _ => True)).
  { intros ch cw x cw' Hp H. cbn [chandler] in H. injection H as _ <-. cbn. auto. }
  intros [] _. cbn [bind lift call is_panic]. apply (Cl_DC _ _ _ (fun _ => True)).
  { intros ch cw x cw' Hp H. cbn [chandler] in H. injection H as _ <-. cbn. rewrite Hp. auto. }
  intros [] _. cbn [bind lift]. constructor. eapply Cl_end. reflexivity.
Qed.
(* same stores *)
Definition alike (d1 d : dchunk) : Prop :=
  dc_chunk d1 = dc_chunk d /\ w_st (dc_world d1) = w_st (dc_world d) /\ w_ix (dc_world d1) = w_ix (dc_world d) /\ w_poisoned (dc_world d1) = false.

Inductive kind := IC (c : option (nat * chunk)) | IL | IR (a b : bool).
Definition cg (k : kind) : nat := match k with IC None => 0 | IC (Some _) => 1 | IL => 1 | IR a _ => b2n a end.
Definition sg (k : kind) : nat := match k with IR _ b => b2n b | _ => 0 end.
Definition il (k : kind) : nat := match k with IL => 1 | _ => 0 end.
Definition sum (f : kind -> nat) (l : list kind) : nat := list_sum (map f l).
Inductive phase :=
| Idle
| Making (s : Z) (q : prog fcmd (res dchunk)) (f : fworld)
| Mid (s : Z) (nd : dchunk) (g : fworld) (n : nat)
| Closing (q : prog dcmd (res unit)) (r : res unit).
Inductive role := Cl (spec : goal) | Rd.

Definition guard (ph : phase) : nat := match ph with Mid _ _ _ n => if (1 <=? n)%nat && (n <=? 4)%nat then 1 else 0 | _ => 0 end.
Definition secw (ph : phase) : bool := match ph with Mid _ _ _ n => (n =? 2)%nat || (n =? 3)%nat | _ => false end.
Definition extra (ph : phase) : list dchunk := match ph with Mid _ nd _ _ => [nd] | _ => [] end.
Definition pushed (ph : phase) (old : nat) : list nat := match ph with Mid _ _ _ n => if (3 <=? n)%nat then [old] else [] | _ => [] end.
Definition fsof (ph : phase) (v : dworld) : fworld := match ph with Making _ _ f => f | Mid _ _ g _ => g | _ => d_fs v end.
Definition infl (v : dworld) (fl : option cworld) : list dchunk :=
  match fl, nth_error (d_heap v) (d_cur v) with
  | Some cw, Some d => upd (d_heap v) (d_cur v) (mkDc (dc_chunk d) cw (dc_name d))
  | _, _ => d_heap v
  end.
Definition openw (v : dworld) (fl : option cworld) (ph : phase) (m n : nat) : dworld :=
  mkD (infl v fl ++ extra ph) (d_cur v) (d_sec v ++ pushed ph (d_cur v)) (mkRw (m + guard ph) false false) (mkRw n (secw ph) false) (fsof ph v).
Definition flok (fl : option cworld) : Prop := match fl with Some cw => w_locked cw = true /\ w_faults cw = [] | None => True end.
Definition calm (d : dchunk) : Prop := w_faults (dc_world d) = [].
Definition shape (v : dworld) (fl : option cworld) (ph : phase) (m n : nat) (w : dworld) : Prop :=
  match ph with
  | Closing q r => exists w1, w = set_secl w1 (mkRw n false false) /\ d_secl w1 = free_lock /\ d_curl w1 = mkRw 0 true false /\
      run dhandler q w1 = Some (r, v) /\ closing q /\ m = 0%nat /\ fl = None /\ Forall2 alike (d_heap w1) (d_heap v) /\ d_sec w1 = d_sec v /\ Forall calm (d_heap w1)
  | _ => w = openw v fl ph m n
  end.
Definition mid_prog (new old n : nat) : prog dcmd (res unit) :=
  match n with 0 => cB new | 1 => cC new old | 2 => cD new old | 3 => cE new | 4 => cF new | _ => cG new end%nat.
Definition chunk_at (v : dworld) : option chunk := option_map dc_chunk (nth_error (d_heap v) (d_cur v)).

Section ALL.
  Variable cf : config.
  Variable R : list label -> tp -> Prop.
  Variable Good : dchunk -> Prop.
  Variable Fok : fworld -> Prop.
  Hypothesis Good_plain : forall d, Good d -> plain d.
  Hypothesis Good_insert : forall d ls p r w', Good d -> R ls p ->
    crun (dc_chunk d) (chunk_insert (dc_chunk d) ls p) (dc_world d) = Some (r, w') -> r <> Panic /\ Good (mkDc (dc_chunk d) w' (dc_name d)).
  Hypothesis Good_new : forall s f r g, Fok f -> run fhandler (create_chunk cf s) f = Some (r, g) -> Fok g /\ forall nd, r = Ok nd -> Good nd.
  Local Notation cli := (cli R).
  Local Notation rot := (rot cf).

  Record vok (v : dworld) : Prop := mkV {
    v_cur : d_curl v = free_lock;
    v_sec : d_secl v = free_lock;
    v_good : exists d, nth_error (d_heap v) (d_cur v) = Some d /\ Good d;
    v_secs : Forall (fun i => i < length (d_heap v))%nat (d_sec v);
    v_plain : Forall plain (d_heap v);
    v_fs : Fok (d_fs v) }.

  Definition refines (D : goal) (es0 : list (dop * res unit)) (spec : goal) : Prop := forall es a, D es a -> spec (es0 ++ es) a.
  Lemma refines_app D es0 es spec : refines D es0 spec -> refines (fun es' a => D (es ++ es') a) (es0 ++ es) spec.
  Proof. intros H es' a HD. rewrite <- app_assoc. now apply H. Qed.

  Definition rot_ok (p0 : prog dcmd wanswer) (ph : phase) (v : dworld) (es0 : list (dop * res unit)) (spec : goal) : Prop :=
    match ph with
    | Idle => exists D, rot p0 D /\ refines D es0 spec
    | Making s q f => exists (D : goal) k, peq p0 (bind (bind (lift (@DF) q) cA) k) /\ (forall r, rot (k r) (fun es a => D ((OpSwap s, r) :: es) a)) /\
        refines D es0 spec /\ run fhandler q f = run fhandler (create_chunk cf s) (d_fs v) /\
        match q with Ret (Ok _) => True | Ret _ => False | Do _ _ => True end
    | Mid s nd g n => exists (D : goal) k, peq p0 (bind (mid_prog (length (d_heap v)) (d_cur v) n) k) /\ (forall r, rot (k r) (fun es a => D ((OpSwap s, r) :: es) a)) /\
        refines D es0 spec /\ run fhandler (create_chunk cf s) (d_fs v) = Some (Ok nd, g) /\ (n <= 5)%nat
    | Closing q r => exists D k, peq p0 (bind q k) /\ rot (k r) D /\ refines D es0 spec
    end.
  (* how the insert in flight got where it is: [low] is what was done before it *)
  Definition flight (w0 : dworld) (low : list event) (v : dworld) (d : dchunk) (q : prog ccmd (res unit)) (cw : cworld) : Prop :=
    exists v0 d0 ls p m, one_by_one cf low w0 v0 /\ vok v0 /\ d_cur v0 = d_cur v /\ nth_error (d_heap v0) (d_cur v) = Some d0 /\ dc_chunk d0 = dc_chunk d /\ R ls p /\
      crash_at (chandler (dc_chunk d)) m (chunk_insert (dc_chunk d) ls p) (dc_world d0) = (q, cw).
  Definition thr (w0 : dworld) (low : list event) (ro : role) (p : prog dcmd wanswer) (kd : kind) (v : dworld) (fl : option cworld) (n : nat) (es0 : list (dop * res unit)) : Prop :=
    match ro, kd with
    | Cl spec, IC c => exists D, cli p c D /\ refines D es0 spec /\
        match c with Some (i, ch) => i = d_cur v /\ chunk_at v = Some ch | None => True end
    | Cl spec, IL => exists D (q : prog ccmd (res unit)) k r cw d, peq p (bind (lift (fun X c => @DC X (d_cur v) c) q) k) /\ holding q /\
        nth_error (d_heap v) (d_cur v) = Some d /\ fl = Some cw /\ run (chandler (dc_chunk d)) q cw = Some (r, dc_world d) /\
        cli (k r) (Some (d_cur v, dc_chunk d)) D /\ refines D es0 spec /\ flight w0 low v d q cw
    | Rd, IR a b => rd p a b n
    | _, _ => False
    end.
  (* the threads that may appear in the log *)
  Definition known (roles : list role) (e : event) : Prop := match e_who e with O => True | S i => exists spec, nth_error roles i = Some (Cl spec) end.
  (* an event that changes nothing in the chunks *)
  Definition inert (v : dworld) (e : event) : Prop :=
    match e_op e with
    | OpPoint _ _ => False
    | OpBatch ls pts => exists ch q, chunk_at v = Some ch /\ pts = [q] /\ batch_passes ch q = false
    | OpSwap _ => forall u, e_res e <> Ok u
    end.
  Definition lowok (kinds : list kind) (low log : list event) (v : dworld) (fl : option cworld) : Prop :=
    match fl with
    | None => low = log
    | Some _ => exists i e post, nth_error kinds i = Some IL /\ e_who e = S i /\ log = low ++ e :: post /\ Forall (inert v) post /\ Forall (fun x => e_who x <> S i) post
    end.
  Inductive inv (w0 : dworld) (spec0 : goal) (roles : list role) (low log : list event) (ts : list (prog dcmd wanswer)) (w : dworld) : Prop :=
  | mkI p0 ps kinds v fl ph
    (i_ts : ts = p0 :: ps)
    (i_log : one_by_one cf log w0 v)
    (i_v : vok v)
    (i_rot : rot_ok p0 ph v (of_thread 0 log) spec0)
    (i_len : length ps = length roles /\ length kinds = length roles)
    (i_thr : forall i ro p kd, nth_error roles i = Some ro -> nth_error ps i = Some p -> nth_error kinds i = Some kd ->
       thr w0 low ro p kd v fl (length (d_heap w)) (of_thread (S i) log))
    (i_il : sum il kinds = match fl with Some _ => 1 | None => 0 end%nat)
    (i_flok : flok fl)
    (i_shape : shape v fl ph (sum cg kinds) (sum sg kinds) w)
    (i_who : Forall (known roles) log)
    (i_low : lowok kinds low log v fl).

  (** ** the serial log *)
  Lemma after_snoc ops : forall w rs v o r v', db_after_from cf ops w = Some (rs, v) -> drun (dop_prog cf o) v = Some (r, v') ->
    db_after_from cf (ops ++ [o]) w = Some (rs ++ [r], v').
  Proof.
    induction ops as [|x ops IH]; intros w rs v o r v' H Ho; cbn [db_after_from app] in *.
    - assert (rs = []) as -> by congruence. assert (w = v) as -> by congruence. rewrite Ho. reflexivity.
    - destruct (drun (dop_prog cf x) w) as [[r1 w1]|]; [|discriminate]. destruct (db_after_from cf ops w1) as [[rs1 w2]|] eqn:E; [|discriminate].
      assert (rs = r1 :: rs1) as -> by congruence. assert (w2 = v) as -> by congruence. rewrite (IH _ _ _ _ _ _ E Ho). reflexivity.
  Qed.
  Lemma log_snoc log w0 v i o r v' : one_by_one cf log w0 v -> drun (dop_prog cf o) v = Some (r, v') -> one_by_one cf (log ++ [mkEv i o r]) w0 v'.
  Proof. unfold one_by_one. rewrite !map_app. apply after_snoc. Qed.
  Lemma of_app i a b : of_thread i (a ++ b) = of_thread i a ++ of_thread i b.
  Proof. unfold of_thread. now rewrite filter_app, map_app. Qed.
  Lemma of_evs i es : of_thread i (evs i es) = es.
  Proof.
    unfold of_thread, evs. induction es as [|[o r] es IH]; [reflexivity|]. cbn [map filter e_who fst snd]. rewrite Nat.eqb_refl. cbn [map e_op e_res]. now rewrite IH.
  Qed.
  Lemma of_other i j es : i <> j -> of_thread i (evs j es) = [].
  Proof.
    intros N. unfold of_thread, evs. induction es as [|[o r] es IH]; [reflexivity|]. cbn [map filter e_who fst snd]. destruct (Nat.eqb_spec j i) as [->|_]; [congruence|]. exact IH.
  Qed.

  (* ... after a step of thread i *)
  Definition inv_by (i : nat) (w0 : dworld) (spec0 : goal) (roles : list role) (low log : list event) (ts : list (prog dcmd wanswer)) (w : dworld) : Prop :=
    exists es t, inv w0 spec0 roles (low ++ t) (log ++ evs i es) ts w.

  (** ** what writing does alone *)
  Lemma put_run v d b ls q r cw : vok v -> nth_error (d_heap v) (d_cur v) = Some d -> (b = true -> batch_passes (dc_chunk d) q = true) ->
    crun (dc_chunk d) (chunk_insert (dc_chunk d) ls q) (dc_world d) = Some (r, cw) -> r <> Panic ->
    drun (dop_prog cf (put b ls q)) v = Some (conv b r, set_heap v (upd (d_heap v) (d_cur v) (mkDc (dc_chunk d) cw (dc_name d)))).
  Proof.
    intros [H1 H2 H3 H4 H5 H6] N Hb Hr Hp. unfold drun. destruct b; cbn [put dop_prog conv]; unfold db_write_points, db_write_point, with_current; rewrite run_bind; cbn [run call dhandler].
    - rewrite H1. cbn [rw_read free_lock rw_writer rw_poisoned rw_readers]. rewrite N. cbn beta iota. rewrite run_bind, run_qbind. cbn [write_all]. rewrite (Hb eq_refl).
      rewrite run_bind. rewrite (run_DC _ _ _ d) by (cbn [set_curl d_heap]; exact N). unfold crun in Hr. rewrite Hr. destruct r as [u|e|]; [| |congruence].
      + cbn [run bind call dhandler]. destruct v; cbn in H1; subst; reflexivity.
      + unfold qbind. cbn [run bind call dhandler]. destruct v; cbn in H1; subst; reflexivity.
    - rewrite H1. cbn [rw_read free_lock rw_writer rw_poisoned rw_readers]. rewrite N. cbn beta iota. rewrite run_bind.
      rewrite (run_DC _ _ _ d) by (cbn [set_curl d_heap]; exact N). unfold crun in Hr. rewrite Hr. cbn [run bind call dhandler]. destruct v; cbn in H1; subst; reflexivity.
  Qed.
  Lemma skip_run v d ls q : vok v -> nth_error (d_heap v) (d_cur v) = Some d -> batch_passes (dc_chunk d) q = false ->
    drun (dop_prog cf (put true ls q)) v = Some (Ok tt, v).
  Proof.
    intros [H1 H2 H3 H4 H5 H6] N Hb. unfold drun. cbn [put dop_prog]; unfold db_write_points, with_current; rewrite run_bind; cbn [run call dhandler].
    rewrite H1. cbn [rw_read free_lock rw_writer rw_poisoned rw_readers]. rewrite N. cbn beta iota. rewrite run_bind, run_qbind. cbn [write_all]. rewrite Hb.
    cbn [run bind call dhandler]. destruct v; cbn in H1; subst; reflexivity.
  Qed.
  Lemma skips_log i es : forall log w0 v d, one_by_one cf log w0 v -> vok v -> nth_error (d_heap v) (d_cur v) = Some d -> skipped (dc_chunk d) es ->
    one_by_one cf (log ++ evs i es) w0 v.
  Proof.
    induction es as [|[o r] es IH]; intros log w0 v d H V N S; cbn [evs map]; [now rewrite app_nil_r|].
    inversion S as [|x y (ls & q & E & Hq) S']; subst.
    assert (o = put true ls q) as -> by congruence. assert (r = Ok tt) as -> by congruence. cbn [fst snd].
    change (log ++ ?x :: ?l) with (log ++ [x] ++ l). rewrite app_assoc. apply (IH _ _ _ d); try assumption.
    apply (log_snoc log w0 v); [assumption|]. now apply (skip_run v d).
  Qed.
  Lemma vok_put v d ls q r cw : vok v -> nth_error (d_heap v) (d_cur v) = Some d -> R ls q ->
    crun (dc_chunk d) (chunk_insert (dc_chunk d) ls q) (dc_world d) = Some (r, cw) ->
    r <> Panic /\ vok (set_heap v (upd (d_heap v) (d_cur v) (mkDc (dc_chunk d) cw (dc_name d)))).
  Proof.
    intros [H1 H2 (d' & N' & G) H4 H5 H6] N HR Hr. assert (d' = d) as -> by congruence. destruct (Good_insert d ls q r cw G HR Hr) as [Hp G']. split; [exact Hp|].
    assert (L: (d_cur v < length (d_heap v))%nat) by (apply nth_error_Some; congruence).
    constructor; cbn [set_heap d_curl d_secl d_heap d_cur d_sec d_fs]; try assumption.
    - eexists. split; [rewrite nth_upd, Nat.eqb_refl by assumption; reflexivity|exact G'].
    - now rewrite upd_length.
    - apply Forall_upd; [assumption|]. now apply Good_plain.
  Qed.

  (** ** what the swap does alone *)
  Lemma swap_fails v s r g : vok v -> run fhandler (create_chunk cf s) (d_fs v) = Some (r, g) -> (forall nd, r <> Ok nd) ->
    exists r', cA r = Ret r' /\ drun (db_swap cf s) v = Some (r', set_fs v g) /\ vok (set_fs v g).
  Proof.
    intros V H Hr. unfold drun. rewrite (peq_run _ _ _ _ (swap_pieces cf s)), run_bind, run_DF, H.
    assert (V': vok (set_fs v g)).
    { destruct V as [H1 H2 H3 H4 H5 H6]. constructor; try assumption. cbn [set_fs d_fs]. now apply (Good_new s (d_fs v) r g). }
    destruct r as [nd|e|]; [exfalso; now apply (Hr nd)|exists (Err e)|exists Panic]; split; [reflexivity|split; [reflexivity|exact V']|reflexivity|split; [reflexivity|exact V']].
  Qed.
  Definition closed (d : dchunk) : dchunk :=
    mkDc (dc_chunk d) (set_lock (set_closed (set_lock (dc_world d) true false) true) false false) (dc_name d).
  Lemma alike_refl d : plain d -> alike d d.
  Proof. intros (_ & H & _). repeat split; assumption. Qed.
  Lemma alike_upd h : Forall plain h -> forall i d, nth_error h i = Some d -> Forall2 alike h (upd h i (closed d)).
  Proof.
    intros H. induction H as [|x h Hx H IH]; intros [|i] d N; try discriminate.
    - cbn [nth_error] in N. injection N as <-. unfold upd. cbn [firstn skipn app]. constructor.
      + destruct Hx as (_ & Hp & _). repeat split; try reflexivity. exact Hp.
      + clear - H. induction H as [|y h Hy H IH]; constructor; [now apply alike_refl|exact IH].
    - rewrite upd_cons. constructor; [now apply alike_refl|now apply IH].
  Qed.
  Lemma alike_set h1 h : Forall2 alike h1 h -> forall i d1 cw', nth_error h1 i = Some d1 ->
    w_st cw' = w_st (dc_world d1) -> w_ix cw' = w_ix (dc_world d1) -> w_poisoned cw' = false -> Forall2 alike (upd h1 i (mkDc (dc_chunk d1) cw' (dc_name d1))) h.
  Proof.
    induction 1 as [|x y h1 h Hx H IH]; intros [|i] d1 cw' N E1 E2 E3; try discriminate.
    - cbn [nth_error] in N. injection N as <-. unfold upd. cbn [firstn skipn app]. constructor; [|exact H].
      destruct Hx as (A1 & A2 & A3 & A4). unfold alike. cbn [dc_chunk dc_world]. rewrite E1, E2. auto.
    - rewrite upd_cons. constructor; [exact Hx|]. now apply IH.
  Qed.
  (* at the acquisition of the write guard *)
  Definition at_write (v : dworld) (nd : dchunk) (g : fworld) : dworld :=
    mkD (d_heap v ++ [nd]) (d_cur v) (d_sec v ++ [d_cur v]) (mkRw 0 true false) free_lock g.
  Lemma swap_works v s nd g : vok v -> run fhandler (create_chunk cf s) (d_fs v) = Some (Ok nd, g) ->
    exists v', run dhandler (cI (length (d_heap v)) (d_cur v)) (at_write v nd g) = Some (Ok tt, v') /\
      drun (db_swap cf s) v = Some (Ok tt, v') /\ vok v' /\ Forall2 alike (d_heap v ++ [nd]) (d_heap v') /\ d_sec v' = d_sec v ++ [d_cur v].
  Proof.
    intros V H. pose proof V as [H1 H2 (d & N & G) H4 H5 H6]. destruct (Good_new s _ _ _ H6 H) as [Fg Gn]. specialize (Gn nd eq_refl).
    assert (L: (d_cur v < length (d_heap v))%nat) by (apply nth_error_Some; congruence).
    set (v' := mkD (upd (d_heap v ++ [nd]) (d_cur v) (closed d)) (length (d_heap v)) (d_sec v ++ [d_cur v]) free_lock free_lock g).
    assert (N1: nth_error (d_heap v ++ [nd]) (d_cur v) = Some d) by now rewrite nth_error_app1.
    assert (P: plain d) by now apply Good_plain. destruct P as (P1 & P2 & P3).
    assert (E1: run dhandler (cI (length (d_heap v)) (d_cur v)) (at_write v nd g) = Some (Ok tt, v')).
    { unfold cI. rewrite run_bind. rewrite (run_DC _ _ _ d) by exact N1. unfold chunk_close. rewrite with_lock_run by assumption.
      cbn [bind call run chandler]. cbn [is_panic w_poisoned set_closed set_lock orb]. reflexivity. }
    exists v'. split; [exact E1|]. split; [|split].
    - rewrite <- E1. unfold drun. rewrite (peq_run _ _ _ _ (swap_pieces cf s)), run_bind, run_DF, H. clear - H1 H2 N1.
      destruct v as [hv cv sv clv slv fv]. cbn [d_heap d_cur d_curl d_secl] in *. subst clv slv. unfold at_write.
      cbn [cA cB run dhandler]. wsimp. rewrite N1. wsimp. do 6 (cbn [cC cD cE cF cG run dhandler]; wsimp). rewrite N1. wsimp. reflexivity.
    - constructor; try reflexivity.
      + exists nd. split; [|exact Gn]. unfold v'. cbn [d_heap d_cur]. rewrite upd_app, nth_error_app2 by (rewrite ?upd_length; lia). rewrite upd_length, Nat.sub_diag by assumption. reflexivity.
      + unfold v'. cbn [d_heap d_sec]. rewrite upd_length, app_length by (rewrite app_length; lia). cbn [length]. apply Forall_app. split; [|constructor; [lia|constructor]].
        eapply Forall_impl; [|exact H4]. cbn beta. lia.
      + unfold v'. cbn [d_heap]. apply Forall_upd; [|split; [reflexivity|split; [reflexivity|exact P3]]]. apply Forall_app. split; [assumption|]. constructor; [now apply Good_plain|constructor].
      + exact Fg.
    - unfold v'. cbn [d_heap d_sec]. split; [|reflexivity].
      assert (PL: Forall plain (d_heap v ++ [nd])) by (apply Forall_app; split; [assumption|constructor; [now apply Good_plain|constructor]]).
      apply alike_upd; [exact PL|exact N1].
  Qed.

  (** ** what commands do to the shape *)
  Lemma infl_length v fl d : nth_error (d_heap v) (d_cur v) = Some d -> length (infl v fl) = length (d_heap v).
  Proof.
    intros N. unfold infl. destruct fl; [|reflexivity]. rewrite N. apply upd_length. apply nth_error_Some. congruence.
  Qed.
  Lemma infl_cur v fl d : nth_error (d_heap v) (d_cur v) = Some d ->
    nth_error (infl v fl) (d_cur v) = Some (match fl with Some cw => mkDc (dc_chunk d) cw (dc_name d) | None => d end).
  Proof.
    intros N. unfold infl. destruct fl as [cw|]; [|exact N]. rewrite N. rewrite nth_upd, Nat.eqb_refl; [reflexivity|]. apply nth_error_Some. congruence.
  Qed.
  Lemma open_cur v fl ph d : nth_error (d_heap v) (d_cur v) = Some d ->
    nth_error (infl v fl ++ extra ph) (d_cur v) = Some (match fl with Some cw => mkDc (dc_chunk d) cw (dc_name d) | None => d end).
  Proof.
    intros N. rewrite nth_error_app1; [now apply infl_cur|]. rewrite (infl_length v fl d N). apply nth_error_Some. congruence.
  Qed.
  Lemma shape_read v fl ph m n w x w' : vok v -> shape v fl ph m n w -> dhandler _ DCurRead w = Some (x, w') ->
    exists ch, chunk_at v = Some ch /\ x = (false, (d_cur v, ch)) /\ shape v fl ph (S m) n w' /\ d_heap w' = d_heap w.
  Proof.
    intros V Sh H. destruct (v_good v V) as (d & N & _). assert (chunk_at v = Some (dc_chunk d)) as HC by (unfold chunk_at; now rewrite N).
    assert (X: w = openw v fl ph m n -> exists ch, chunk_at v = Some ch /\ x = (false, (d_cur v, ch)) /\ w' = openw v fl ph (S m) n /\ d_heap w' = d_heap w).
    { intros ->. exists (dc_chunk d). split; [exact HC|]. cbn [dhandler openw d_curl d_heap d_cur rw_read rw_writer rw_poisoned rw_readers] in H. rewrite (open_cur v fl ph d N) in H.
      injection H as <- <-.
      split; [destruct fl; reflexivity|]. split; reflexivity. }
    destruct ph; cbn [shape] in *; try (exact (X Sh)). destruct Sh as (w1 & -> & E2 & E3 & _). exfalso.
    cbn [dhandler set_secl d_curl d_heap d_cur] in H. rewrite E3 in H. discriminate.
  Qed.
  Lemma shape_unread v fl ph m n w x w' : shape v fl ph (S m) n w -> dhandler _ DCurUnread w = Some (x, w') -> shape v fl ph m n w' /\ d_heap w' = d_heap w.
  Proof.
    intros Sh H. cbn [dhandler] in H. assert (w' = set_curl w (rw_unread (d_curl w))) as -> by congruence.
    split; [|reflexivity]. destruct ph; cbn [shape] in *; try (subst w; reflexivity). destruct Sh as (w1 & _ & _ & _ & _ & _ & X & _). discriminate.
  Qed.
  Lemma shape_sread v fl ph m n w x w' : shape v fl ph m n w -> dhandler _ DSecRead w = Some (x, w') ->
    shape v fl ph m (S n) w' /\ d_heap w' = d_heap w /\ Forall (fun c => fst c < length (d_heap w))%nat (snd x).
  Proof.
    assert (LK: forall h l cs, lookups h l = Some cs -> Forall (fun c : nat * chunk => fst c < length h)%nat cs).
    { intros h l. induction l as [|i l IH]; intros cs; cbn [lookups].
      - intros H. assert (cs = []) as -> by congruence. constructor.
      - destruct (nth_error h i) as [d|] eqn:N; [|discriminate]. destruct (lookups h l) as [r|]; [|discriminate]. intros H.
        assert (cs = (i, dc_chunk d) :: r) as -> by congruence. constructor; [cbn; apply nth_error_Some; congruence|]. now apply IH. }
    intros Sh H. cbn [dhandler] in H. unfold rw_read in H. destruct (rw_writer (d_secl w)) eqn:W; [discriminate|]. destruct (lookups (d_heap w) (d_sec w)) as [cs|] eqn:L; [|discriminate].
    assert (x = (rw_poisoned (d_secl w), cs)) as -> by (cbn in H; congruence). assert (w' = set_secl w (mkRw (S (rw_readers (d_secl w))) false (rw_poisoned (d_secl w)))) as -> by congruence.
    split; [|split; [reflexivity|exact (LK _ _ _ L)]]. 
    destruct ph; cbn [shape] in *; try (subst w; cbn [openw d_secl rw_writer] in W; unfold openw; rewrite ?W; reflexivity).
    destruct Sh as (w1 & -> & Sh). exists w1. split; [reflexivity|exact Sh].
  Qed.
  Lemma shape_sunread v fl ph m n w x w' : shape v fl ph m (S n) w -> dhandler _ DSecUnread w = Some (x, w') -> shape v fl ph m n w' /\ d_heap w' = d_heap w.
  Proof.
    intros Sh H. cbn [dhandler] in H. assert (w' = set_secl w (rw_unread (d_secl w))) as -> by congruence.
    split; [|reflexivity]. destruct ph; cbn [shape] in *; try (subst w; reflexivity). destruct Sh as (w1 & -> & Sh). exists w1. split; [reflexivity|exact Sh].
  Qed.
  Lemma read_same X i (c : ccmd X) w x w' : readc X c -> Forall calm (d_heap w) -> dhandler _ (DC i c) w = Some (x, w') -> w' = w.
  Proof.
    intros Hc Hw H. cbn [dhandler] in H. destruct (nth_error (d_heap w) i) as [d|] eqn:N; [|discriminate].
    rewrite Forall_forall in Hw. assert (Hd: calm d) by (apply Hw; eapply nth_error_In; exact N). unfold calm in Hd.
    assert (E: forall x cw, chandler (dc_chunk d) X c (dc_world d) = Some (x, cw) -> cw = dc_world d).
    { destruct d as [ch [st ix nx cl lk po fs] nm]. cbn [dc_chunk dc_world w_faults] in *. subst fs. clear - Hc. intros y cw. revert y.
      destruct c as [X [k|k v]|X [k|k v]| | | | | |]; cbn in Hc |- *; try contradiction; intros y H.
      - injection H as _ <-. reflexivity.
      - injection H as _ <-. reflexivity.
      - destruct lk; [discriminate|]. injection H as _ <-. reflexivity. }
    destruct (chandler (dc_chunk d) X c (dc_world d)) as [[y cw]|] eqn:EC; [|discriminate]. rewrite (E _ _ eq_refl) in H.
    assert (w' = set_heap w (upd (d_heap w) i (mkDc (dc_chunk d) (dc_world d) (dc_name d)))) as -> by congruence.
    assert (mkDc (dc_chunk d) (dc_world d) (dc_name d) = d) as -> by now destruct d. rewrite upd_self by assumption. now destruct w.
  Qed.
  Lemma plain_calm d : plain d -> calm d.
  Proof. intros (_ & _ & H). exact H. Qed.
  Lemma shape_calm v fl ph m n w p0 es spec : vok v -> flok fl -> rot_ok p0 ph v es spec -> shape v fl ph m n w -> Forall calm (d_heap w).
  Proof.
    intros V Hf Hr Sh. assert (C: Forall calm (d_heap v)) by (eapply Forall_impl; [intros d; apply plain_calm|apply v_plain, V]).
    assert (X: Forall calm (extra ph) -> w = openw v fl ph m n -> Forall calm (d_heap w)).
    { intros HE ->. cbn [openw d_heap]. apply Forall_app. split; [|exact HE]. unfold infl. destruct fl as [cw|]; [|exact C]. destruct (nth_error _ _); [|exact C].
      apply Forall_upd; [exact C|]. apply Hf. }
    destruct ph as [|s q f|s nd g k|q r]; cbn [shape extra] in *.
    - now apply X.
    - now apply X.
    - apply X; [|exact Sh]. destruct Hr as (_ & _ & _ & _ & _ & H & _). constructor; [|constructor]. apply plain_calm, Good_plain. exact (proj2 (Good_new s _ _ _ (v_fs v V) H) nd eq_refl).
    - destruct Sh as (w1 & -> & _ & _ & _ & _ & _ & _ & _ & _ & H). exact H.
  Qed.

  (** ** putting the threads together again *)
  Lemma sum_le f l i k : nth_error l i = Some k -> (f k <= sum f l)%nat.
  Proof. intros N. unfold sum. destruct (sum_upd 0 f l i k k N) as [H _]. exact H. Qed.
  Lemma sum_set f l i k k' : nth_error l i = Some k -> sum f (upd l i k') = (sum f l - f k + f k')%nat.
  Proof. intros N. unfold sum. destruct (sum_upd 0 f l i k k' N) as [_ H]. exact H. Qed.
  Lemma sum_mono f g l : (forall k, f k <= g k)%nat -> (sum f l <= sum g l)%nat.
  Proof. intros H. unfold sum, list_sum. induction l as [|k l IH]; cbn [map fold_right]; [lia|]. specialize (H k). lia. Qed.
  Lemma thr_move w0 low low' ro p kd v fl n es0 v' fl' n' : thr w0 low ro p kd v fl n es0 -> kd <> IL -> d_cur v' = d_cur v -> chunk_at v' = chunk_at v -> (n <= n')%nat ->
    thr w0 low' ro p kd v' fl' n' es0.
  Proof.
    intros H K E1 E2 L. destruct ro as [spec|], kd as [c| |a b]; cbn [thr] in *; try contradiction; try congruence.
    - now rewrite E1, E2.
    - eapply rd_mono; eassumption.
  Qed.
  (* a step of a client or a query *)
  Lemma rebuild w0 spec0 roles p0 ps kinds v low log fl ph w i ro p kd p' kd' v' fl' w' es t :
    vok v -> rot_ok p0 ph v (of_thread 0 log) spec0 -> length ps = length roles /\ length kinds = length roles ->
    (forall i ro p kd, nth_error roles i = Some ro -> nth_error ps i = Some p -> nth_error kinds i = Some kd ->
       thr w0 low ro p kd v fl (length (d_heap w)) (of_thread (S i) log)) ->
    nth_error roles i = Some ro -> nth_error ps i = Some p -> nth_error kinds i = Some kd ->
    one_by_one cf (log ++ evs (S i) es) w0 v' -> vok v' ->
    d_cur v' = d_cur v -> d_fs v' = d_fs v -> length (d_heap v') = length (d_heap v) -> chunk_at v' = chunk_at v ->
    length (d_heap w') = length (d_heap w) ->
    (match ph with Closing _ _ => v' = v | _ => True end) ->
    thr w0 (low ++ t) ro p' kd' v' fl' (length (d_heap w')) (of_thread (S i) log ++ es) ->
    (sum il (upd kinds i (IC None)) = 0)%nat \/ (v' = v /\ fl' = fl /\ t = []) ->
    sum il (upd kinds i kd') = (match fl' with Some _ => 1 | None => 0 end)%nat -> flok fl' ->
    shape v' fl' ph (sum cg (upd kinds i kd')) (sum sg (upd kinds i kd')) w' ->
    Forall (known roles) log -> match ro with Rd => es = [] | Cl _ => True end ->
    lowok (upd kinds i kd') (low ++ t) (log ++ evs (S i) es) v' fl' ->
    inv_by (S i) w0 spec0 roles low log (upd (p0 :: ps) (S i) p') w'.
  Proof.
    intros V HR [L1 L2] HT Nr Np Nk HL V' E1 E2 E3 E4 E5 EC HT' HI HI' HF HS HW Hes HLw.
    assert (Li: (i < length roles)%nat) by (apply nth_error_Some; congruence).
    exists es, t. refine (mkI _ _ _ _ _ _ _ p0 (upd ps i p') (upd kinds i kd') v' fl' ph _ HL V' _ _ _ HI' HF HS _ HLw).
    - apply upd_cons.
    - rewrite of_app, of_other by lia. rewrite app_nil_r. destruct ph; cbn [rot_ok] in *; rewrite ?E1, ?E2, ?E3; try exact HR. 
    - rewrite !upd_length by lia. auto.
    - intros j ro1 p1 kd1 M1 M2 M3. rewrite of_app. rewrite nth_upd in M2 by lia. rewrite nth_upd in M3 by lia. destruct (Nat.eqb_spec j i) as [->|Nj].
      + assert (p1 = p') as -> by congruence. assert (kd1 = kd') as -> by congruence. assert (ro1 = ro) as -> by congruence. now rewrite of_evs.
      + rewrite of_other, app_nil_r by lia. specialize (HT j ro1 p1 kd1 M1 M2 M3). destruct HI as [HI|(-> & -> & ->)]; [|rewrite app_nil_r; now rewrite E5].
        eapply thr_move; [exact HT| |exact E1|exact E4|lia]. intros ->.
        assert (N': nth_error (upd kinds i (IC None)) j = Some IL). { rewrite nth_upd by lia. destruct (Nat.eqb_spec j i); [congruence|assumption]. }
        apply (sum_le il) in N'. cbn [il] in N'. lia.
    - apply Forall_app. split; [exact HW|]. destruct ro as [spec|]; [|subst es; constructor]. apply Forall_forall. intros e He. apply in_map_iff in He as (x & <- & _). exists spec. exact Nr.
  Qed.
  Lemma inert_same v v' e : chunk_at v' = chunk_at v -> inert v e -> inert v' e.
  Proof. unfold inert. intros ->. auto. Qed.
  (* a step of a thread that is not inserting *)
  Definition gain (fl : option cworld) (es : list event) : list event := match fl with None => es | Some _ => [] end.
  Lemma lowok_rest kinds low log v v' fl es : lowok kinds low log v fl -> chunk_at v' = chunk_at v \/ fl = None -> (fl <> None -> Forall (inert v) es) ->
    (forall i, nth_error kinds i = Some IL -> Forall (fun x => e_who x <> S i) es) -> lowok kinds (low ++ gain fl es) (log ++ es) v' fl.
  Proof.
    intros H HV HE HO. destruct fl as [cw|]; cbn [lowok gain] in *; [|now rewrite H].
    destruct HV as [HV|HV]; [|discriminate]. rewrite app_nil_r. destruct H as (i & e & post & H1 & H2 & -> & H3 & H4). exists i, e, (post ++ es). split; [exact H1|]. split; [exact H2|].
    rewrite <- app_assoc. split; [reflexivity|]. split; [|apply Forall_app; split; [exact H4|exact (HO i H1)]]. apply Forall_app. split; (eapply Forall_impl; [intros x; apply inert_same, HV|]); [exact H3|]. apply HE. discriminate.
  Qed.
  Lemma lowok_kind kinds low log v fl i kd kd' : lowok kinds low log v fl -> nth_error kinds i = Some kd -> kd <> IL \/ kd' = IL -> lowok (upd kinds i kd') low log v fl.
  Proof.
    intros H N K. destruct fl as [cw|]; cbn [lowok] in *; [|exact H]. destruct H as (j & e & post & H1 & H). exists j, e, post. split; [|exact H].
    rewrite nth_upd by (apply nth_error_Some; congruence). destruct (Nat.eqb_spec j i) as [->|_]; [|exact H1]. destruct K as [K| ->]; [congruence|reflexivity].
  Qed.
  Lemma skipped_inert v ch i es : chunk_at v = Some ch -> skipped ch es -> Forall (inert v) (evs i es).
  Proof.
    intros H S. apply Forall_forall. intros e He. apply in_map_iff in He as (x & <- & Hx). unfold skipped in S. rewrite Forall_forall in S. destruct (S x Hx) as (ls & q & -> & Hq).
    unfold inert. cbn [e_op fst put]. exists ch, q. auto.
  Qed.
  Lemma rot_step w0 spec0 roles ps kinds v low log fl w ph' p' v' w' es :
    vok v -> length ps = length roles /\ length kinds = length roles ->
    (forall i ro p kd, nth_error roles i = Some ro -> nth_error ps i = Some p -> nth_error kinds i = Some kd ->
       thr w0 low ro p kd v fl (length (d_heap w)) (of_thread (S i) log)) ->
    sum il kinds = (match fl with Some _ => 1 | None => 0 end)%nat -> flok fl ->
    one_by_one cf (log ++ evs 0 es) w0 v' -> vok v' -> rot_ok p' ph' v' (of_thread 0 log ++ es) spec0 -> (length (d_heap w) <= length (d_heap w'))%nat ->
    (d_cur v' = d_cur v /\ d_heap v' = d_heap v) \/ (fl = None /\ sum cg kinds = 0%nat) ->
    shape v' fl ph' (sum cg kinds) (sum sg kinds) w' -> Forall (known roles) log -> lowok kinds low log v fl -> (fl <> None -> Forall (inert v) (evs 0 es)) ->
    inv_by 0 w0 spec0 roles low log (p' :: ps) w'.
  Proof.
    intros V [L1 L2] HT HI HF HL V' HR LL HV HS HW HLw HE.
    assert (HLw': lowok kinds (low ++ gain fl (evs 0 es)) (log ++ evs 0 es) v' fl).
    { apply (lowok_rest kinds low log v); [exact HLw| |exact HE|].
      - destruct HV as [[E1 E2]|[E _]]; [left; unfold chunk_at; now rewrite E1, E2|right; exact E].
      - intros i _. apply Forall_forall. intros x Hx. apply in_map_iff in Hx as (y & <- & _). discriminate. }
    exists es, (gain fl (evs 0 es)). refine (mkI _ _ _ _ _ _ _ p' ps kinds v' fl ph' eq_refl HL V' _ (conj L1 L2) _ HI HF HS _ HLw').
    - now rewrite of_app, of_evs.
    - intros j ro1 p1 kd1 M1 M2 M3. rewrite of_app, of_other, app_nil_r by lia. specialize (HT j ro1 p1 kd1 M1 M2 M3). destruct HV as [[E1 E2]|[-> E]].
      + destruct ro1 as [spec|], kd1 as [c| |a b]; cbn [thr] in *; try contradiction; unfold chunk_at in *; rewrite ?E1, ?E2; try exact HT.
        * destruct HT as (D & q & k & r & cw & d & T1 & T2 & T3 & -> & T4 & T5 & T6 & T7). exists D, q, k, r, cw, d. cbn [gain]. rewrite app_nil_r. unfold flight in *. rewrite E1. auto 10.
        * eapply rd_mono; eassumption.
      + pose proof (sum_le cg kinds j kd1 M3) as Z. destruct ro1 as [spec|], kd1 as [[c|]| |a b]; cbn [thr cg] in *; try contradiction; try lia; [exact HT|].
        eapply rd_mono; eassumption.
    - apply Forall_app. split; [exact HW|]. apply Forall_forall. intros e He. apply in_map_iff in He as (x & <- & _). exact I.
  Qed.

  Lemma open_upd v d fl ph x : nth_error (d_heap v) (d_cur v) = Some d ->
    upd (infl v fl ++ extra ph) (d_cur v) x = upd (d_heap v) (d_cur v) x ++ extra ph.
  Proof.
    intros N. assert (L: (d_cur v < length (d_heap v))%nat) by (apply nth_error_Some; congruence).
    rewrite upd_app by now rewrite (infl_length v fl d). f_equal. unfold infl. destruct fl as [cw|]; [|reflexivity]. rewrite N. now apply upd_upd.
  Qed.
  Lemma not_closing v fl ph m n w : shape v fl ph m n w -> (0 < m)%nat -> w = openw v fl ph m n /\ match ph with Closing _ _ => False | _ => True end.
  Proof. destruct ph; cbn [shape]; auto. intros (w1 & _ & _ & _ & _ & _ & -> & _). lia. Qed.
  Lemma flok_step ch X (c : ccmd X) cw x cw' : Conc.plain X c -> chandler ch X c cw = Some (x, cw') -> w_locked cw = true -> w_faults cw = [] -> w_locked cw' = true /\ w_faults cw' = [].
  Proof.
    intros Hc. destruct cw as [st ix nx cl lk po fs]. cbn [w_locked w_faults]. intros H -> ->. destruct Hc; cbn in H.
    - destruct c as [k|k v]; cbn in H; injection H as _ <-; auto.
    - destruct c as [k|k v]; cbn in H; injection H as _ <-; auto.
    - injection H as _ <-. auto.
    - injection H as _ <-. auto.
    - injection H as _ <-. auto.
  Qed.

  (** ** a step of a client or a query *)
  Lemma thread_step w0 spec0 roles low log ts w i p p' w' : inv w0 spec0 roles low log ts w -> nth_error ts (S i) = Some p -> step dhandler p w = Some (p', w') ->
    inv_by (S i) w0 spec0 roles low log (upd ts (S i) p') w'.
  Proof.
    intros [p0 ps kinds v fl ph -> HL V HR HLen HT HI HF HS HW HLw] Np St. cbn [nth_error] in Np. pose proof HLen as [L1 L2].
    assert (Li: (i < length ps)%nat) by (apply nth_error_Some; congruence).
    destruct (nth_error roles i) as [ro|] eqn:Nr; [|apply nth_error_None in Nr; lia].
    destruct (nth_error kinds i) as [kd|] eqn:Nk; [|apply nth_error_None in Nk; lia].
    pose proof (HT i ro p kd Nr Np Nk) as T. destruct (v_good v V) as (d & Nd & Gd).
    assert (HC: chunk_at v = Some (dc_chunk d)) by (unfold chunk_at; now rewrite Nd).
    assert (Ld: (d_cur v < length (d_heap v))%nat) by (apply nth_error_Some; congruence).
    pose proof (fun f k' => sum_set f kinds i kd k' Nk) as SS. pose proof (fun f => sum_le f kinds i kd Nk) as SL.
    assert (SAME: forall p2 kd2 fl2 w2 es t, length (d_heap w2) = length (d_heap w) -> one_by_one cf (log ++ evs (S i) es) w0 v ->
       thr w0 (low ++ t) ro p2 kd2 v fl2 (length (d_heap w2)) (of_thread (S i) log ++ es) ->
       (sum il (upd kinds i (IC None)) = 0)%nat \/ (v = v /\ fl2 = fl /\ t = []) ->
       sum il (upd kinds i kd2) = (match fl2 with Some _ => 1 | None => 0 end)%nat -> flok fl2 ->
       shape v fl2 ph (sum cg (upd kinds i kd2)) (sum sg (upd kinds i kd2)) w2 ->
       match ro with Rd => es = [] | Cl _ => True end -> lowok (upd kinds i kd2) (low ++ t) (log ++ evs (S i) es) v fl2 ->
       inv_by (S i) w0 spec0 roles low log (upd (p0 :: ps) (S i) p2) w2).
    { intros p2 kd2 fl2 w2 es t A1 A2 A3 A4 A5 A6 A7 A8 A9.
      eapply (rebuild w0 spec0 roles p0 ps kinds v low log fl ph w i ro p kd p2 kd2 v fl2 w2 es t); try eassumption; try reflexivity. now destruct ph. }
    assert (STAY: forall p2 kd2 w2 es, kd <> IL -> kd2 <> IL -> length (d_heap w2) = length (d_heap w) -> one_by_one cf (log ++ evs (S i) es) w0 v ->
       (forall low2, thr w0 low2 ro p2 kd2 v fl (length (d_heap w2)) (of_thread (S i) log ++ es)) ->
       shape v fl ph (sum cg (upd kinds i kd2)) (sum sg (upd kinds i kd2)) w2 ->
       match ro with Rd => es = [] | Cl _ => True end -> Forall (inert v) (evs (S i) es) ->
       inv_by (S i) w0 spec0 roles low log (upd (p0 :: ps) (S i) p2) w2).
    { intros p2 kd2 w2 es K1 K2 A1 A2 A3 A7 A8 A9.
      assert (Z: il kd = 0%nat /\ il kd2 = 0%nat) by (destruct kd, kd2; auto; congruence). destruct Z as [Z1 Z2].
      apply (SAME p2 kd2 fl w2 es (gain fl (evs (S i) es))); try assumption.
      - apply A3.
      - destruct fl as [cw|]; cbn [gain]; [right; auto|left]. rewrite SS. cbn [il]. lia.
      - rewrite SS. lia.
      - apply (lowok_kind kinds _ _ v fl i kd); [|exact Nk|now left]. apply (lowok_rest kinds low log v v fl); [exact HLw|now left|now intros _|].
        intros i' Ni'. apply Forall_forall. intros x Hx. apply in_map_iff in Hx as (y & <- & _). cbn [e_who]. intros [= <-]. congruence. }
    destruct ro as [spec|], kd as [c| |a b]; cbn [thr] in T; try contradiction.
    - (* a client between inserts *)
      destruct T as (D & HCl & HRf & Hc). apply cli_norm in HCl. destruct HCl as [a D -> HD|k D E K|es i' ch b ls q k D Hsk Rq Hb E K|es k i' ch D Hsk E K].
      + discriminate.
      + destruct (step_peq _ _ _ _ _ _ _ E St) as (x & Hx & E').
        destruct (shape_read _ _ _ _ _ _ _ _ V HS Hx) as (ch & Hch & -> & HS' & Hh).
        apply (STAY p' (IC (Some (d_cur v, ch))) w' []); try discriminate; try (now rewrite ?Hh).
        * cbn [evs map]. now rewrite app_nil_r.
        * intros low2. cbn [thr]. exists D. split; [eapply C_peq; [exact E'|apply K]|]. split; [|auto]. now rewrite app_nil_r.
        * rewrite !SS. cbn [cg sg]. rewrite !Nat.sub_0_r, Nat.add_1_r, Nat.add_0_r. exact HS'.
        * constructor.
      + destruct Hc as [-> Hch]. assert (ch = dc_chunk d) as -> by congruence.
        cbn [cg] in SL. pose proof (SL cg) as SLc. cbn [cg] in SLc. destruct (not_closing _ _ _ _ _ _ HS ltac:(lia)) as [Ew NC].
        destruct (insert_locking (dc_chunk d) ls q) as (kk & Ek & Hk). rewrite Ek in E. cbn [lift bind] in E.
        destruct (step_peq _ _ _ _ _ _ _ E St) as (x & Hx & E'). rewrite Ew in Hx. cbn [dhandler openw d_heap] in Hx. rewrite (open_cur v fl ph d Nd) in Hx.
        destruct fl as [cw|]; cbn [dc_chunk dc_world dc_name chandler] in Hx.
        { cbn [flok] in HF. destruct HF as [HF1 _]. rewrite HF1 in Hx. discriminate. }
        destruct (Good_plain d Gd) as (P1 & P2 & P3). rewrite P1, P2 in Hx.
        set (cw := set_lock (dc_world d) true false) in *.
        assert (x = false) as -> by (injection Hx as <- _; reflexivity).
        assert (Ew': w' = set_heap (openw v None ph (sum cg kinds) (sum sg kinds)) (upd (d_heap v ++ extra ph) (d_cur v) (mkDc (dc_chunk d) cw (dc_name d)))) by (injection Hx as <-; reflexivity).
        clear Hx. destruct (holding_runs (dc_chunk d) (kk false) (Hk false) cw) as (r & cw1 & Hr).
        assert (HI1: crun (dc_chunk d) (chunk_insert (dc_chunk d) ls q) (dc_world d) = Some (r, cw1)).
        { unfold crun. rewrite Ek. cbn [run chandler]. rewrite P1, P2. exact Hr. }
        destruct (vok_put v d ls q r cw1 V Nd Rq HI1) as [Hp V'].
        pose proof (put_run v d b ls q r cw1 V Nd Hb HI1 Hp) as HD.
        set (d1 := mkDc (dc_chunk d) cw1 (dc_name d)) in *. set (v' := set_heap v (upd (d_heap v) (d_cur v) d1)) in *.
        assert (Nd': nth_error (d_heap v') (d_cur v') = Some d1) by (cbn [v' set_heap d_heap d_cur]; rewrite nth_upd, Nat.eqb_refl by assumption; reflexivity).
        cbn [lowok] in HLw. subst low.
        assert (HL1: one_by_one cf (log ++ evs (S i) es) w0 v) by now apply (skips_log (S i) es log w0 v d).
        eapply (rebuild w0 spec0 roles p0 ps kinds v log log None ph w i (Cl spec) p (IC (Some (d_cur v, dc_chunk d))) p' IL v' (Some cw) w' (es ++ [(put b ls q, conv b r)]) (evs (S i) es)); try eassumption; try reflexivity; try exact I.
        * unfold evs. rewrite map_app, app_assoc. apply (log_snoc (log ++ evs (S i) es) w0 v); [exact HL1|exact HD].
        * cbn [v' set_heap d_heap]. now rewrite upd_length.
        * unfold chunk_at. rewrite Nd'. now rewrite Nd.
        * rewrite Ew', Ew. cbn [set_heap d_heap openw]. unfold infl. cbn beta iota. rewrite upd_length; [reflexivity|]. rewrite app_length. lia.
        * destruct ph; trivial. contradiction.
        * cbn [thr]. exists (fun es' a => D (es ++ (put b ls q, conv b r) :: es') a), (kk false), k, r, cw, d1.
          split; [exact E'|]. split; [apply Hk|]. split; [exact Nd'|]. split; [reflexivity|]. split; [exact Hr|]. split; [apply K; exact Hp|].
          split; [intros es' a Ha; rewrite <- !app_assoc; apply HRf; cbn [app]; exact Ha|].
          exists v, d, ls, q, 1%nat. cbn [v' set_heap d_cur d1 dc_chunk]. split; [exact HL1|]. split; [exact V|]. split; [reflexivity|]. split; [exact Nd|]. split; [reflexivity|]. split; [exact Rq|].
          rewrite Ek. cbn [crash_at chandler]. rewrite P1, P2. cbn [set_lock]. fold cw. now destruct (kk false).
        * left. rewrite SS. cbn [il]. lia.
        * rewrite SS. cbn [il]. lia.
        * split; [reflexivity|exact P3].
        * rewrite !SS. cbn [cg sg]. replace (sum cg kinds - 1 + 1)%nat with (sum cg kinds) by lia. rewrite Nat.sub_0_r, Nat.add_0_r.
          assert (w' = openw v' (Some cw) ph (sum cg kinds) (sum sg kinds)) as ->.
          { assert (HX: infl v' (Some cw) = upd (d_heap v) (d_cur v) (mkDc (dc_chunk d) cw (dc_name d))).
            { unfold infl. rewrite Nd'. unfold v'. cbn [set_heap d_heap d_cur dc_chunk dc_name d1]. now apply upd_upd. }
            rewrite Ew'. unfold openw. rewrite HX. unfold set_heap. cbn [v' d_heap d_cur d_sec d_curl d_secl d_fs]. rewrite upd_app by assumption. destruct ph; reflexivity. }
          destruct ph; try reflexivity. contradiction.
        * cbn [lowok]. exists i, (mkEv (S i) (put b ls q) (conv b r)), []. split; [rewrite nth_upd, Nat.eqb_refl by lia; reflexivity|]. split; [reflexivity|]. split; [|split; constructor].
          unfold evs. now rewrite map_app, app_assoc.
      + destruct Hc as [-> Hch]. assert (ch = dc_chunk d) as -> by congruence.
        destruct (step_peq _ _ _ _ _ _ _ E St) as ([] & Hx & E'). pose proof (SL cg) as SLc. cbn [cg] in SLc.
        destruct (sum cg kinds) as [|m] eqn:Em; [lia|]. destruct (shape_unread _ _ _ _ _ _ _ _ HS Hx) as [HS' Hh].
        apply (STAY p' (IC None) w' es); try discriminate; try (now rewrite ?Hh).
        * now apply (skips_log (S i) es log w0 v d).
        * intros low2. cbn [thr]. exists (fun es' a => D (es ++ es') a). split; [eapply C_peq; [exact E'|exact K]|]. split; [|exact I]. now apply refines_app.
        * rewrite !SS. cbn [cg sg]. rewrite Em. replace (S m - 1 + 0)%nat with m by lia. rewrite Nat.sub_0_r, Nat.add_0_r. exact HS'.
        * exact (skipped_inert v (dc_chunk d) (S i) es HC Hsk).
    - (* a client inserting *)
      destruct T as (D & q & k & r & cw & d' & E & Hq & Nd' & -> & Hr & HCl & HRf & v0 & d0 & ls0 & p1 & m0 & F1 & F2 & F3 & F4 & F5 & F6 & F7). assert (d' = d) as -> by congruence.
      pose proof (SL cg) as SLc. cbn [cg] in SLc. destruct (not_closing _ _ _ _ _ _ HS ltac:(lia)) as [Ew NC]. cbn [flok] in HF. destruct HF as [HF1 HF2].
      destruct Hq as [u kk r' Hkk|X c kk Hc Hk]; cbn [lift bind] in E.
      + destruct (step_peq _ _ _ _ _ _ _ E St) as (x & Hx & E'). rewrite Ew in Hx. cbn [dhandler openw d_heap] in Hx. rewrite (open_cur v (Some cw) ph d Nd) in Hx.
        cbn [dc_chunk dc_world dc_name chandler] in Hx. rewrite (open_upd v d (Some cw) ph _ Nd) in Hx.
        cbn [run chandler] in Hr. rewrite Hkk in Hr. cbn [run] in Hr. assert (r' = r) as -> by congruence.
        assert (EW: set_lock cw false (w_poisoned cw || u) = dc_world d) by congruence. rewrite EW in Hx.
        assert (mkDc (dc_chunk d) (dc_world d) (dc_name d) = d) as Ed by now destruct d. rewrite Ed, upd_self in Hx by assumption. destruct x.
        rewrite Hkk in E'. cbn [lift bind] in E'.
        assert (Ew': w' = openw v None ph (sum cg kinds) (sum sg kinds)) by (injection Hx as <-; reflexivity).
        pose proof HLw as (j & e & post & _ & _ & EL & _). apply (SAME p' (IC (Some (d_cur v, dc_chunk d))) None w' [] (e :: post)).
        * rewrite Ew', Ew. cbn [openw d_heap]. rewrite !app_length, !(infl_length v _ d Nd). reflexivity.
        * cbn [evs map]. now rewrite app_nil_r.
        * cbn [thr]. exists D. split; [eapply C_peq; [exact E'|exact HCl]|]. split; [now rewrite app_nil_r|auto].
        * left. rewrite SS. cbn [il]. lia.
        * rewrite SS. cbn [il]. lia.
        * exact I.
        * rewrite !SS. cbn [cg sg]. replace (sum cg kinds - 1 + 1)%nat with (sum cg kinds) by lia. rewrite Nat.sub_0_r, Nat.add_0_r. rewrite Ew'. destruct ph; try reflexivity. contradiction.
        * exact I.
        * cbn [lowok evs map]. now rewrite EL, app_nil_r.
      + destruct (step_peq _ _ _ _ _ _ _ E St) as (x & Hx & E'). rewrite Ew in Hx. cbn [dhandler openw d_heap] in Hx. rewrite (open_cur v (Some cw) ph d Nd) in Hx.
        cbn [dc_chunk dc_world dc_name] in Hx. cbn [run] in Hr. destruct (chandler (dc_chunk d) X c cw) as [[x' cw']|] eqn:EC; [|discriminate].
        assert (x' = x) as -> by congruence. rewrite (open_upd v d (Some cw) ph _ Nd) in Hx.
        destruct (flok_step _ _ _ _ _ _ Hc EC HF1 HF2) as [HF1' HF2'].
        assert (Ew': w' = openw v (Some cw') ph (sum cg kinds) (sum sg kinds)).
        { injection Hx as <-. unfold openw, set_heap. cbn [d_heap d_cur d_sec d_curl d_secl d_fs]. f_equal. unfold infl. now rewrite Nd. }
        apply (SAME p' IL (Some cw') w' [] []).
        * rewrite Ew', Ew. cbn [openw d_heap]. rewrite !app_length, !(infl_length v _ d Nd). reflexivity.
        * cbn [evs map]. now rewrite app_nil_r.
        * cbn [thr]. exists D, (kk x), k, r, cw', d. split; [exact E'|]. split; [apply Hk|]. split; [exact Nd|]. split; [reflexivity|]. split; [exact Hr|]. split; [exact HCl|].
          split; [now rewrite app_nil_r|]. rewrite app_nil_r. exists v0, d0, ls0, p1.
          destruct (crash_snoc _ m0 _ _ (kk x) _ _ cw' F7) as [m1 F8]; [cbn [step]; now rewrite EC|]. exists m1. auto 10.
        * left. rewrite SS. cbn [il]. lia.
        * rewrite SS. cbn [il]. lia.
        * split; assumption.
        * rewrite !SS. cbn [cg sg]. replace (sum cg kinds - 1 + 1)%nat with (sum cg kinds) by lia. rewrite Nat.sub_0_r, Nat.add_0_r. rewrite Ew'. destruct ph; try reflexivity. contradiction.
        * exact I.
        * rewrite app_nil_r. cbn [evs map]. rewrite app_nil_r. apply (lowok_kind kinds _ _ v _ i IL); [exact HLw|exact Nk|now right].
    - (* a query *)
      assert (NOW: forall p2 a2 b2 w2, d_heap w2 = d_heap w -> rd p2 a2 b2 (length (d_heap w)) ->
         shape v fl ph (sum cg kinds - b2n a + b2n a2) (sum sg kinds - b2n b + b2n b2) w2 -> inv_by (S i) w0 spec0 roles low log (upd (p0 :: ps) (S i) p2) w2).
      { intros p2 a2 b2 w2 Hh Hrd Hs. apply (STAY p2 (IR a2 b2) w2 []); try discriminate; try (now rewrite ?Hh).
        - cbn [evs map]. now rewrite app_nil_r.
        - rewrite !SS. cbn [cg sg]. exact Hs.
        - constructor. }
      pose proof (SL cg) as SLc. pose proof (SL sg) as SLs. cbn [cg sg] in SLc, SLs.
      destruct p as [x|X c k]; [discriminate|]. cbn [step] in St. destruct (dhandler X c w) as [[x w2]|] eqn:Hx; [|discriminate].
      assert (p' = k x) as -> by congruence. assert (w2 = w') as -> by congruence. clear St.
      destruct c as [X j c|X c|nd| | | |j|u| | | |j|u]; cbn [rd] in T; try contradiction.
      + destruct T as (T1 & T2 & T3). pose proof (shape_calm _ _ _ _ _ _ _ _ _ V HF HR HS) as Hcalm.
        pose proof (read_same X j c w x w' T1 Hcalm Hx) as ->. apply (NOW (k x) a b w); [reflexivity|apply T3|].
        replace (sum cg kinds - b2n a + b2n a)%nat with (sum cg kinds) by lia. replace (sum sg kinds - b2n b + b2n b)%nat with (sum sg kinds) by lia. exact HS.
      + destruct T as (-> & T). destruct (shape_read _ _ _ _ _ _ _ _ V HS Hx) as (ch & Hch & -> & HS' & Hh).
        apply (NOW _ true b w' Hh).
        * apply T; [lia|]. destruct (nth_error (d_heap w) (d_cur v)) eqn:Nw; [apply nth_error_Some; congruence|]. exfalso.
          cbn [dhandler] in Hx. destruct (rw_read (d_curl w)); [|discriminate]. destruct (nth_error (d_heap w) (d_cur w)) eqn:Nw2; [|discriminate].
          injection Hx as _ E2 _ _. congruence.
        * cbn [b2n]. rewrite Nat.sub_0_r, Nat.add_1_r. replace (sum sg kinds - b2n b + b2n b)%nat with (sum sg kinds) by lia. exact HS'.
      + destruct T as (-> & T). cbn [b2n] in *. destruct (sum cg kinds) as [|m] eqn:Em; [lia|]. destruct (shape_unread _ _ _ _ _ _ _ _ HS Hx) as [HS' Hh]. destruct x.
        apply (NOW _ false b w' Hh); [exact T|]. cbn [b2n]. replace (S m - 1 + 0)%nat with m by lia. replace (sum sg kinds - b2n b + b2n b)%nat with (sum sg kinds) by lia. exact HS'.
      + destruct T as (-> & T). destruct (shape_sread _ _ _ _ _ _ _ _ HS Hx) as (HS' & Hh & Hcs). destruct x as [po cs]. cbn [snd] in Hcs.
        apply (NOW _ a true w' Hh); [apply T; [lia|exact Hcs]|]. cbn [b2n]. replace (sum cg kinds - b2n a + b2n a)%nat with (sum cg kinds) by lia. rewrite Nat.sub_0_r, Nat.add_1_r. exact HS'.
      + destruct T as (-> & T). cbn [b2n] in *. destruct (sum sg kinds) as [|m] eqn:Em; [lia|]. destruct (shape_sunread _ _ _ _ _ _ _ _ HS Hx) as [HS' Hh]. destruct x.
        apply (NOW _ a false w' Hh); [exact T|]. cbn [b2n]. replace (S m - 1 + 0)%nat with m by lia. replace (sum cg kinds - b2n a + b2n a)%nat with (sum cg kinds) by lia. exact HS'.
  Qed.

  (** ** a step of the swap thread *)
  Lemma chandler_calm ch X (c : ccmd X) cw x cw' : chandler ch X c cw = Some (x, cw') -> w_faults cw = [] -> w_faults cw' = [].
  Proof.
    destruct cw as [st ix nx cl lk po fs]. cbn [w_faults]. intros H ->. destruct c as [X [k|k v]|X [k|k v]| | |u| | |]; cbn in H.
    1-5: injection H as _ <-; reflexivity.
    - destruct lk; [discriminate|]. injection H as _ <-; reflexivity.
    - injection H as _ <-; reflexivity.
    - destruct lk; [discriminate|]. injection H as _ <-; reflexivity.
    - injection H as _ <-; reflexivity.
    - injection H as _ <-; reflexivity.
  Qed.
  Lemma Forall2_nth_l {A B} (P : A -> B -> Prop) l m i a : Forall2 P l m -> nth_error l i = Some a -> exists b, nth_error m i = Some b /\ P a b.
  Proof.
    intros H. revert i a. induction H as [|x y l m Hx H IH]; intros [|i] a N; try discriminate.
    - cbn [nth_error] in *. injection N as <-. eauto.
    - cbn [nth_error] in *. now apply IH.
  Qed.
  Lemma making_step w0 spec0 roles p0 ps kinds v low log fl w p' w' s q f (D : goal) k :
    one_by_one cf log w0 v -> vok v -> length ps = length roles /\ length kinds = length roles ->
    (forall i ro p kd, nth_error roles i = Some ro -> nth_error ps i = Some p -> nth_error kinds i = Some kd ->
       thr w0 low ro p kd v fl (length (d_heap w)) (of_thread (S i) log)) ->
    sum il kinds = (match fl with Some _ => 1 | None => 0 end)%nat -> flok fl ->
    w = openw v fl (Making s q f) (sum cg kinds) (sum sg kinds) ->
    peq p0 (bind (bind (lift (@DF) q) cA) k) -> (forall r, rot (k r) (fun es a => D ((OpSwap s, r) :: es) a)) ->
    refines D (of_thread 0 log) spec0 -> run fhandler q f = run fhandler (create_chunk cf s) (d_fs v) ->
    match q with Ret (Ok _) => True | Ret _ => False | Do _ _ => True end ->
    step dhandler p0 w = Some (p', w') -> Forall (known roles) log -> lowok kinds low log v fl -> inv_by 0 w0 spec0 roles low log (p' :: ps) w'.
  Proof.
    intros HL V HLen HT HI HF Ew Ep Hk HRf Hrun Hq St HW HLw. destruct (v_good v V) as (d & Nd & Gd).
    assert (HL0: one_by_one cf (log ++ evs 0 []) w0 v) by (cbn [evs map]; now rewrite app_nil_r).
    destruct q as [[nd|e|]|X c kq]; try contradiction; cbn [lift bind cA] in Ep.
    - destruct (step_peq _ _ _ _ _ _ _ Ep St) as (x & Hx & E'). rewrite Ew in Hx. cbn [dhandler openw d_heap] in Hx.
      assert (EL: length (infl v fl ++ extra (Making s (Ret (Ok nd)) f)) = length (d_heap v)) by (cbn [extra]; rewrite app_nil_r; now apply (infl_length v fl d)).
      rewrite EL in Hx. assert (x = length (d_heap v)) as -> by congruence.
      assert (Ew': w' = openw v fl (Mid s nd f 0) (sum cg kinds) (sum sg kinds)).
      { injection Hx as <-. unfold openw, set_heap. cbn [extra d_heap d_cur d_sec d_curl d_secl d_fs]. rewrite app_nil_r. reflexivity. }
      apply (rot_step w0 spec0 roles ps kinds v low log fl w (Mid s nd f 0) p' v w' []); try assumption.
      + rewrite app_nil_r. exists D, k. split; [exact E'|]. split; [exact Hk|]. split; [exact HRf|]. split; [|lia]. rewrite <- Hrun. reflexivity.
      + rewrite Ew, Ew'. cbn [openw d_heap]. rewrite !app_length. cbn [extra length]. lia.
      + left; auto.
      + intros _. constructor.
    - destruct (step_peq _ _ _ _ _ _ _ Ep St) as (x & Hx & E'). rewrite Ew in Hx. cbn [dhandler openw d_fs fsof] in Hx.
      cbn [run] in Hrun. destruct (fhandler X c f) as [[y f']|]; [|discriminate]. assert (y = x) as -> by congruence.
      assert (EW: w' = openw v fl (Making s (kq x) f') (sum cg kinds) (sum sg kinds)) by (injection Hx as <-; reflexivity). clear Hx.
      assert (LL: (length (d_heap w) <= length (d_heap w'))%nat) by (rewrite Ew, EW; cbn [openw d_heap extra]; lia).
      assert (GO: match kq x with Ret (Ok _) => True | Ret _ => False | Do _ _ => True end -> inv_by 0 w0 spec0 roles low log (p' :: ps) w').
      { intros Hq'. apply (rot_step w0 spec0 roles ps kinds v low log fl w (Making s (kq x) f') p' v w' []); try assumption; [|left; auto|intros _; constructor].
        rewrite app_nil_r. exists D, k. auto. }
      assert (FAIL: forall r, kq x = Ret r -> (forall nd, r <> Ok nd) -> inv_by 0 w0 spec0 roles low log (p' :: ps) w').
      { intros r Er Hr. rewrite Er in Hrun, E'. cbn [run] in Hrun. cbn [lift bind] in E'.
        destruct (swap_fails v s r f' V (eq_sym Hrun) Hr) as (r' & Ec & Ed & V'). rewrite Ec in E'. cbn [bind] in E'.
        apply (rot_step w0 spec0 roles ps kinds v low log fl w Idle p' (set_fs v f') w' [(OpSwap s, r')]); try assumption.
        - apply (log_snoc log w0 v 0 (OpSwap s) r'); assumption.
        - exists (fun es a => D ((OpSwap s, r') :: es) a). split; [eapply T_peq; [exact E'|apply Hk]|]. apply (refines_app D _ [(OpSwap s, r')]). exact HRf.
        - left; auto.
        - intros _. constructor; [|constructor]. unfold inert. cbn [fst snd e_op e_res]. intros u ->. destruct r; cbn [cA] in Ec; [eapply Hr; reflexivity|congruence|congruence]. }
      destruct (kq x) as [[nd|e|]|Y c2 k2] eqn:Ek; try (now apply GO).
      + apply (FAIL (Err e)); [reflexivity|discriminate].
      + apply (FAIL Panic); [reflexivity|discriminate].
  Qed.
  Lemma swap_step w0 spec0 roles low log p0 ps w p' w' : inv w0 spec0 roles low log (p0 :: ps) w -> step dhandler p0 w = Some (p', w') -> inv_by 0 w0 spec0 roles low log (p' :: ps) w'.
  Proof.
    intros [p0' ps' kinds v fl ph E0 HL V HR HLen HT HI HF HS HW HLw] St. injection E0 as <- <-.
    assert (HL0: one_by_one cf (log ++ evs 0 []) w0 v) by (cbn [evs map]; now rewrite app_nil_r).
    destruct (v_good v V) as (d & Nd & Gd).
    destruct ph as [|s q f|s nd g n|q r]; cbn [shape rot_ok] in *.
    - destruct HR as (D & HRt & HRf). apply rot_norm in HRt as [(a & -> & _)|(s & k & E & Hk)]; [discriminate|].
      eapply (making_step w0 spec0 roles p0 ps kinds v low log fl w p' w' s (create_chunk cf s) (d_fs v) D k); try eassumption; try reflexivity.
      eapply peq_trans; [exact E|]. apply peq_bind; [apply swap_pieces|intros; apply peq_refl].
    - destruct HR as (D & k & E & Hk & HRf & Hrun & Hq). eapply (making_step w0 spec0 roles p0 ps kinds v low log fl w p' w' s q f D k); eassumption.
    - destruct HR as (D & k & E & Hk & HRf & Hrun & Hn).
      assert (GO: forall n', (n' <= 5)%nat -> peq p' (bind (mid_prog (length (d_heap v)) (d_cur v) n') k) -> w' = openw v fl (Mid s nd g n') (sum cg kinds) (sum sg kinds) ->
         inv_by 0 w0 spec0 roles low log (p' :: ps) w').
      { intros n' Hn' E' Ew'. apply (rot_step w0 spec0 roles ps kinds v low log fl w (Mid s nd g n') p' v w' []); try assumption.
        - rewrite app_nil_r. exists D, k. auto.
        - rewrite HS, Ew'. cbn [openw d_heap extra]. lia.
        - left; auto.
        - intros _. constructor. }
      destruct n as [|[|[|[|[|[|n]]]]]]; [| | | | | |lia]; cbn [mid_prog] in E; unfold cB, cC, cD, cE, cF, cG in E; cbn [bind] in E;
        destruct (step_peq _ _ _ _ _ _ _ E St) as (x & Hx & E'); clear E.
      + destruct (shape_read v fl (Mid s nd g 0) _ _ w x w' V HS Hx) as (ch & Hch & -> & HS' & _). cbn [fst snd bind] in E'.
        apply (GO 1%nat); [lia|exact E'|]. cbn [shape] in HS'. rewrite HS'. unfold openw. cbn. f_equal. f_equal. lia.
      + rewrite HS in Hx. cbn [dhandler openw d_secl] in Hx. unfold rw_write in Hx. cbn [secw rw_writer rw_readers rw_poisoned Nat.eqb orb] in Hx.
        destruct (sum sg kinds) as [|m] eqn:Em; cbn [Nat.eqb negb] in Hx; [|discriminate]. injection Hx as <- <-. cbn [bind] in E'.
        apply (GO 2%nat); [lia|exact E'|]. reflexivity.
      + rewrite HS in Hx. cbn [dhandler openw] in Hx. apply (GO 3%nat); [lia|exact E'|]. injection Hx as _ <-. unfold openw, set_sec. cbn. rewrite app_nil_r. reflexivity.
      + rewrite HS in Hx. cbn [dhandler openw] in Hx. apply (GO 4%nat); [lia|exact E'|]. injection Hx as _ <-. reflexivity.
      + rewrite HS in Hx. cbn [dhandler openw] in Hx. apply (GO 5%nat); [lia|exact E'|]. injection Hx as _ <-. unfold openw, set_curl, rw_unread. cbn. f_equal. f_equal. lia.
      + rewrite HS in Hx. cbn [dhandler openw d_curl d_heap d_cur] in Hx. rewrite (open_cur v fl _ d Nd) in Hx. unfold rw_write in Hx. cbn [guard andb Nat.leb rw_writer rw_readers rw_poisoned orb] in Hx.
        rewrite Nat.add_0_r in Hx. destruct (sum cg kinds) as [|m] eqn:Em; cbn [Nat.eqb negb] in Hx; [|discriminate].
        assert (fl = None) as ->. { assert (X: (sum il kinds <= sum cg kinds)%nat) by (apply sum_mono; intros [[c|]| |[] b]; cbn; lia). destruct fl; [lia|reflexivity]. }
        injection Hx as <- Ew2. cbn [fst snd] in E'.
        destruct (swap_works v s nd g V Hrun) as (v' & E1 & E2 & V' & L' & L2').
        assert (Ew': w' = set_secl (at_write v nd g) (mkRw (sum sg kinds) false false)) by (rewrite <- Ew2; unfold openw, set_curl, set_secl, at_write; cbn; reflexivity).
        apply (rot_step w0 spec0 roles ps kinds v low log None w (Closing (cI (length (d_heap v)) (d_cur v)) (Ok tt)) p' v' w' [(OpSwap s, Ok tt)]); try assumption.
        * apply (log_snoc log w0 v 0 (OpSwap s) (Ok tt)); assumption.
        * exists (fun es a => D ((OpSwap s, Ok tt) :: es) a), k. split; [exact E'|]. split; [apply Hk|]. apply (refines_app D _ [(OpSwap s, Ok tt)]). exact HRf.
        * rewrite HS, Ew'. cbn. lia.
        * right; auto.
        * cbn [shape]. exists (at_write v nd g). split; [exact Ew'|]. split; [reflexivity|]. split; [reflexivity|]. split; [exact E1|]. split; [apply closing_cI|].
          split; [exact Em|]. split; [reflexivity|]. split; [exact L'|]. split; [now rewrite L2'|].
          pose proof (shape_calm v None (Mid s nd g 5) 0 0 (openw v None (Mid s nd g 5) 0 0) p0 (of_thread 0 log) spec0 V I) as HCm.
          cbn [at_write d_heap]. apply Forall_app. split; [eapply Forall_impl; [intros e; apply plain_calm|apply v_plain, V]|].
          constructor; [|constructor]. apply plain_calm, Good_plain. exact (proj2 (Good_new s _ _ _ (v_fs v V) Hrun) nd eq_refl).
        * congruence.
    - destruct HR as (D & k & E & Hk & HRf). destruct HS as (w1 & Ew & S1 & S2 & Hrun & Hcl & Hm & -> & Hal & Hse & Hcm).
      destruct Hcl as [u kk r' Hkk|X i c Q kk Hso Hcl|i kk Hcl]; cbn [bind] in E; destruct (step_peq _ _ _ _ _ _ _ E St) as (x & Hx & E'); cbn [run] in Hrun.
      + cbn [dhandler] in Hrun, Hx. destruct x. rewrite Hkk in Hrun, E'. cbn [run bind] in Hrun, E'. assert (r' = r) as -> by congruence.
        assert (Ev: v = set_curl w1 (rw_unwrite (d_curl w1) u)) by congruence.
        apply (rot_step w0 spec0 roles ps kinds v low log None w Idle p' v w' []); try assumption.
        * rewrite app_nil_r. exists D. split; [eapply T_peq; [exact E'|exact Hk]|exact HRf].
        * assert (w' = set_curl w (rw_unwrite (d_curl w) u)) as -> by congruence. cbn. lia.
        * left; auto.
        * cbn [shape]. injection Hx as <-. rewrite Ew, Hm. pose proof (v_cur v V) as C1. rewrite Ev in C1 |- *. cbn [set_curl d_curl] in C1.
          unfold openw, infl. destruct w1 as [h1 c1 s1 l1 m1 f1]. unfold set_secl, set_curl in *. cbn [d_heap d_cur d_sec d_curl d_secl d_fs extra pushed guard fsof] in *. rewrite !app_nil_r. rewrite C1. reflexivity.
        * intros _. constructor.
      + assert (HX: exists w1', dhandler _ (DC i c) w1 = Some (x, w1') /\ w' = set_secl w1' (mkRw (sum sg kinds) false false) /\ d_secl w1' = d_secl w1 /\ d_curl w1' = d_curl w1 /\
            (length (d_heap w1') = length (d_heap w1) /\ Q x /\ Forall2 alike (d_heap w1') (d_heap v) /\ d_sec w1' = d_sec w1) /\ Forall calm (d_heap w1')).
        { rewrite Ew in Hx. cbn [dhandler set_secl d_heap] in Hx |- *. destruct (nth_error (d_heap w1) i) as [di|] eqn:Ni; [|discriminate].
          destruct (chandler (dc_chunk di) X c (dc_world di)) as [[y cw]|] eqn:Ec; [|discriminate]. eexists. split; [assert (y = x) as -> by congruence; reflexivity|].
          split; [injection Hx as _ <-; reflexivity|]. split; [reflexivity|]. split; [reflexivity|]. cbn [set_heap d_heap]. destruct (Forall2_nth_l _ _ _ _ _ Hal Ni) as (dv & _ & A1 & A2 & A3 & A4).
          destruct (Hso _ _ _ _ A4 Ec) as (B1 & B2 & B3 & B4). assert (y = x) as -> by congruence.
          split; [split; [apply upd_length; apply nth_error_Some; congruence|]; split; [exact B1|]; split; [now apply alike_set|reflexivity]|].
          apply Forall_upd; [exact Hcm|]. unfold calm. cbn [dc_world]. eapply chandler_calm; [exact Ec|]. rewrite Forall_forall in Hcm. apply Hcm. eapply nth_error_In. exact Ni. }
        destruct HX as (w1' & H1 & H2 & H3 & H4 & (H5 & H7 & H8 & H9) & H6). rewrite H1 in Hrun. specialize (Hcl _ H7).
        apply (rot_step w0 spec0 roles ps kinds v low log None w (Closing (kk x) r) p' v w' []); try assumption.
        * rewrite app_nil_r. exists D, k. auto.
        * rewrite Ew, H2. cbn [set_secl d_heap]. lia.
        * left; auto.
        * cbn [shape]. exists w1'. rewrite H3, H4, H9. auto 12.
        * intros _. constructor.
      + cbn [dhandler] in Hrun, Hx. destruct x. rewrite Ew in Hx. assert (Ew': w' = set_secl (set_cur w1 i) (mkRw (sum sg kinds) false false)) by (injection Hx as <-; reflexivity).
        apply (rot_step w0 spec0 roles ps kinds v low log None w (Closing (kk tt) r) p' v w' []); try assumption.
        * rewrite app_nil_r. exists D, k. auto.
        * rewrite Ew, Ew'. cbn. lia.
        * left; auto.
        * cbn [shape]. exists (set_cur w1 i). cbn [set_cur d_secl d_curl d_heap d_sec]. auto 12.
        * intros _. constructor.
  Qed.
  Lemma inv_step w0 spec0 roles low log ts w i p p' w' : inv w0 spec0 roles low log ts w -> nth_error ts i = Some p -> step dhandler p w = Some (p', w') ->
    inv_by i w0 spec0 roles low log (upd ts i p') w'.
  Proof.
    intros H N St. destruct i as [|i]; [|now apply (thread_step w0 spec0 roles low log ts w i p)].
    destruct ts as [|p0 ps]; [discriminate|]. cbn [nth_error] in N. assert (p0 = p) as -> by congruence. change (upd (p :: ps) 0 p') with (p' :: ps). now apply (swap_step w0 spec0 roles low log p ps w).
  Qed.
  Lemma inv_interleave w0 spec0 roles (sched : list nat) : forall low log ts w, inv w0 spec0 roles low log ts w ->
    exists (E : list (list (dop * res unit))) (T : list (list event)), length E = length sched /\ length T = length sched /\
      (forall n i a, nth_error sched n = Some i -> nth_error (fst (interleave dhandler (firstn n sched) ts w)) i = Some (Ret a) -> nth_error E n = Some []) /\
      forall n, inv w0 spec0 roles (low ++ concat (firstn n T)) (log ++ logged (firstn n sched) E) (fst (interleave dhandler (firstn n sched) ts w)) (snd (interleave dhandler (firstn n sched) ts w)).
  Proof.
    induction sched as [|i sched IH]; intros low log ts w H.
    - exists [], []. split; [reflexivity|]. split; [reflexivity|]. split; [intros [|n]; discriminate|]. intros n. rewrite !firstn_nil. cbn [interleave fst snd]. unfold logged. cbn. now rewrite !app_nil_r.
    - assert (SKIP: (forall n, interleave dhandler (firstn (S n) (i :: sched)) ts w = interleave dhandler (firstn n sched) ts w) ->
        exists (E : list (list (dop * res unit))) (T : list (list event)), length E = length (i :: sched) /\ length T = length (i :: sched) /\
        (forall n j a, nth_error (i :: sched) n = Some j -> nth_error (fst (interleave dhandler (firstn n (i :: sched)) ts w)) j = Some (Ret a) -> nth_error E n = Some []) /\
        forall n, inv w0 spec0 roles (low ++ concat (firstn n T)) (log ++ logged (firstn n (i :: sched)) E) (fst (interleave dhandler (firstn n (i :: sched)) ts w)) (snd (interleave dhandler (firstn n (i :: sched)) ts w))).
      { intros K. destruct (IH low log ts w H) as (E & T & E1 & T1 & E2 & E3). exists ([] :: E), ([] :: T). split; [cbn; now rewrite E1|]. split; [cbn; now rewrite T1|]. split.
        - intros [|n] j a Hn Hj; [reflexivity|]. rewrite K in Hj. cbn [nth_error] in *. exact (E2 n j a Hn Hj).
        - intros [|n]; [cbn [firstn interleave fst snd]; unfold logged; cbn; now rewrite !app_nil_r|]. rewrite K. cbn [firstn]. unfold logged. cbn [combine map concat fst snd evs app]. apply E3. }
      destruct (nth_error ts i) as [p|] eqn:N; [|apply SKIP; intros n; cbn [firstn interleave]; now rewrite N].
      destruct (step dhandler p w) as [[p2 w2]|] eqn:St; [|apply SKIP; intros n; cbn [firstn interleave]; now rewrite N, St].
      assert (K: forall n, interleave dhandler (firstn (S n) (i :: sched)) ts w = interleave dhandler (firstn n sched) (upd ts i p2) w2) by (intros n; cbn [firstn interleave]; now rewrite N, St).
      destruct (inv_step w0 spec0 roles low log ts w i p p2 w2 H N St) as (es & t & H2). destruct (IH _ _ _ _ H2) as (E & T & E1 & T1 & E2 & E3). exists (es :: E), (t :: T).
      split; [cbn; now rewrite E1|]. split; [cbn; now rewrite T1|]. split.
      + intros [|n] j a Hn Hj.
        * cbn [firstn interleave fst nth_error] in *. assert (i = j) as <- by congruence. assert (p = Ret a) as -> by congruence. discriminate.
        * rewrite K in Hj. cbn [nth_error] in *. exact (E2 n j a Hn Hj).
      + intros [|n]; [cbn [firstn interleave fst snd]; unfold logged; cbn; now rewrite !app_nil_r|]. rewrite K. cbn [firstn]. unfold logged. cbn [combine map concat fst snd]. rewrite !app_assoc. apply E3.
  Qed.

  (** ** the start *)
  Definition client_role (cs : list wcall) : role := Cl (fun es a => exists rs, a = Wrote rs /\ session cs es rs).
  Definition rot_goal (starts : list Z) : goal := fun es a => exists rs, a = Rotated rs /\ rotations starts es rs.
  Definition roles_of (cs : list (list wcall)) (qs : list (list ask)) : list role := map client_role cs ++ map (fun _ => Rd) qs.
  Definition kinds_of (cs : list (list wcall)) (qs : list (list ask)) : list kind := map (fun _ => IC None) cs ++ map (fun _ => IR false false) qs.
  Lemma nth_map_app {A B C} (f : A -> C) (g : B -> C) l m i x : nth_error (map f l ++ map g m) i = Some x ->
    (exists a, nth_error l i = Some a /\ x = f a) \/ (exists b, nth_error m (i - length l) = Some b /\ (length l <= i)%nat /\ x = g b).
  Proof.
    intros H. destruct (Nat.lt_ge_cases i (length l)) as [L|L].
    - rewrite nth_error_app1 in H by now rewrite map_length. rewrite nth_error_map in H. destruct (nth_error l i) as [a|]; [|discriminate]. left. exists a. split; [reflexivity|]. cbn in H. congruence.
    - rewrite nth_error_app2 in H by now rewrite map_length. rewrite map_length, nth_error_map in H. destruct (nth_error m (i - length l)) as [b|]; [|discriminate]. right. exists b.
      split; [reflexivity|]. split; [exact L|]. cbn in H. congruence.
  Qed.
  Lemma sum_zero f l : (forall k, In k l -> f k = 0%nat) -> sum f l = 0%nat.
  Proof. intros H. unfold sum, list_sum. induction l as [|k l IH]; cbn [map fold_right]; [reflexivity|]. rewrite (H k) by now left. rewrite IH; [reflexivity|]. intros x Hx. apply H. now right. Qed.
  Lemma inv_start w starts cs qs : vok w -> Forall (Forall (wcall_in R)) cs -> inv w (rot_goal starts) (roles_of cs qs) [] [] (threads cf starts cs qs) w.
  Proof.
    intros V HC. pose proof V as [H1 H2 (d & Nd & Gd) H4 H5 H6].
    assert (KZ: forall k, In k (kinds_of cs qs) -> cg k = 0%nat /\ sg k = 0%nat /\ il k = 0%nat).
    { intros k Hk. unfold kinds_of in Hk. apply in_app_or in Hk as [Hk|Hk]; apply in_map_iff in Hk as (x & <- & _); cbn; auto. }
    refine (mkI w _ _ [] [] _ w (rotator cf starts) (map client cs ++ map querier qs) (kinds_of cs qs) w None Idle eq_refl eq_refl V _ _ _ _ I _ (Forall_nil _) eq_refl).
    - exists (rot_goal starts). split; [apply rotator_rot|]. intros es a H. exact H.
    - unfold kinds_of, roles_of. rewrite !app_length, !map_length. auto.
    - intros i ro p kd N1 N2 N3. unfold roles_of in N1. unfold kinds_of in N3. apply nth_map_app in N1, N2, N3.
      destruct N1 as [(c1 & M1 & ->)|(q1 & M1 & L1 & ->)], N2 as [(c2 & M2 & ->)|(q2 & M2 & L2 & ->)], N3 as [(c3 & M3 & ->)|(q3 & M3 & L3 & ->)];
        try (apply nth_error_None in L1; congruence); try (apply nth_error_None in L2; congruence); try (apply nth_error_None in L3; congruence).
      + assert (c2 = c1) as -> by congruence. cbn [thr client_role of_thread filter map]. eexists. split; [apply client_cli|].
        * rewrite Forall_forall in HC. apply HC. eapply nth_error_In. exact M1.
        * split; [|exact I]. intros es a H. exact H.
      + cbn [thr]. apply querier_rd.
    - apply sum_zero. intros k Hk. now apply KZ.
    - cbn [shape]. rewrite !sum_zero by (intros k Hk; now apply KZ). unfold openw, infl. cbn [extra pushed guard secw fsof]. rewrite !app_nil_r.
      destruct w as [h c s l1 l2 f]. cbn [d_heap d_cur d_sec d_curl d_secl d_fs] in *. now subst.
  Qed.

  (** ** the end *)
  Lemma ret_do {X A} (a : A) (c : dcmd X) k : ~ peq (Ret a) (Do c k).
  Proof. intros H. apply peq_do_inv in H as (k' & H & _). discriminate. Qed.
  Lemma mid_do new old n : exists X (c : dcmd X) k, mid_prog new old n = Do c k.
  Proof. destruct n as [|[|[|[|[|n]]]]]; cbn [mid_prog]; unfold cB, cC, cD, cE, cF, cG; eauto. Qed.
  Lemma rot_ret a ph v es spec : rot_ok (Ret a) ph v es spec -> match ph with Closing q _ => closing q | _ => True end -> ph = Idle /\ spec es a.
  Proof.
    destruct ph as [|s q f|s nd g n|q r]; cbn [rot_ok].
    - intros (D & HR & HRf) _. split; [reflexivity|]. apply rot_norm in HR as [(b & E & HD)|(s & k & E & _)].
      + assert (b = a) as -> by congruence. apply HRf in HD. now rewrite app_nil_r in HD.
      + exfalso. eapply ret_do. exact E.
    - intros (D & k & E & _ & _ & _ & Hq) _. exfalso. destruct q as [[nd|e|]|X c kq]; try contradiction; eapply ret_do; exact E.
    - intros (D & k & E & _) _. exfalso. destruct (mid_do (length (d_heap v)) (d_cur v) n) as (X & c & k' & Em). rewrite Em in E. eapply ret_do. exact E.
    - intros (D & k & E & _) Hc. exfalso. destruct Hc; eapply ret_do; exact E.
  Qed.
  Lemma thr_ret w0 low ro a kd v fl n es : thr w0 low ro (Ret a) kd v fl n es -> cg kd = 0%nat /\ sg kd = 0%nat /\ il kd = 0%nat /\
    match ro with Cl spec => spec es a | Rd => True end.
  Proof.
    destruct ro as [spec|], kd as [c| |x y]; cbn [thr]; try contradiction.
    - intros (D & HC & HRf & _). apply cli_norm in HC. destruct HC as [b D E HD|k D E K|es' i' ch b ls q k D Hsk Rq Hb E K|es' k i' ch D Hsk E K].
      + assert (b = a) as -> by congruence. cbn. apply HRf in HD. rewrite app_nil_r in HD. auto.
      + exfalso. eapply ret_do. exact E.
      + exfalso. destruct (insert_locking ch ls q) as (kk & Ek & _). rewrite Ek in E. eapply ret_do. exact E.
      + exfalso. eapply ret_do. exact E.
    - intros (D & q & k & r & cw & d & E & Hq & _). exfalso. destruct Hq; eapply ret_do; exact E.
    - intros [-> ->]. cbn. auto.
  Qed.
  Lemma shape_closing v fl ph m n w : shape v fl ph m n w -> match ph with Closing q _ => closing q | _ => True end.
  Proof. destruct ph; try exact (fun _ => I). intros (w1 & _ & _ & _ & _ & H & _). exact H. Qed.
  Lemma inv_finished w0 spec0 roles low log ts w : inv w0 spec0 roles low log ts w -> (forall p, In p ts -> finished p) ->
    one_by_one cf log w0 w /\ vok w /\ Forall (known roles) log /\ (exists a, nth_error ts 0 = Some (Ret a) /\ spec0 (of_thread 0 log) a) /\
      forall i spec, nth_error roles i = Some (Cl spec) -> exists a, nth_error ts (S i) = Some (Ret a) /\ spec (of_thread (S i) log) a.
  Proof.
    intros [p0 ps kinds v fl ph -> HL V HR [L1 L2] HT HI HF HS HW HLw] FI.
    destruct (FI p0 ltac:(now left)) as [a0 ->]. destruct (rot_ret _ _ _ _ _ HR (shape_closing _ _ _ _ _ _ HS)) as [-> HSp].
    assert (TR: forall i kd, nth_error kinds i = Some kd -> exists ro a, nth_error roles i = Some ro /\ nth_error ps i = Some (Ret a) /\ thr w0 low ro (Ret a) kd v fl (length (d_heap w)) (of_thread (S i) log)).
    { intros i kd N. assert (Li: (i < length kinds)%nat) by (apply nth_error_Some; congruence).
      destruct (nth_error roles i) as [ro|] eqn:Nr; [|apply nth_error_None in Nr; lia]. destruct (nth_error ps i) as [p|] eqn:Np; [|apply nth_error_None in Np; lia].
      destruct (FI p) as [a ->]. { right. eapply nth_error_In. exact Np. } exists ro, a. auto. }
    assert (KZ: forall k, In k kinds -> cg k = 0%nat /\ sg k = 0%nat /\ il k = 0%nat).
    { intros k Hk. apply In_nth_error in Hk as (i & N). destruct (TR i k N) as (ro & a & _ & _ & T). apply thr_ret in T. tauto. }
    assert (fl = None) as ->. { rewrite sum_zero in HI by (intros k Hk; now apply KZ). now destruct fl. }
    assert (w = v) as ->.
    { cbn [shape] in HS. rewrite !sum_zero in HS by (intros k Hk; now apply KZ). rewrite HS. unfold openw, infl. cbn [extra pushed guard secw fsof]. rewrite !app_nil_r.
      destruct V as [H1 H2 _ _ _ _]. destruct v as [h c s l1 l2 f]. cbn [d_heap d_cur d_sec d_curl d_secl d_fs] in *. now subst. }
    split; [exact HL|]. split; [exact V|]. split; [exact HW|]. split; [exists a0; auto|]. intros i spec Nr. assert (Li: (i < length roles)%nat) by (apply nth_error_Some; congruence).
    destruct (nth_error kinds i) as [kd|] eqn:Nk; [|apply nth_error_None in Nk; lia]. destruct (TR i kd Nk) as (ro & a & Nr' & Np & T). assert (ro = Cl spec) as -> by congruence.
    exists a. split; [exact Np|]. apply thr_ret in T. tauto.
  Qed.

  (** ** nobody waits for ever *)
  Lemma fhandler_total X (c : fcmd X) f : exists x f', fhandler X c f = Some (x, f').
  Proof. destruct c; cbn [fhandler]; try (destruct (hd false (f_faults f))); eauto. Qed.
  Lemma peq_stuck {A X} (p : prog dcmd A) (c : dcmd X) k w : peq p (Do c k) -> step dhandler p w = None -> (exists y, dhandler X c w = Some y) -> False.
  Proof. intros E St [y Hy]. rewrite (step_peq_none _ _ _ _ _ E St) in Hy. discriminate. Qed.
  Lemma inv_stuck w0 spec0 roles low log ts w : inv w0 spec0 roles low log ts w -> (forall p, In p ts -> step dhandler p w = None) -> forall p, In p ts -> finished p.
  Proof.
    intros [p0 ps kinds v fl ph -> HL V HR [L1 L2] HT HI HF HS HW HLw] ST. destruct (v_good v V) as (d & Nd & Gd).
    assert (TR: forall i kd, nth_error kinds i = Some kd -> exists ro p, nth_error roles i = Some ro /\ nth_error ps i = Some p /\ step dhandler p w = None /\
        thr w0 low ro p kd v fl (length (d_heap w)) (of_thread (S i) log)).
    { intros i kd N. assert (Li: (i < length kinds)%nat) by (apply nth_error_Some; congruence).
      destruct (nth_error roles i) as [ro|] eqn:Nr; [|apply nth_error_None in Nr; lia]. destruct (nth_error ps i) as [p|] eqn:Np; [|apply nth_error_None in Np; lia].
      exists ro, p. split; [reflexivity|]. split; [reflexivity|]. split; [|now apply HT]. apply ST. right. eapply nth_error_In. exact Np. }
    pose proof (ST p0 ltac:(now left)) as ST0.
    (* nobody holds the lock of the chunk *)
    assert (NIL: forall k, In k kinds -> il k = 0%nat).
    { intros k Hk. apply In_nth_error in Hk as (i & N). destruct k as [c| |a b]; try reflexivity. exfalso. destruct (TR i IL N) as (ro & p & _ & _ & Sp & T).
      destruct ro as [spec|]; cbn [thr] in T; [|contradiction]. destruct T as (D & q & k & r & cw & d' & E & Hq & Nd' & -> & Hr & _). assert (d' = d) as -> by congruence.
      pose proof (sum_le cg kinds i IL N) as Z. cbn [cg] in Z. destruct (not_closing _ _ _ _ _ _ HS ltac:(lia)) as [Ew _].
      destruct Hq as [u kk r' Hkk|X c kk Hc Hk]; cbn [lift bind] in E; apply (peq_stuck _ _ _ _ E Sp); rewrite Ew; cbn [dhandler openw d_heap]; rewrite (open_cur v (Some cw) ph d Nd).
      - cbn [chandler]. eauto.
      - cbn [dc_chunk dc_world]. destruct (plain_runs (dc_chunk d) X c cw Hc) as (x & cw' & Hx & _). rewrite Hx. eauto. }
    assert (fl = None) as ->. { rewrite (sum_zero il) in HI by exact NIL. now destruct fl. }
    (* the swap thread is not closing a chunk *)
    assert (Ew: w = openw v None ph (sum cg kinds) (sum sg kinds) /\ match ph with Closing _ _ => False | _ => True end).
    { destruct ph as [|s q f|s nd g n|q r]; try (split; [exact HS|exact I]). exfalso. cbn [rot_ok] in HR. destruct HR as (D & k & E & _).
      destruct HS as (w1 & -> & S1 & S2 & Hrun & Hcl & _). destruct Hcl as [u kk r' Hkk|X i c Q kk Hso Hcl|i kk Hcl]; cbn [bind] in E; apply (peq_stuck _ _ _ _ E ST0); cbn [dhandler set_secl d_heap].
      - eauto.
      - cbn [run dhandler] in Hrun. destruct (nth_error (d_heap w1) i) as [di|]; [|discriminate]. destruct (chandler (dc_chunk di) X c (dc_world di)) as [[y cw]|]; [eauto|discriminate].
      - eauto. }
    destruct Ew as [Ew NC].
    assert (PL: Forall plain (d_heap w)).
    { rewrite Ew. cbn [openw d_heap]. apply Forall_app. split; [apply v_plain, V|]. destruct ph as [|s q f|s nd g n|q r]; cbn [extra]; try constructor; [|constructor].
      destruct HR as (_ & _ & _ & _ & _ & H & _). apply Good_plain. exact (proj2 (Good_new s _ _ _ (v_fs v V) H) nd eq_refl). }
    assert (CR: exists y, dhandler _ DCurRead w = Some y).
    { rewrite Ew. cbn [dhandler openw d_curl d_heap d_cur]. rewrite (open_cur v None ph d Nd). unfold rw_read. cbn [rw_writer]. eauto. }
    (* the swap thread does not hold the secondary lock *)
    assert (NS: secw ph = false).
    { destruct ph as [|s q f|s nd g n|q r]; try reflexivity. destruct HR as (D & k & E & _). cbn [secw]. destruct n as [|[|[|[|n]]]]; try reflexivity; exfalso;
      cbn [mid_prog] in E; unfold cD, cE in E; cbn [bind] in E; apply (peq_stuck _ _ _ _ E ST0); cbn [dhandler]; eauto. }
    (* the others have finished *)
    assert (FIN: forall i p, nth_error ps i = Some p -> finished p).
    { intros i p Np. assert (Li: (i < length ps)%nat) by (apply nth_error_Some; congruence). destruct (nth_error kinds i) as [kd|] eqn:Nk; [|apply nth_error_None in Nk; lia].
      destruct (TR i kd Nk) as (ro & p' & Nr & Np' & Sp & T). assert (p' = p) as -> by congruence.
      destruct ro as [spec|], kd as [c| |a b]; cbn [thr] in T; try contradiction.
      - destruct T as (D & HC & HRf & Hc). apply cli_norm in HC. destruct HC as [b D E HD|k D E K|es' i' ch b ls q k D Hsk Rq Hb E K|es' k i' ch D Hsk E K].
        + exists b. exact E.
        + exfalso. exact (peq_stuck _ _ _ _ E Sp CR).
        + exfalso. destruct Hc as [-> Hch]. destruct (insert_locking ch ls q) as (kk & Ek & _). rewrite Ek in E. cbn [lift bind] in E. apply (peq_stuck _ _ _ _ E Sp). rewrite Ew.
          cbn [dhandler openw d_heap]. rewrite (open_cur v None ph d Nd). cbn [chandler]. destruct (Good_plain d Gd) as (P1 & P2 & P3). rewrite P1. eauto.
        + exfalso. apply (peq_stuck _ _ _ _ E Sp). cbn [dhandler]. eauto.
      - destruct T as (D & q & k & r & cw & d' & _ & _ & _ & T & _). discriminate.
      - destruct p as [x|X c k]; [exists x; reflexivity|]. exfalso. pose proof (peq_stuck _ _ _ w (peq_refl _) Sp) as NO. apply NO. clear NO.
        destruct c as [X j c|X c|nd| | | |j|u| | | |j|u]; cbn [rd] in T; try contradiction; try exact CR; cbn [dhandler]; eauto.
        + destruct T as (T1 & T2 & _). destruct (nth_error (d_heap w) j) as [dj|] eqn:Nj; [|apply nth_error_None in Nj; lia].
          assert (P: plain dj) by (rewrite Forall_forall in PL; apply PL; eapply nth_error_In; exact Nj). destruct P as (P1 & P2 & P3).
          destruct (chandler (dc_chunk dj) X c (dc_world dj)) as [[y cw]|] eqn:Ec; [eauto|]. exfalso. revert Ec.
          destruct c as [X [kk|kk vv]|X [kk|kk vv]| | |u| | |]; cbn in T1 |- *; try contradiction; rewrite ?P1, ?P3; cbn; congruence.
        + unfold rw_read. rewrite Ew. cbn [openw d_secl rw_writer d_heap d_sec]. rewrite NS.
          assert (LK: forall h l, Forall (fun i => i < length h)%nat l -> exists cs, lookups h l = Some cs).
          { intros h l H. induction H as [|x l Hx H IH]; cbn [lookups]; [eauto|]. destruct (nth_error h x) as [dx|] eqn:Nx; [|apply nth_error_None in Nx; lia]. destruct IH as [cs ->]. eauto. }
          destruct (LK (infl v None ++ extra ph) (d_sec v ++ pushed ph (d_cur v))) as [cs ->]; [|eauto].
          assert (LC: (d_cur v < length (d_heap v))%nat) by (apply nth_error_Some; congruence).
          apply Forall_app. split.
          * eapply Forall_impl; [|apply v_secs, V]. cbn beta. intros x Hx. rewrite app_length. cbn [infl]. lia.
          * assert (X0: (d_cur v < length (infl v None ++ extra ph))%nat) by (rewrite app_length; cbn [infl]; lia).
            destruct ph as [|s q f|s nd g n|q r]; cbn [pushed]; try constructor. destruct (3 <=? n)%nat; repeat constructor. exact X0. }
    assert (KZ: forall k, In k kinds -> cg k = 0%nat /\ sg k = 0%nat).
    { intros k Hk. apply In_nth_error in Hk as (i & N). destruct (TR i k N) as (ro & p & _ & Np & _ & T). destruct (FIN i p Np) as [a ->]. apply thr_ret in T. tauto. }
    intros p [<-|Hp]; [|apply In_nth_error in Hp as (i & Np); exact (FIN i p Np)].
    destruct ph as [|s q f|s nd g n|q r]; [| | |contradiction]; cbn [rot_ok] in HR.
    - destruct HR as (D & HRt & _). apply rot_norm in HRt as [(a & -> & _)|(s & k & E & _)]; [exists a; reflexivity|]. exfalso.
      apply (peq_stuck _ _ _ _ E ST0). cbn [dhandler fhandler]. eauto.
    - exfalso. destruct HR as (D & k & E & _ & _ & _ & Hq). destruct q as [[nd|e|]|X c kq]; try contradiction; cbn [lift bind cA] in E; apply (peq_stuck _ _ _ _ E ST0); cbn [dhandler].
      + eauto.
      + destruct (fhandler_total X c (d_fs w)) as (x & f' & ->). eauto.
    - exfalso. destruct HR as (D & k & E & _ & _ & _ & Hn). rewrite !sum_zero in Ew by (intros x Hx; now apply KZ).
      destruct n as [|[|[|[|[|[|n]]]]]]; [| | | | | |lia]; cbn [mid_prog] in E; unfold cB, cC, cD, cE, cF, cG in E; cbn [bind] in E; apply (peq_stuck _ _ _ _ E ST0).
      + exact CR.
      + rewrite Ew. cbn. eauto.
      + cbn [dhandler]. eauto.
      + cbn [dhandler]. eauto.
      + cbn [dhandler]. eauto.
      + rewrite Ew. cbn [dhandler openw d_curl d_heap d_cur]. rewrite (open_cur v None _ d Nd). cbn. eauto.
  Qed.

  (* thread i has finished after the first n steps *)
  Theorem all_serial w starts cs qs sched ts w' : vok w -> Forall (Forall (wcall_in R)) cs ->
    interleave dhandler sched (threads cf starts cs qs) w = (ts, w') -> (forall p, In p ts -> finished p) ->
    vok w' /\ exists E : list (list (dop * res unit)), length E = length sched /\
      (forall n i a, nth_error sched n = Some i -> nth_error (fst (interleave dhandler (firstn n sched) (threads cf starts cs qs) w)) i = Some (Ret a) -> nth_error E n = Some []) /\
      let log := logged sched E in
      one_by_one cf log w w' /\ Forall (fun e => e_who e <= length cs)%nat log /\
      (exists rs, nth_error ts 0 = Some (Ret (Rotated rs)) /\ rotations starts (of_thread 0 log) rs) /\
      forall i c, nth_error cs i = Some c -> exists rs, nth_error ts (S i) = Some (Ret (Wrote rs)) /\ session c (of_thread (S i) log) rs.
  Proof.
    intros V HC E FI. destruct (inv_interleave w (rot_goal starts) (roles_of cs qs) sched [] [] _ w (inv_start w starts cs qs V HC)) as (EE & T & E1 & _ & E2 & E3).
    specialize (E3 (length sched)). rewrite (firstn_all sched), E in E3. cbn [app fst snd] in E3.
    destruct (inv_finished _ _ _ _ _ _ _ E3 FI) as (H1 & HV & HW & (a & H2 & rs & -> & H3) & H4).
    split; [exact HV|]. exists EE. split; [exact E1|]. split; [exact E2|]. cbv zeta. split; [exact H1|]. split.
    { eapply Forall_impl; [|exact HW]. intros e. unfold known. destruct (e_who e) as [|i]; [lia|]. intros (spec & N). unfold roles_of in N. apply nth_map_app in N as [(c & N & _)|(q & _ & _ & X)]; [|discriminate].
      assert (i < length cs)%nat by (apply nth_error_Some; congruence). lia. } split; [eauto|]. intros i c N. destruct (H4 i (fun es a => exists rs, a = Wrote rs /\ session c es rs)) as (a & H5 & rs' & -> & H6); [|eauto].
    unfold roles_of. rewrite nth_error_app1 by (rewrite map_length; apply nth_error_Some; congruence). now rewrite nth_error_map, N.
  Qed.
  Theorem all_finish w starts cs qs sched : vok w -> Forall (Forall (wcall_in R)) cs ->
    exists more, forall p, In p (fst (interleave dhandler (sched ++ more) (threads cf starts cs qs) w)) -> finished p.
  Proof.
    intros V HC. destruct (interleave dhandler sched (threads cf starts cs qs) w) as [ts0 w0] eqn:E0.
    destruct (finishes dhandler (fun ts w' => exists low log, inv w (rot_goal starts) (roles_of cs qs) low log ts w') finished) with (ts := ts0) (w := w0) as (more & HM).
    - intros ts w2 i p p' w' (low & log & H) N St. destruct (inv_step w _ _ low log ts w2 i p p' w' H N St) as (es & t & H'). eauto.
    - intros ts w2 (low & log & H) St. exact (inv_stuck _ _ _ _ _ _ _ H St).
    - destruct (inv_interleave w (rot_goal starts) (roles_of cs qs) sched [] [] _ w (inv_start w starts cs qs V HC)) as (EE & T & _ & _ & _ & E3).
      specialize (E3 (length sched)). rewrite (firstn_all sched), E0 in E3. eauto.
    - exists more. rewrite interleave_app, E0. exact HM.
  Qed.
End ALL.
