(* Processes that work one after the other on a directory, any of which may end in the middle of a
   write: what every query finds. *)
From Coq Require Import ZifyBool ZifyNat Permutation Sorted.
From Verif Require Import Rust StringProofs Prog Gorilla GorillaSpec Storage StorageSpec StorageProofs Labels IndexSpec Indexer
  LabelProofs IntersectProofs IndexProofs IndexHist Chunk ChunkSpec ChunkProofs ChunkFacts ConcSpec Conc CrashProofs ReadsSpec ReadsMay ReadsCrash
  ReadsConc Flush LossSpec FlushProofs LossProofs StopSpec CrashQuery
  Utils DirSpec DirProofs TiKvInit Db DbSpec MapProofs DbProofs DbHist RangeSpec RangeProofs DbFacts
  ReopenSpec ReopenProofs OpenProofs CrashOpen CrashKeep SearchSpec TornSpec TornProofs TornKnown TornAll TornLivesSpec TornLives TornManySpec TornMany.
Ltac Zify.zify_post_hook ::= Z.div_mod_to_equations.

Lemma sub_filter {T} (f : T -> bool) a b : subseq a b -> subseq (filter f a) (filter f b).
Proof. induction 1 as [|x a b H IH|x a b H IH]; cbn [filter]; [constructor| |]; destruct (f x); try exact IH; [now apply ss_skip|now apply ss_take]. Qed.
Lemma sub_map {T U} (f : T -> U) a b : subseq a b -> subseq (map f a) (map f b).
Proof. induction 1; cbn [map]; constructor; assumption. Qed.

(** ** a directory that can be opened *)
Definition opens (f : fworld) (l : list tpart) : Prop :=
  forall cf, cf_st cf = Sled -> cf_ix cf = Sled -> cf_base cf <> [] -> ascii (cf_base cf) -> 0 <= cf_size cf ->
  let start := f_clock f (f_ticks f + length l) in
  (forall x, In x l -> c_start (fst (snd x)) < start) -> start + cf_size cf < 2 ^ 64 ->
  exists w' l', db_open cf f = Some (Ok tt, w') /\ gstate cf w' (l' ++ [(None, (the_chunk cf start, []))]) /\
    f_ticks (d_fs w') = S (f_ticks f + length l) /\ same_env f (d_fs w') /\
    Forall2 (tclip (f_clock f) (f_ticks f) (f_ticks f + length l)) l l'.
Lemma opens_empty f : env_ok f -> empty_dir f -> opens f [].
Proof.
  intros He Hd cf S1 S2 Hb Ha Hsz start _ Hend. cbn [length] in *. unfold start in *. clear start. rewrite Nat.add_0_r in *.
  destruct (open_run cf f He Hd Hb Hsz Hend) as (w & E & St & T & N & _). exists w, []. split; [exact E|]. split; [exact (state_gstate _ _ _ St)|].
  split; [exact T|]. split; [exact N|constructor].
Qed.
Lemma opens_rest cf w l : rest cf w l -> cf_st cf = Sled -> cf_ix cf = Sled -> opens (stopped cf w) l.
Proof. intros R S1 S2 cf' S1' S2' Hb Ha Hsz start Hl Hend. exact (greopen cf cf' w l R S1 S2 S1' S2' Hb Ha Hsz Hl Hend). Qed.

(** ** how a process ends *)
Lemma other_fold c q ls rs : ~ shares q ls -> (forall r, In r rs -> fst r = ls) -> Forall ireq_ok rs -> forall A, wfc A -> matching (fold_left (ins c) rs A) q = matching A q.
Proof.
  intros Hn. induction rs as [|[l p] rs IH]; intros Hl Hr A W; [reflexivity|]. inversion Hr as [|? ? [K1 K2] Hr']; subst. cbn [fst snd] in K1, K2.
  pose proof (Hl (l, p) (or_introl eq_refl)) as E. cbn [fst] in E. subst l. cbn [fold_left].
  rewrite IH; [|intros r Hin; apply Hl; now right|assumption|unfold ins; cbn [fst snd]; destruct (in_windowb c (tp_ts p)); [now apply wf_add|assumption]].
  unfold ins. cbn [fst snd]. destruct (in_windowb c (tp_ts p)); [|reflexivity]. now apply add_point_other.
Qed.
Lemma writes_only ls op r : writes ls op -> In r (written [op]) -> fst r = ls.
Proof.
  intros [(p & ->)|(pts & ->)]; cbn [written].
  - rewrite app_nil_r || idtac. intros [<-|[]]. reflexivity.
  - rewrite app_nil_r. intros H. apply in_map_iff in H as (p & <- & _). reflexivity.
Qed.
Lemma cut_rest cf w l0 c A op ls n (Q : list label -> Prop) : gstate cf w (l0 ++ [(None, (c, A))]) -> Forall ireq_ok (written [op]) -> writes ls op ->
  Z.of_nat (length A + length (written [op])) < 2 ^ 64 -> (forall q, Q q -> ~ shares q ls \/ TornKnown.known A ls) ->
  let wc := snd (crash_at dhandler n (dop_prog cf op) w) in
  exists done, done_of op done /\ rest cf wc (l0 ++ [(Some Q, (c, fold_left (ins c) (written done) A))]) /\ d_fs wc = d_fs w.
Proof.
  intros (l1 & c1 & A1 & h0 & d & E & D) Hw Hop HL HQ wc. apply app_inj_tail in E. destruct E as [<- E].
  assert (c1 = c) as -> by congruence. assert (A1 = A) as -> by congruence. clear E.
  pose proof D as [H1 H2 H3 H4 H5 H6 H7 H8 H9 H10 H11 H12].
  assert (X: exists j cw, d_fs wc = d_fs w /\ d_heap wc = h0 ++ [mkDc (dc_chunk d) cw (dc_name d)] /\
      hiding (dc_chunk d) (fold_left (ins (dc_chunk d)) (firstn j (written [op])) A) (w_st cw) (w_ix cw) /\
      answering Q (dc_chunk d) (fold_left (ins (dc_chunk d)) (firstn j (written [op])) A) (w_st cw) (w_ix cw)).
  { destruct (existsb (fun x => same_setb (fst x) ls) A) eqn:Kn.
    - apply existsb_exists in Kn.
      pose proof (gop_partly cf w l0 c A h0 d op ls D Hw Hop Kn HL n) as (Kf & j & cw & Kh & Ko). fold wc in Kf, Kh.
      exists j, cw. split; [exact Kf|]. split; [exact Kh|]. split; [now apply hiding_all|].
      intros ch' v bs o q s e E1 E2 E3 E4 F1 F2 F3 Hq _. now apply Ko.
    - pose proof (gop_halfway cf w l0 c A h0 d op ls D Hw Hop HL n) as (Kf & j & cw & Kh & Ko). fold wc in Kf, Kh.
      assert (Ns: forall st, op <> OpSwap st) by (intros st ->; destruct Hop as [(p & Z1)|(p & Z1)]; discriminate).
      pose proof (gop_keeps cf w l0 c A h0 d op ls D Hw (fun r => writes_only ls op r Hop) Ns HL n) as (_ & cw' & Kh' & Kt). fold wc in Kh'.
      assert (cw' = cw) as -> by (rewrite Kh in Kh'; apply app_inj_tail in Kh' as [_ Kh']; congruence).
      exists j, cw. split; [exact Kf|]. split; [exact Kh|]. split; [exact Ko|].
      intros ch' v bs o q s e E1 E2 E3 E4 F1 F2 F3 Hq Hqq.
      assert (Hn: ~ shares q ls).
      { destruct (HQ q Hqq) as [G|G]; [exact G|]. exfalso. apply existsb_exists in G. congruence. }
      rewrite (other_fold (dc_chunk d) q ls).
      + now apply Kt.
      + exact Hn.
      + intros r Hr. apply (writes_only ls op r Hop). rewrite <- (firstn_skipn j (written [op])). apply in_or_app. now left.
      + rewrite <- (firstn_skipn j (written [op])) in Hw. apply Forall_app in Hw. apply Hw.
      + apply H8. }
  destruct X as (j & cw & Kf & Kh & Ko & Ka).
  destruct (done_firstn ls op j Hop) as (done & Dn & Wd). exists done. split; [exact Dn|]. split; [|exact Kf].
  rewrite <- Wd, (fold_ins_ext _ _ H7) in Ko, Ka.
  set (dx := mkDc (dc_chunk d) cw (dc_name d)) in *. exists (h0 ++ [dx]). split; [exact Kh|]. split.
  { apply Forall2_app; [now apply kept_left|]. constructor; [|constructor]. split; [exact H7|]. split; [exact Ko|exact Ka]. }
  rewrite Kf. split; [exact H9|]. split; [exact H10|]. split.
  - apply Forall2_app_inv_r in H11. destruct H11 as (e1 & e2 & F1 & F2 & ->). apply Forall2_app; [assumption|].
    inversion F2 as [|e3 ? e2' ? F3 F4]; subst. inversion F4; subst. constructor; [|constructor]. exact F3.
  - rewrite map_app in *. exact H12.
Qed.
Lemma marked_cut cf ops op n st l c B : marked (mkCut cf ops (Some (op, n))) st (l ++ [(c, B)]) =
  map (pair None) l ++ [(Some (spared (mkCut cf ops (Some (op, n))) st op), (c, B))].
Proof.
  unfold marked. cbn [cl_cut]. rewrite removelast_last, app_length. cbn [length]. rewrite Nat.add_comm. cbn [Nat.add pred].
  rewrite skipn_app, skipn_all, Nat.sub_diag. reflexivity.
Qed.
Lemma marked_snd x st l : map snd (marked x st l) = l.
Proof.
  assert (M: forall (b : option (list label -> Prop)) (l : list part), map snd (map (pair b) l) = l) by (intros b l'; induction l' as [|y l' IH]; [reflexivity|]; cbn [map snd]; now f_equal).
  unfold marked. destruct (cl_cut x) as [[op n]|]; [|apply M]. rewrite map_app, !M.
  destruct l as [|y l] using rev_ind; [reflexivity|]. rewrite removelast_last, app_length. cbn [length]. rewrite Nat.add_comm. cbn [Nat.add pred].
  rewrite skipn_app, skipn_all, Nat.sub_diag. reflexivity.
Qed.
Lemma marked_length x st l : length (marked x st l) = length l.
Proof. rewrite <- (marked_snd x st l) at 2. now rewrite map_length. Qed.

Definition tfits (x y : tpart) : Prop := fst y = fst x /\ fits (snd x) (snd y).
Lemma tfits_fits l l' : Forall2 tfits l l' -> Forall2 fits (map snd l) (map snd l').
Proof. induction 1 as [|x y l l' [_ K] _ IH]; [constructor|]. cbn [map]. now constructor. Qed.
Lemma tfits_clip clock lo hi P l l1 : monotone clock -> Forall2 tfits P l -> (forall p, stored (map snd P) p -> tp_ts p <= clock lo) ->
  Forall2 (tclip clock lo hi) l l1 -> Forall2 tfits P l1.
Proof.
  intros Hm HF Hp. assert (Hp': forall c ls pts p, In c P -> In (ls, pts) (snd (snd c)) -> In p pts -> tp_ts p <= clock lo).
  { intros c ls pts p K1 K2 K3. apply Hp. exists (snd c), ls, pts. split; [now apply in_map|auto]. }
  clear Hp. revert l1. induction HF as [|c c' P l (A0 & A1 & A2 & A3) HF IH]; intros l1 C1; inversion C1 as [|? c1 ? l1' (B0 & B1 & B2 & en & i & B3 & B4 & B5) B6]; subst; constructor.
  - split; [congruence|]. split; [congruence|]. split; [congruence|]. intros ls pts p G1 G2. destruct (A3 ls pts p G1 G2) as [G3 G4]. split; [assumption|].
    specialize (Hp' c ls pts p ltac:(now left) G1 G2). specialize (Hm lo i ltac:(lia)). rewrite B5. destruct (_ <? _) eqn:Q; lia.
  - apply IH; [|assumption]. intros. eapply Hp'; [right|..]; eassumption.
Qed.
Lemma tfits_pair b l l' : Forall2 fits l l' -> Forall2 tfits (map (pair b) l) (map (pair b) l').
Proof. induction 1; cbn [map]; constructor; [|assumption]. split; [reflexivity|assumption]. Qed.
Lemma tfits_self_marked x st l : Forall2 fits l l -> Forall2 tfits (marked x st l) (marked x st l).
Proof.
  intros F. pose proof (marked_snd x st l) as E. remember (marked x st l) as z eqn:Q. clear Q. revert z E.
  induction l as [|y l IH]; intros [|z0 z] E; try discriminate; [constructor|]. cbn [map] in E. injection E as E1 E2. inversion F; subst.
  constructor; [split; [reflexivity|assumption]|]. now apply IH.
Qed.
Lemma torn_fits l l' q s e r : Forall2 tfits l l' -> answer_torn l' q s e r -> answer_torn l q s e r.
Proof.
  intros F (Y & H1 & H2 & H3). exists Y. split; [|auto]. clear H2 H3. revert Y H1. induction F as [|x y l l' (K1 & K2) F IH]; intros Y H; inversion H as [|? v ? Y' V1 V2]; subst; constructor; [|now apply IH].
  intros m. specialize (V1 m). rewrite K1 in V1. destruct (fst x) as [Q|].
  - destruct V1 as [V1 V3]. split; [|intros HQ; rewrite <- (fits_piece _ _ _ _ _ _ K2); auto].
    destruct V1 as [V1|(z & Z1 & Z2 & Z3 & Z4)]; [now left|]. right. destruct K2 as (K2 & _). rewrite K2 in Z1, Z3. exists z. auto.
  - now rewrite <- (fits_piece _ _ _ _ _ _ K2).
Qed.

(** ** one process *)
Definition ended (x : cut_life) (w : dworld) : fworld :=
  stopped (cl_cf x) match cl_cut x with Some (op, n) => snd (crash_at dhandler n (dop_prog (cl_cf x) op) w) | None => w end.
Lemma process_run x f l : opens f l -> cf_st (cl_cf x) = Sled -> cf_ix (cl_cf x) = Sled -> ascii (cf_base (cl_cf x)) ->
  let start := f_clock f (f_ticks f + length l) in
  (forall y, In y l -> c_start (fst (snd y)) < start) -> ops_ok (cl_cf x) start (began x) ->
  match cl_cut x with Some (op, _) => exists ls, writes ls op | None => True end ->
  exists w old done, db_after (cl_cf x) f (cl_ops x) = Some (outcomes (cl_cf x) start (cl_ops x), w) /\
    gstate (cl_cf x) w (old ++ map (pair None) (parts (cl_cf x) start (cl_ops x))) /\
    done_by x done /\ Forall2 (tclip (f_clock f) (f_ticks f) (f_ticks f + length l)) l old /\
    opens (ended x w) (old ++ marked x start (parts (cl_cf x) start (cl_ops x ++ done))) /\
    f_clock (ended x w) = f_clock f /\ f_ticks (ended x w) = S (f_ticks f + length l).
Proof.
  intros Hop S1 S2 Ha start Hl Ho Hc. pose proof Ho as (Hb & H0 & Hsz & Hend & _).
  assert (Ho0: ops_ok (cl_cf x) start (cl_ops x)).
  { unfold began in Ho. destruct (cl_cut x) as [[op n]|]; [|exact Ho]. exact (ops_before _ _ _ _ Ho). }
  pose proof Ho0 as (_ & _ & _ & _ & Hs & Hw & Hlen).
  destruct (Hop (cl_cf x) S1 S2 Hb Ha Hsz Hl Hend) as (w1 & old & E1 & St1 & T1 & N1 & C1). fold start in St1.
  destruct (ghist_from (cl_cf x) (cl_ops x) Hsz start [] w1 old St1 Hs Hw) as (w & E2 & St2 & T2 & N2); [cbn [length]; exact Hlen|].
  change (parts_from (cl_cf x) start [] (cl_ops x)) with (parts (cl_cf x) start (cl_ops x)) in St2.
  assert (DA: db_after (cl_cf x) f (cl_ops x) = Some (outcomes (cl_cf x) start (cl_ops x), w)) by (unfold db_after; rewrite E1; exact E2).
  assert (Ec: f_clock (d_fs w) = f_clock f) by (destruct N1 as (_ & K1 & _), N2 as (_ & K2 & _); congruence).
  assert (Et: f_ticks (d_fs w) = S (f_ticks f + length l)) by congruence.
  unfold ended, done_by, began in *. destruct x as [cf ops [[op n]|]]; cbn [cl_cf cl_ops cl_cut] in *.
  - destruct Hc as (ls & Hwr). destruct (cut_last cf ops start []) as (l0 & A & EP). change (parts cf start ops = l0 ++ [(the_chunk cf (last_start start ops), A)]) in EP.
    set (c := the_chunk cf (last_start start ops)) in *.
    pose proof St2 as St3. rewrite EP, map_app, app_assoc in St3. cbn [map] in St3.
    assert (LA: (length A <= length (written ops))%nat).
    { apply (parts_length cf ops start [] (c, A)). change (In (c, A) (parts cf start ops)). rewrite EP. apply in_or_app. right. now left. }
    destruct Ho as (_ & _ & _ & _ & _ & Hw' & Hlen'). rewrite written_snoc in Hw', Hlen'. apply Forall_app in Hw' as [_ Hw1]. rewrite app_length in Hlen'.
    set (x := mkCut cf ops (Some (op, n))).
    destruct (cut_rest cf w (old ++ map (pair None) l0) c A op ls n (spared x start op) St3 Hw1 Hwr ltac:(lia)) as (done & Dn & R & Kf).
    { intros q (ls' & W' & G). assert (ls' = ls) as -> by (destruct Hwr as [(p1 & ->)|(p1 & ->)], W' as [(p2 & Z2)|(p2 & Z2)]; congruence).
      destruct G as [G|G]; [now left|]. right. cbn [x cl_cf cl_ops] in G. destruct G as (l2 & ch & A' & y & X1 & X2 & X3).
      rewrite EP in X1. apply app_inj_tail in X1 as [_ X1]. assert (A' = A) as -> by congruence.
      exists y. split; [exact X2|]. destruct St3 as (l3 & c3 & A3 & h3 & d3 & E3 & [_ _ _ _ _ _ _ H8 _ _ _ _]).
      apply app_inj_tail in E3 as [_ E3]. assert (A3 = A) as -> by congruence.
      pose proof (wf_sets _ (cr_wf _ _ _ H8)) as Fs. rewrite Forall_forall in Fs. assert (SX: set_ok (fst y)) by (apply Fs; assumption).
      apply same_setb_spec; [apply SX| |assumption]. unfold keys_distinct. eapply Permutation_NoDup; [apply Permutation_map; exact X3|apply SX]. }
    unfold x in *. clear x.
    exists w, old, done. split; [exact DA|]. split; [exact St2|]. split; [exact Dn|]. split; [exact C1|].
    rewrite (parts_done cf start ops l0 c A ls op done EP Hwr Dn), marked_cut, app_assoc. split; [now apply opens_rest|].
    set (wc := snd (crash_at dhandler n (dop_prog cf op) w)) in *. change (f_clock (stopped cf wc)) with (f_clock (d_fs wc)). change (f_ticks (stopped cf wc)) with (f_ticks (d_fs wc)).
    rewrite Kf. auto.
  - exists w, old, []. split; [exact DA|]. split; [exact St2|]. split; [reflexivity|]. split; [exact C1|].
    rewrite app_nil_r. split; [apply opens_rest; try assumption; exact (state_rest _ _ _ St2)|]. auto.
Qed.

(** ** what was done of each write *)
Lemma done_parts x start done : ops_ok (cl_cf x) start (began x) -> match cl_cut x with Some (op, _) => exists ls, writes ls op | None => True end -> done_by x done ->
  let l := parts (cl_cf x) start (cl_ops x ++ done) in
  ops_ok (cl_cf x) start (cl_ops x ++ done) /\ length l = length (parts (cl_cf x) start (began x)) /\
  last_start start (cl_ops x ++ done) = last_start start (cl_ops x) /\ (forall p, stored l p -> stored (parts (cl_cf x) start (began x)) p) /\
  subseq (written (cl_ops x ++ done)) (written (began x)).
Proof.
  intros Ho Hc Hd l. unfold l, done_by, began in *. clear l. destruct x as [cf ops [[op n]|]]; cbn [cl_cf cl_ops cl_cut] in *.
  2: { subst done. rewrite app_nil_r. split; [exact Ho|]. split; [reflexivity|]. split; [reflexivity|]. split; [auto|]. apply ss_refl. }
  destruct Hc as (ls & Hwr). destruct (cut_last cf ops start []) as (l0 & A & EP). change (parts cf start ops = l0 ++ [(the_chunk cf (last_start start ops), A)]) in EP.
  set (c := the_chunk cf (last_start start ops)) in *.
  assert (EW: parts cf start (ops ++ [op]) = l0 ++ [(c, fold_left (ins c) (written [op]) A)]).
  { destruct Hwr as [(p' & ->)|(pts & ->)].
    - apply (parts_done cf start ops l0 c A ls (OpPoint ls p')); [assumption|left; eauto|constructor].
    - pose proof (parts_done cf start ops l0 c A ls (OpBatch ls pts) [OpBatch ls (firstn (length pts) pts)] EP (or_intror (ex_intro _ pts eq_refl)) (Done_batch _ _ _)) as X.
      rewrite firstn_all in X. exact X. }
  assert (X: exists k, written done = firstn k (written [op])).
  { destruct Hd as [op|l p|l pts k]; [exists O; reflexivity|exists 1%nat; reflexivity|]. exists k. cbn [written]. rewrite !app_nil_r. symmetry. apply firstn_map. }
  destruct X as (k & Wd). rewrite (parts_done cf start ops l0 c A ls op done EP Hwr Hd), EW.
  split; [exact (ops_done cf start ops op ls done Hwr Hd Ho)|]. split; [rewrite !app_length; reflexivity|]. split; [exact (last_done ls op done Hwr Hd ops start)|].
  split.
  - intros p. apply stored_grown. rewrite Wd. rewrite <- (firstn_skipn k (written [op])) at 2. rewrite fold_left_app. apply grown_fold.
  - rewrite written_snoc, written_app, Wd. apply ss_app; [apply ss_refl|]. rewrite <- (firstn_skipn k (written [op])) at 2. rewrite <- (app_nil_r (firstn k (written [op]))) at 1. apply ss_app; [apply ss_refl|apply ss_any].
Qed.
Definition as_life (x : cut_life * list dop) : life := mkLife (cl_cf (fst x)) (cl_ops (fst x) ++ snd x).
Lemma cut_parts_life clock : forall L tick n, map snd (cut_parts clock tick n L) = life_parts clock tick n (map as_life L).
Proof.
  induction L as [|[x done] L IH]; intros tick n; [reflexivity|]. cbn [map cut_parts life_parts as_life lf_cf lf_ops fst snd]. now rewrite map_app, marked_snd, IH.
Qed.
Lemma cuts_lives clock : forall L D tick n last, Forall2 done_by L D -> cuts_ok clock tick n last L ->
  lives_ok clock tick n last (map as_life (combine L D)) /\ subseq (life_written (map as_life (combine L D))) (cut_written L).
Proof.
  intros L D tick n last F. revert tick n last. induction F as [|x done L D Hd F IH]; intros tick n last H; [split; [exact I|constructor]|].
  cbn [combine map cuts_ok lives_ok as_life lf_cf lf_ops fst snd] in *. destruct H as (H1 & H2 & H3 & H4 & H5 & H6 & H7 & H8).
  destruct (done_parts x _ done H5 H6 Hd) as (G1 & G2 & G3 & G4 & G5). destruct (IH _ _ _ H8) as [I1 I2]. split.
  - split; [exact H1|]. split; [exact H2|]. split; [exact H3|]. split; [exact H4|]. split; [exact G1|]. split.
    + intros NE p Hp. apply H7; [|now apply G4]. intros ->. apply NE. reflexivity.
    + rewrite G2, G3. exact I1.
  - unfold life_written, cut_written in *. cbn [map concat lf_ops as_life fst snd]. now apply ss_app.
Qed.

(** ** any number of processes *)
Lemma cuts_from clock cf ops : monotone clock -> forall L f P l tick n last,
  opens f l -> Forall2 tfits P l -> f_ticks f = tick -> f_clock f = clock -> n = length l ->
  (forall x, In x l -> c_start (fst (snd x)) <= last) -> (forall p, stored (map snd P) p -> tp_ts p <= clock tick) ->
  cuts_ok clock tick n last (L ++ [mkCut cf ops None]) ->
  exists D f' w old, Forall2 done_by L D /\ live_cut L f = Some f' /\
    db_after cf f' ops = Some (outcomes cf (clock (f_ticks f' + (n + length (cut_parts clock tick n (combine L D))))%nat) ops, w) /\ gstate cf w old /\
    Forall2 tfits (P ++ cut_parts clock tick n (combine (L ++ [mkCut cf ops None]) (D ++ [[]]))) old.
Proof.
  intros Hm. intros L; induction L as [|x L IH]; intros f P l tick n last HO HF Ht Hc Hn Hl Hp HL;
    cbn [app cuts_ok] in HL; destruct HL as (S1 & S2 & Ha & Hlast & Ho & Hw & Hpts & HL').
  - assert (EB: f_clock f (f_ticks f + length l) = clock (tick + n)%nat) by (now rewrite Hc, Ht, Hn).
    destruct (process_run (mkCut cf ops None) f l HO S1 S2 Ha) as (w & old & done & E & St & _ & C & _).
    { rewrite EB. intros y Hy. specialize (Hl y Hy). lia. } { now rewrite EB. } { exact I. }
    cbn [cl_cf cl_ops] in *. rewrite EB in E, St. exists [], f, w. eexists. split; [constructor|]. split; [reflexivity|]. split; [cbn [combine cut_parts length]; rewrite Nat.add_0_r, Ht; exact E|]. split; [exact St|].
    cbn [app combine cut_parts cl_cf cl_ops]. rewrite !app_nil_r. unfold marked. cbn [cl_cut]. apply Forall2_app.
    + rewrite Hc, Ht in C. eapply tfits_clip; eassumption.
    + apply tfits_pair. apply parts_fit. apply Ho.
  - assert (EB: f_clock f (f_ticks f + length l) = clock (tick + n)%nat) by (now rewrite Hc, Ht, Hn).
    destruct (process_run x f l HO S1 S2 Ha) as (w & old & done & E & St & Dn & C & On & Oc & Ot).
    { rewrite EB. intros y Hy. specialize (Hl y Hy). lia. } { now rewrite EB. } { exact Hw. }
    rewrite EB in E, St, On. destruct (done_parts x _ done Ho Hw Dn) as (G1 & G2 & G3 & G4 & G5).
    set (start := clock (tick + n)%nat) in *. set (pl := parts (cl_cf x) start (cl_ops x ++ done)) in *.
    assert (FP: Forall2 tfits P old) by (rewrite Hc, Ht in C; eapply tfits_clip; eassumption).
    assert (LO: length old = n) by (rewrite Hn; symmetry; exact (F2_size _ _ _ C)).
    destruct (IH (ended x w) (P ++ marked x start pl) (old ++ marked x start pl) (S (tick + n)) (n + length pl)%nat (last_start start (cl_ops x)) On)
      as (D & f' & w' & old' & J1 & J2 & J3 & J4 & J5).
    + apply Forall2_app; [exact FP|]. apply tfits_self_marked. apply parts_fit. apply G1.
    + rewrite Ot, Ht, <- Hn. reflexivity.
    + congruence.
    + rewrite app_length, marked_length, LO. reflexivity.
    + destruct G1 as (_ & _ & _ & _ & Gs & _). intros y Hy. apply in_app_or in Hy as [Hy|Hy].
      * destruct (F2_in_r _ _ _ _ C Hy) as (y0 & Hy0 & (_ & _ & K & _)). specialize (Hl y0 Hy0). pose proof (last_start_ge _ _ _ Gs). lia.
      * rewrite <- G3. apply (starts_bound (cl_cf x) (cl_ops x ++ done) start [] (snd y) Gs). change (In (snd y) pl). rewrite <- (marked_snd x start pl). now apply in_map.
    + intros p (c & ls & pts & K1 & K2 & K3). rewrite map_app in K1. apply in_app_or in K1 as [K1|K1].
      * specialize (Hp p ltac:(red; eauto 8)). specialize (Hm tick (S (tick + n)) ltac:(lia)). lia.
      * rewrite marked_snd in K1. apply Hpts; [destruct L; discriminate|]. apply G4. red. eauto 8.
    + rewrite G2. exact HL'.
    + exists (done :: D), f', w', old'. split; [now constructor|]. split; [cbn [live_cut]; rewrite E; exact J2|].
      split; [cbn [combine cut_parts]; fold start; fold pl; rewrite app_length, marked_length, (Nat.add_assoc n); exact J3|]. split; [exact J4|].
      cbn [app combine cut_parts]. fold start. fold pl. rewrite app_assoc. exact J5.
Qed.

Theorem cuts_refine f L cf ops : env_ok f -> empty_dir f -> monotone (f_clock f) ->
  let all := L ++ [mkCut cf ops None] in
  cuts_ok (f_clock f) (f_ticks f) 0 (-1) all -> timely (cut_written all) ->
  exists D f' w, Forall2 done_by L D /\ live_cut L f = Some f' /\
    db_after cf f' ops = Some (outcomes cf (f_clock f (f_ticks f' + length (cut_parts (f_clock f) (f_ticks f) 0 (combine L D)))%nat) ops, w) /\
    forall hs bs o q s e, let P := cut_parts (f_clock f) (f_ticks f) 0 (combine all (D ++ [[]])) in
      hasher_ok hs -> bs_contract bs -> Forall lab_ok q -> s <= e -> apart_in hs (map snd P) ->
      exists r, drun (db_query hs bs o q s e) w = Some (Ok r, w) /\ answer_torn P q s e r.
Proof.
  intros He Hd Hm all HL T.
  destruct (cuts_from (f_clock f) cf ops Hm L f [] [] (f_ticks f) 0 (-1)) as (D & f' & w & old & J1 & J2 & J3 & J4 & J5); try reflexivity; try assumption.
  { now apply opens_empty. } { constructor. } { intros x []. } { intros p (c & ls & pts & [] & _). }
  cbn [app] in J5. exists D, f', w. split; [exact J1|]. split; [exact J2|]. split; [exact J3|]. intros hs bs o q s e P Hh Hbs Hq Hse Hp.
  fold all in J5. fold P in J5.
  destruct (cuts_lives (f_clock f) all (D ++ [[]]) _ _ _ ltac:(apply Forall2_app; [exact J1|]; constructor; [reflexivity|constructor]) HL) as [I1 I2].
  assert (TL: timely (life_written (map as_life (combine all (D ++ [[]]))))).
  { intros ls. eapply ss_increasing; [|exact (T ls)]. apply sub_map, sub_filter, I2. }
  pose proof (life_parts_ok _ _ _ _ _ I1 TL) as OK. rewrite <- cut_parts_life in OK. fold P in OK.
  pose proof (tfits_fits _ _ J5) as FT.
  destruct (gquery cf w old hs bs o q s e J4 (fits_ok _ _ FT OK) Hh Hbs Hq Hse (fits_apart _ _ _ FT Hp)) as (r & R1 & R2).
  exists r. split; [exact R1|]. exact (torn_fits _ _ _ _ _ _ J5 R2).
Qed.

(* nothing is missing for a query that was spared by every cut *)
Lemma torn_spared l q s e r : answer_torn l q s e r -> (forall x Q, In x l -> fst x = Some Q -> Q q) ->
  NoDup (map fst r) /\ forall m pts, In (m, pts) r <-> pts <> [] /\ pts = concat (map (fun c => piece c q s e m) (map snd l)).
Proof.
  intros (Y & F & N & M) HQ. split; [exact N|]. intros m pts. rewrite M.
  replace (map (fun c => piece c q s e m) (map snd l)) with (map (fun y : list label -> list tp => y m) Y); [reflexivity|].
  clear N M. induction F as [|x y l Y G F IH]; [reflexivity|]. cbn [map]. rewrite IH by (intros z Q Hz; apply HQ; now right). f_equal.
  specialize (G m). destruct (fst x) as [Q|] eqn:E; [|exact G]. apply G. apply (HQ x Q); [now left|exact E].
Qed.
Theorem cuts_spared f L cf ops : env_ok f -> empty_dir f -> monotone (f_clock f) ->
  let all := L ++ [mkCut cf ops None] in
  cuts_ok (f_clock f) (f_ticks f) 0 (-1) all -> timely (cut_written all) ->
  exists D f' w, Forall2 done_by L D /\ live_cut L f = Some f' /\
    db_after cf f' ops = Some (outcomes cf (f_clock f (f_ticks f' + length (cut_parts (f_clock f) (f_ticks f) 0 (combine L D)))%nat) ops, w) /\
    forall hs bs o q s e, let P := cut_parts (f_clock f) (f_ticks f) 0 (combine all (D ++ [[]])) in
      hasher_ok hs -> bs_contract bs -> Forall lab_ok q -> s <= e -> apart_in hs (map snd P) -> (forall x Q, In x P -> fst x = Some Q -> Q q) ->
      exists r, drun (db_query hs bs o q s e) w = Some (Ok r, w) /\ NoDup (map fst r) /\
        forall m pts, In (m, pts) r <-> pts <> [] /\ pts = concat (map (fun c => piece c q s e m) (map snd P)).
Proof.
  intros He Hd Hm all HL T. destruct (cuts_refine f L cf ops He Hd Hm HL T) as (D & f' & w & J1 & J2 & J3 & J4).
  exists D, f', w. split; [exact J1|]. split; [exact J2|]. split; [exact J3|]. intros hs bs o q s e P Hh Hbs Hq Hse Hp HQ.
  destruct (J4 hs bs o q s e Hh Hbs Hq Hse Hp) as (r & R1 & R2). exists r. split; [exact R1|]. exact (torn_spared _ _ _ _ _ R2 HQ).
Qed.
