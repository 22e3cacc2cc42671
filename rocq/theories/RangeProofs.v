(* Proofs about queries over any two instants: a series, the series of a chunk, the database. *)
From Coq Require Import Permutation ZifyBool ZifyNat.
From Verif Require Import Rust Prog Gorilla GorillaSpec Storage StorageSpec StorageProofs Labels IndexSpec Indexer Chunk ChunkSpec ChunkProofs Db DbSpec DbProofs RangeSpec.

(** ** one series *)
Lemma reader_cases bs pts s e : bs_contract bs -> increasing pts -> e < s ->
  (touches s e pts /\ gap s e pts /\ reader bs s e pts = Panic) \/
  (touches s e pts /\ ~ gap s e pts /\ reader bs s e pts = Ok []) \/
  (~ touches s e pts /\ exists er, reader bs s e pts = Err er).
Proof.
  intros Hb Hi He. destruct pts as [|f l].
  { right. right. split; [|cbn; eauto]. intros [(p & [] & _) _]. }
  unfold reader. rewrite read_tail_any by assumption.
  assert (D: touches s e (f :: l) \/ ~ touches s e (f :: l)).
  { destruct (touchesb s e (f :: l)) eqn:E; [left; now apply touchesb_spec|]. right. intros T. apply touchesb_spec in T. congruence. }
  destruct D as [[T1 T2]|D].
  - destruct (read_any_cases (f :: l) s e ltac:(discriminate) T1 T2 Hi) as (_ & C2 & C3).
    destruct (existsb (fun p => (e <? tp_ts p) && (tp_ts p <? s)) (f :: l)) eqn:G.
    + left. split; [split; assumption|]. assert (K: gap s e (f :: l)).
      { apply existsb_exists in G as (p & Hp & Q). exists p. split; [assumption|lia]. }
      split; [exact K|auto].
    + right. left. split; [split; assumption|]. assert (K: ~ gap s e (f :: l)).
      { intros (p & Hp & Q). assert (existsb (fun p => (e <? tp_ts p) && (tp_ts p <? s)) (f :: l) = true); [|congruence].
        apply existsb_exists. exists p. split; [assumption|lia]. }
      split; [exact K|auto].
  - right. right. split; [exact D|]. unfold read_any.
    destruct ((e <? tp_ts f) || (tp_ts (last (f :: l) f) <? s)) eqn:O; [eauto|]. exfalso. apply D. split.
    + exists f. split; [now left|lia].
    + exists (last (f :: l) f). split; [|lia]. clear. generalize f at 2 as d. revert f.
      induction l as [|a l IH]; intros f d; [now left|]. right. cbn [last] in *. exact (IH a d).
Qed.

(** ** series, one after the other *)
Definition opens (s e : Z) (M : list (Z * (list label * list tp))) : Prop :=
  exists before id ls pts after, M = before ++ (id, (ls, pts)) :: after /\
    (forall id' ls' pts', In (id', (ls', pts')) before -> touches s e pts' /\ ~ gap s e pts') /\ touches s e pts /\ gap s e pts.
Lemma opens_cons s e id ls pts M : opens s e ((id, (ls, pts)) :: M) <-> (touches s e pts /\ gap s e pts) \/ ((touches s e pts /\ ~ gap s e pts) /\ opens s e M).
Proof.
  split.
  - intros (b & i & l & p & a & E & E1 & E2). destruct b as [|[i0 [l0 p0]] b]; cbn [app] in E.
    + left. assert (p = pts) as -> by congruence. exact E2.
    + right. assert (i0 = id /\ l0 = ls /\ p0 = pts /\ M = b ++ (i, (l, p)) :: a) as (-> & -> & -> & EM) by (repeat split; congruence).
      split; [apply (E1 id ls pts); now left|]. exists b, i, l, p, a. split; [exact EM|]. split; [|exact E2]. intros i' l' p' Hin. apply (E1 i' l' p'). now right.
  - intros [H|[H (b & i & l & p & a & E & E1 & E2)]].
    + exists [], id, ls, pts, M. split; [reflexivity|]. split; [intros i' l' p' []|exact H].
    + exists ((id, (ls, pts)) :: b), i, l, p, a. rewrite E. split; [reflexivity|]. split; [|exact E2]. intros i' l' p' [X|Hin]; [|exact (E1 i' l' p' Hin)].
      assert (p' = pts) as -> by congruence. exact H.
Qed.
Lemma collect_back bs s e M : bs_contract bs -> e < s -> (forall x, In x M -> increasing (snd (snd x))) ->
  (collect (reader bs s e) M = Panic <-> opens s e M) /\ okl (collect (reader bs s e) M) = [].
Proof.
  intros Hb He. induction M as [|[id [ls pts]] M IH]; intros Hi.
  - split; [|reflexivity]. split; [discriminate|]. intros (b & i & l & p & a & E & _). destruct b; discriminate.
  - destruct (IH (fun x Hx => Hi x (or_intror Hx))) as [I1 I2]. pose proof (Hi _ (or_introl eq_refl)) as Hp. cbn [snd] in Hp. rewrite opens_cons. cbn [collect].
    destruct (reader_cases bs pts s e Hb Hp He) as [(T & G & ->)|[(T & G & ->)|(T & er & ->)]]; cbn [rbind].
    + split; [|reflexivity]. split; [left; auto|reflexivity].
    + set (r := collect _ M) in *. destruct r as [x|er|]; cbn [rbind okl] in *.
      * subst x. split; [|reflexivity]. split; [discriminate|]. intros [[_ X]|[_ X]]; [contradiction|]. apply I1 in X. discriminate.
      * split; [|reflexivity]. split; [discriminate|]. intros [[_ X]|[_ X]]; [contradiction|]. apply I1 in X. discriminate.
      * split; [|reflexivity]. split; [|reflexivity]. intros _. right. split; [auto|]. now apply I1.
    + split; [|reflexivity]. split; [discriminate|]. intros [[X _]|[[X _] _]]; contradiction.
Qed.

(** ** a chunk *)
Definition halts_at (f : list tp -> res (list tp)) (A : content) (sel : list label -> bool) : Prop :=
  exists before ls pts after, A = before ++ (ls, pts) :: after /\
    (forall ls' pts', In (ls', pts') before -> sel ls' = true -> f pts' = Ok []) /\ sel ls = true /\ f pts = Panic.
Lemma collect_inv rd sel A : (forall ls pts, In (ls, pts) A -> sel ls = true -> rd pts = Panic \/ rd pts = Ok [] \/ exists er, rd pts = Err er) ->
  forall n, let r := collect rd (filter (fun x => sel (fst (snd x))) (numbered n A)) in
  (r = Panic <-> halts_at rd A sel) /\ (r = Panic \/ okl r = []).
Proof.
  induction A as [|[ls pts] A IH]; intros H n; cbv zeta.
  - cbn. split; [split; [discriminate|]|now right]. intros (b & l & p & a & E & _). destruct b; discriminate.
  - destruct (IH ltac:(intros l p Hin; apply H; now right) (n + 1)) as [I1 I2]. cbv zeta in I1, I2. cbn [numbered filter fst snd].
    assert (Q: halts_at rd ((ls, pts) :: A) sel <-> (sel ls = true /\ rd pts = Panic) \/ ((sel ls = true -> rd pts = Ok []) /\ halts_at rd A sel)).
    { split.
      - intros (b & l & p & a & E & E1 & E2 & E3). destruct b as [|[l0 p0] b]; cbn [app] in E.
        + left. assert (l = ls /\ p = pts) as [-> ->] by (split; congruence). auto.
        + right. assert (l0 = ls /\ p0 = pts /\ A = b ++ (l, p) :: a) as (-> & -> & EA) by (repeat split; congruence). split.
          * intros S1. apply (E1 ls pts); [now left|assumption].
          * exists b, l, p, a. repeat split; auto. intros l' p' Hin. apply E1. now right.
      - intros [[S1 R]|[S1 (b & l & p & a & E & E1 & E2 & E3)]].
        + exists [], ls, pts, A. repeat split; auto. intros l' p' [].
        + exists ((ls, pts) :: b), l, p, a. rewrite E. repeat split; auto. intros l' p' [X|Hin]; [|eauto].
          assert (l' = ls /\ p' = pts) as [-> ->] by (split; congruence). assumption. }
    rewrite Q. destruct (sel ls) eqn:S1.
    + cbn [collect]. destruct (H ls pts (or_introl eq_refl) S1) as [R|[R|(er & R)]]; rewrite R; cbn [rbind].
      * split; [split; [left; auto|reflexivity]|now left].
      * set (r := collect rd _) in *. destruct r as [x|er|]; cbn [rbind] in *.
        -- split; [|right; destruct I2; [discriminate|assumption]]. split; [discriminate|]. intros [[_ X]|[_ X]]; [congruence|]. apply I1 in X. congruence.
        -- split; [|now right]. split; [discriminate|]. intros [[_ X]|[_ X]]; [congruence|]. apply I1 in X. congruence.
        -- split; [|now left]. split; [|reflexivity]. intros _. right. split; [reflexivity|]. now apply I1.
      * split; [split; [discriminate|]|now right]. intros [[_ X]|[X _]]; [congruence|]. specialize (X eq_refl). congruence.
    + split; [|assumption]. rewrite I1. split; [intros X; right; split; [discriminate|assumption]|]. intros [[X _]|[_ X]]; [discriminate|assumption].
Qed.
Lemma halts_at_ext f g A sel : (forall ls pts, In (ls, pts) A -> f pts = g pts) -> halts_at f A sel -> halts_at g A sel.
Proof.
  intros H (b & l & p & a & E & E1 & E2 & E3). exists b, l, p, a. split; [exact E|]. split; [|split; [exact E2|]].
  - intros l' p' Hin S1. rewrite <- (H l' p'); [eauto|]. rewrite E. apply in_or_app. now left.
  - rewrite <- (H l p); [assumption|]. rewrite E. apply in_or_app. right. now left.
Qed.

Lemma ans_inverted bs q s e c : bs_contract bs -> all_increasing (snd c) -> e < s ->
  (ans bs q s e c = Panic <-> crashes c q s e) /\ (ans bs q s e c = Panic \/ okl (ans bs q s e c) = []).
Proof.
  intros Hb Hi He. unfold ans, crashes. destruct c as [ch A]. cbn [fst snd] in *.
  destruct ((e <? c_start ch) || (c_end ch <? s)) eqn:O.
  { split; [|now right]. split; [discriminate|]. intros (_ & X & _). lia. }
  unfold all_increasing in Hi. rewrite Forall_forall in Hi.
  assert (RC: forall ls pts, In (ls, pts) A -> (touches s e pts /\ gap s e pts /\ reader bs s e pts = Panic) \/
     (touches s e pts /\ ~ gap s e pts /\ reader bs s e pts = Ok []) \/ (~ touches s e pts /\ exists er, reader bs s e pts = Err er)).
  { intros ls pts Hin. apply reader_cases; [assumption|exact (Hi _ Hin)|assumption]. }
  destruct (collect_inv (reader bs s e) (matches A q) A) with (n := 1) as [C1 C2].
  { intros ls pts Hin _. destruct (RC ls pts Hin) as [(_ & _ & X)|[(_ & _ & X)|(_ & X)]]; auto. }
  cbv zeta in C1, C2. unfold matching. split; [|exact C2]. rewrite C1. split.
  - intros (b & l & p & a & E & E1 & E2 & E3). split; [assumption|]. split; [lia|]. exists b, l, p, a. split; [exact E|]. split; [|split; [exact E2|]].
    + intros l' p' Hin M. specialize (E1 l' p' Hin M). destruct (RC l' p') as [(X & Y & Z)|[(X & Y & Z)|(X & er & Z)]]; [rewrite E; apply in_or_app; now left|congruence|auto|congruence].
    + destruct (RC l p) as [(X & Y & Z)|[(X & Y & Z)|(X & er & Z)]]; [rewrite E; apply in_or_app; right; now left|auto|congruence|congruence].
  - intros (_ & _ & b & l & p & a & E & E1 & E2 & E3 & E4). exists b, l, p, a. split; [exact E|]. split; [|split; [exact E2|]].
    + intros l' p' Hin M. destruct (E1 l' p' Hin M) as [T N]. destruct (RC l' p') as [(X & Y & Z)|[(X & Y & Z)|(X & er & Z)]]; [rewrite E; apply in_or_app; now left|contradiction|assumption|contradiction].
    + destruct (RC l p) as [(X & Y & Z)|[(X & Y & Z)|(X & er & Z)]]; [rewrite E; apply in_or_app; right; now left|assumption|contradiction|contradiction].
Qed.

(** ** the database *)
Definition panics {A} (r : res A) : bool := match r with Panic => true | _ => false end.
Lemma panics_spec {A} (r : res A) : panics r = true <-> r = Panic.
Proof. destruct r; cbn; split; congruence. Qed.

Lemma sec_empty hs bs o q s e w : Forall lab_ok q -> forall (items : list (nat * part)),
  Forall (fun it => (ans bs q s e (snd it) = Panic \/ okl (ans bs q s e (snd it)) = []) /\ Z.of_nat (length (snd (snd it))) < 2 ^ 64 /\
    exists d, nth_error (d_heap w) (fst it) = Some d /\ like (dc_chunk d) (fst (snd it)) /\
      crq (dc_chunk d) (dc_world d) (snd (snd it))) items ->
  forall cs, Forall2 (fun it x => fst x = fst it /\ nth_error (d_heap w) (fst it) <> None /\
     (forall d, nth_error (d_heap w) (fst it) = Some d -> snd x = dc_chunk d)) items cs ->
  run dhandler (query_secondaries hs bs o q s e cs []) w =
  Some (if existsb (fun it => panics (ans bs q s e (snd it))) items then Panic else Ok [], w).
Proof.
  intros Hq items. induction items as [|[i c] items IH]; intros H cs F.
  - inversion F; subst. reflexivity.
  - inversion F as [|it [i' ch] its cs' (F1 & F2 & F3) F4]; subst. inversion H as [|x xs (H1 & H2 & d & H3 & H4 & H5) H6]; subst.
    cbn [fst snd] in *. subst i'. rewrite (F3 d H3) in *. cbn [query_secondaries existsb snd].
    unfold is_with_range, is_duration_overlap. destruct H4 as (L1 & L2 & L3) eqn:HL. rewrite L2, L3.
    destruct ((e <? c_start (fst c)) || (c_end (fst c) <? s)) eqn:O; cbn [negb].
    + rewrite (IH H6 _ F4). assert (ans bs q s e c = Err (OutOfRangeErr (c_start (fst c)) (c_end (fst c)))) as -> by (unfold ans; now rewrite O). reflexivity.
    + rewrite run_bind. rewrite (chunk_ans w bs o q s e i d c H3 H4 H5 H2 Hq).
      destruct (ans bs q s e c) as [l|er|] eqn:EA; cbn [panics orb]; [|apply (IH H6 _ F4)|reflexivity].
      destruct H1 as [H1|H1]; [discriminate|]. cbn [okl] in H1. subst l. cbn [merge]. apply (IH H6 _ F4).
Qed.

Theorem query_empty hs bs o q s e w l : quietq w l ->
  Forall (fun c => (ans bs q s e c = Panic \/ okl (ans bs q s e c) = []) /\ Z.of_nat (length (snd c)) < 2 ^ 64) l ->
  Forall lab_ok q -> hasher_ok hs ->
  drun (db_query hs bs o q s e) w = Some (if existsb (fun c => panics (ans bs q s e c)) l then Panic else Ok [], w).
Proof.
  intros [Qh Qc Qs Q1 Q2] Hl Hq Hh.
  destruct (@exists_last _ l) as (l0 & c & El); [intros ->; discriminate|].
  assert (Lc: d_cur w = length l0) by (rewrite El, app_length in Qc; cbn in Qc; lia).
  assert (Nc: nth_error l (d_cur w) = Some c) by (rewrite El, nth_error_app2 by lia; rewrite Lc, Nat.sub_diag; reflexivity).
  destruct (hrelq_nth _ _ Qh _ _ Nc) as (d & Nd & Hd1 & Hd2).
  assert (Hc: (ans bs q s e c = Panic \/ okl (ans bs q s e c) = []) /\ Z.of_nat (length (snd c)) < 2 ^ 64).
  { rewrite Forall_forall in Hl. apply Hl. rewrite El. apply in_app_iff. right. now left. }
  pose proof (hrelq_len _ _ Qh) as HL.
  unfold drun, db_query, with_current. rewrite run_qbind, run_bind. cbn [run call dhandler].
  rewrite Q1. cbn [rw_read free_lock rw_writer rw_readers rw_poisoned]. rewrite Nd. cbn [rw_poisoned].
  rewrite run_bind, run_bind.
  assert (Nd': nth_error (d_heap (set_curl w (mkRw 1 false false))) (d_cur w) = Some d) by exact Nd.
  rewrite (chunk_ans _ bs o q s e (d_cur w) d c Nd' Hd1 Hd2 (proj2 Hc) Hq). cbn [run call bind dhandler].
  assert (SW: set_curl (set_curl w (mkRw 1 false false)) (rw_unread (d_curl (set_curl w (mkRw 1 false false)))) = w).
  { destruct w. cbn in *. now subst. }
  rewrite SW.
  destruct (lookups_ok (d_heap w) (d_sec w)) as (cs & Ecs & Fcs).
  { rewrite Qs. rewrite Forall_forall. intros i Hi. apply in_seq in Hi. lia. }
  assert (LS: rw_read (d_secl w) = Some (mkRw 1 false false)) by (rewrite Q2; reflexivity).
  set (w2 := set_secl w (mkRw 1 false false)).
  set (items := combine (seq 0 (length l0)) l0).
  assert (SR: run dhandler (query_secondaries hs bs o q s e (rev cs) []) w2 =
     Some (if existsb (fun it : nat * part => panics (ans bs q s e (snd it))) (rev items) then Panic else Ok [], w2)).
  { apply sec_empty; [assumption| |].
    - apply Forall_rev. rewrite Forall_forall. intros [i x] Hx. cbn [fst snd].
      assert (Nx: nth_error l i = Some x).
      { unfold items in Hx. apply In_nth_error in Hx as (j & Hj). assert (j < length l0)%nat.
        { assert (nth_error (combine (seq 0 (length l0)) l0) j <> None) as K by congruence.
          apply nth_error_Some in K. rewrite combine_length, seq_length in K. lia. }
        pose proof (f_equal (option_map fst) Hj) as J1. pose proof (f_equal (option_map snd) Hj) as J2. cbn [option_map fst snd] in J1, J2.
        rewrite <- nth_error_map, combine_fst in J1 by now rewrite seq_length.
        rewrite <- nth_error_map, combine_snd in J2 by now rewrite seq_length.
        assert (i = j).
        { pose proof (nth_error_nth (seq 0 (length l0)) j 0%nat J1) as J3. rewrite seq_nth in J3 by assumption. lia. }
        subst j. rewrite El, nth_error_app1 by assumption. exact J2. }
      rewrite Forall_forall in Hl. destruct (Hl x (nth_error_In _ _ Nx)) as [A1 A2].
      split; [assumption|]. split; [assumption|]. exact (hrelq_nth _ _ Qh _ _ Nx).
    - apply Forall2_rev. rewrite Qs in Fcs. rewrite Lc in Fcs.
      assert (map fst items = seq 0 (length l0)) as E by (apply combine_fst; now rewrite seq_length).
      rewrite <- E in Fcs. apply Forall2_map_l in Fcs. exact Fcs. }
  assert (Mi: existsb (fun it : nat * part => panics (ans bs q s e (snd it))) (rev items) = existsb (fun c => panics (ans bs q s e c)) l0).
  { apply eq_true_iff_eq. rewrite !existsb_exists. unfold items. split.
    - intros ([i x] & Hx & P). apply in_rev in Hx. apply in_combine_r in Hx. eauto.
    - intros (x & Hx & P). assert (K: In x (map snd (combine (seq 0 (length l0)) l0))) by (rewrite combine_snd; [assumption|now rewrite seq_length]).
      apply in_map_iff in K as ([i y] & Ey & Hy). cbn [snd] in Ey. subst y. exists (i, x). split; [now apply in_rev in Hy|exact P]. }
  assert (SW2: set_secl w2 (rw_unread (d_secl w2)) = w) by (unfold w2; destruct w; cbn in *; now subst).
  assert (L0: listing hs [] (h_iter hs (map fst (@nil (list label * list tp)))) = Ok []).
  { destruct Hh as [_ Hh]. specialize (Hh []). cbn in Hh. apply Permutation_sym, Permutation_nil in Hh. cbn [map]. rewrite Hh. reflexivity. }
  rewrite El, existsb_app. cbn [existsb]. rewrite orb_false_r.
  destruct (ans bs q s e c) as [x|er|] eqn:Ec; cbn [panics]; [| |rewrite orb_true_r; reflexivity].
  - destruct Hc as [[Hc|Hc] _]; [discriminate|]. cbn [okl] in Hc. subst x. cbn [merge]. rewrite orb_false_r.
    cbn [run call bind dhandler]. rewrite LS, Ecs. cbn [rw_poisoned]. fold w2. rewrite run_bind, SR, Mi. cbn [run call bind dhandler]. rewrite SW2.
    destruct (existsb _ l0); cbn [rbind]; [reflexivity|now rewrite L0].
  - rewrite orb_false_r. cbn [run call bind dhandler]. rewrite LS, Ecs. cbn [rw_poisoned]. fold w2. rewrite run_bind, SR, Mi. cbn [run call bind dhandler]. rewrite SW2.
    destruct (existsb _ l0); cbn [rbind]; [reflexivity|now rewrite L0].
Qed.

Lemma empty_answer l q s e : e < s -> db_answer l q s e [].
Proof.
  intros He. split; [constructor|]. intros m pts. split; [intros []|]. intros [N E]. exfalso. apply N. rewrite E. clear N E.
  induction l as [|c l IH]; [reflexivity|]. cbn [map concat]. rewrite IH, app_nil_r.
  unfold piece. destruct (answers c q s e); [|reflexivity]. destruct (find _ _); [|reflexivity]. now apply within_inverted.
Qed.

(* a query over any two instants, nothing else at work *)
Theorem query_anyq hs bs o q s e w l : quietq w l -> Forall part_ok l -> hasher_ok hs -> bs_contract bs ->
  Forall lab_ok q -> unmixed hs l q s e ->
  exists r, drun (db_query hs bs o q s e) w = Some (r, w) /\ comes_to l q s e r.
Proof.
  intros Qw PO Hh Hb Hq Hu. destruct (Z.le_gt_cases s e) as [Hse|He].
  - destruct (query_answerq hs bs o q s e w l Qw PO Hh Hb Hq Hse Hu) as (r & E & A).
    exists (Ok r). split; [exact E|]. right. split; [|eauto]. intros (c & _ & X & _). lia.
  - assert (AI: forall c, In c l -> (ans bs q s e c = Panic <-> crashes c q s e) /\ (ans bs q s e c = Panic \/ okl (ans bs q s e c) = [])).
    { intros c Hc. apply ans_inverted; [assumption| |lia]. rewrite Forall_forall in PO. apply (PO c Hc). }
    eexists. split.
    { apply query_empty; [exact Qw| |assumption|assumption]. rewrite Forall_forall in *. intros c Hc. split; [apply AI; assumption|apply (PO c Hc)]. }
    destruct (existsb _ l) eqn:X.
    + left. split; [|reflexivity]. apply existsb_exists in X as (c & Hc & P). apply panics_spec in P. exists c. split; [assumption|]. now apply AI.
    + right. split; [|exists []; split; [reflexivity|now apply empty_answer]]. intros (c & Hc & P).
      assert (existsb (fun c => panics (ans bs q s e c)) l = true); [|congruence]. apply existsb_exists. exists c. split; [assumption|]. apply panics_spec. now apply AI.
Qed.
Theorem query_any hs bs o q s e w l : quiet w l -> Forall part_ok l -> hasher_ok hs -> bs_contract bs ->
  Forall lab_ok q -> unmixed hs l q s e ->
  exists r, drun (db_query hs bs o q s e) w = Some (r, w) /\ comes_to l q s e r.
Proof.
  intros Q F. apply query_anyq; [|assumption]. apply quiet_quietq; [assumption|]. eapply Forall_impl; [|exact F]. intros c [_ _ H]. exact H.
Qed.

(* chunks without points at the beginning make no difference *)
Lemma comes_to_app a b q s e r : (forall c, In c a -> (forall m, piece c q s e m = []) /\ forall ls pts, In (ls, pts) (snd c) -> pts = []) ->
  comes_to (a ++ b) q s e r -> comes_to b q s e r.
Proof.
  intros H.
  assert (X: (exists c, In c (a ++ b) /\ crashes c q s e) <-> exists c, In c b /\ crashes c q s e).
  { split; intros (c & Hc & K); [|exists c; split; [apply in_or_app; now right|exact K]]. apply in_app_or in Hc as [Hc|Hc]; [exfalso|eauto].
    destruct K as (_ & _ & b' & ls & pts & a' & E & _ & _ & _ & (p & Hp & _)). rewrite (proj2 (H c Hc) ls pts) in Hp; [contradiction|].
    rewrite E. apply in_or_app. right. now left. }
  assert (Y: forall m, concat (map (fun c => piece c q s e m) a) = []).
  { intros m. clear X. induction a as [|c a IH]; [reflexivity|]. cbn [map concat]. rewrite (proj1 (H c (or_introl eq_refl))). apply IH. intros c' Hc'. apply H. now right. }
  unfold comes_to. rewrite X. intros [K|(N & x & E & A1 & A2)]; [now left|right]. split; [exact N|]. exists x. split; [exact E|]. split; [exact A1|].
  intros m pts. rewrite A2, map_app, concat_app, Y. reflexivity.
Qed.
(* a database without points answers nothing *)
Lemma comes_to_nothing l q s e r : (forall c, In c l -> (forall m, piece c q s e m = []) /\ forall ls pts, In (ls, pts) (snd c) -> pts = []) ->
  comes_to l q s e r -> r = Ok [].
Proof.
  intros H K. rewrite <- (app_nil_r l) in K. apply comes_to_app in K; [|exact H]. destruct K as [[(c & [] & _) _]|(_ & a & -> & _ & A)].
  destruct a as [|[m pts] a]; [reflexivity|]. exfalso. destruct (proj1 (A m pts) ltac:(now left)) as [N E]. now apply N.
Qed.

(* from an instant on to a later one there is always an answer *)
Lemma comes_fwd l q s e r : s <= e -> comes_to l q s e r -> exists a, r = Ok a /\ db_answer l q s e a.
Proof. intros H [[(c & _ & K & _) _]|(_ & K)]; [lia|exact K]. Qed.
Lemma NoDup_fst {A B} (l : list (A * B)) : NoDup (map fst l) -> NoDup l.
Proof. intros H. eapply NoDup_map_inv. exact H. Qed.
Lemma answer_unique l q s e r r' : db_answer l q s e r -> db_answer l q s e r' -> Permutation r r'.
Proof.
  intros [N1 H1] [N2 H2]. apply NoDup_Permutation; [now apply NoDup_fst|now apply NoDup_fst|].
  intros [m pts]. rewrite H1, H2. reflexivity.
Qed.
Lemma comes_alike l q s e r r' : comes_to l q s e r -> comes_to l q s e r' -> alike r r'.
Proof.
  intros [[K ->]|(N & a & -> & A)] [[K' ->]|(N' & a' & -> & A')]; cbn [alike]; [exact I|contradiction|contradiction|]. exact (answer_unique _ _ _ _ _ _ A A').
Qed.
Lemma comes_back l q s e r r' : e < s -> comes_to l q s e r -> comes_to l q s e r' -> r = r'.
Proof.
  intros H [[K ->]|(N & a & -> & A)] [[K' ->]|(N' & a' & -> & A')]; [reflexivity|contradiction|contradiction|].
  pose proof (empty_answer l q s e H) as E. pose proof (answer_unique _ _ _ _ _ _ E A) as P. pose proof (answer_unique _ _ _ _ _ _ E A') as P'.
  apply Permutation_nil in P. apply Permutation_nil in P'. now subst.
Qed.
Lemma crash_points c q s e : crashes c q s e -> snd c <> [].
Proof. intros (_ & _ & b & ls & pts & a & E & _) N. rewrite N in E. destruct b; discriminate. Qed.
Lemma piece_none ch q s e m : piece (ch, []) q s e m = [].
Proof. unfold piece. destruct (answers _ q s e); reflexivity. Qed.
Lemma comes_empty l ch q s e r : comes_to (l ++ [(ch, [])]) q s e r <-> comes_to l q s e r.
Proof.
  assert (X: (exists c, In c (l ++ [(ch, [])]) /\ crashes c q s e) <-> exists c, In c l /\ crashes c q s e).
  { split; intros (c & Hc & K); [|exists c; split; [apply in_or_app; now left|exact K]]. apply in_app_or in Hc as [Hc|[<-|[]]]; [eauto|].
    exfalso. now apply crash_points in K. }
  assert (Y: forall a, db_answer (l ++ [(ch, [])]) q s e a <-> db_answer l q s e a).
  { intros a. unfold db_answer. assert (E: forall m, concat (map (fun c => piece c q s e m) (l ++ [(ch, [])])) = concat (map (fun c => piece c q s e m) l)).
    { intros m. rewrite map_app, concat_app. cbn [map concat]. rewrite piece_none. now rewrite !app_nil_r. }
    split; intros [H1 H2]; (split; [assumption|]); intros m pts; rewrite H2, E; reflexivity. }
  unfold comes_to. rewrite X. split; (intros [K|(N & a & E & A)]; [now left|right; split; [exact N|]; exists a; split; [exact E|]; now apply Y]).
Qed.
