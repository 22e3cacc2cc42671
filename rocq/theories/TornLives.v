(* A write cut short in a directory that earlier processes have worked on. *)
From Coq Require Import ZifyBool ZifyNat Permutation Sorted.
From Verif Require Import Rust StringProofs Prog Gorilla GorillaSpec Storage StorageSpec StorageProofs Labels IndexSpec Indexer
  LabelProofs IntersectProofs IndexProofs IndexHist Chunk ChunkSpec ChunkProofs ChunkFacts ConcSpec Conc CrashProofs ReadsSpec ReadsMay ReadsCrash
  ReadsConc Flush LossSpec FlushProofs LossProofs StopSpec CrashQuery
  Utils DirSpec DirProofs TiKvInit Db DbSpec MapProofs DbProofs DbHist RangeSpec RangeProofs DbFacts
  ReopenSpec ReopenProofs OpenProofs CrashOpen CrashKeep SearchSpec TornSpec TornProofs TornKnown TornAll TornLivesSpec.
Ltac Zify.zify_post_hook ::= Z.div_mod_to_equations.

(** ** the state of the last process *)
Lemma last_from clock x : monotone clock -> forall L cf w P l tick n last,
  state cf w l -> Forall2 fits P l -> cf_st cf = Sled -> cf_ix cf = Sled -> f_ticks (d_fs w) = tick -> f_clock (d_fs w) = clock ->
  n = length l -> (forall c, In c l -> c_start (fst c) <= last) -> (forall p, stored P p -> tp_ts p <= clock tick) ->
  lives_ok clock tick n last (L ++ [x]) ->
  let k := opening clock tick n L in
  exists w' old, live (L ++ [x]) (stopped cf w) = Some w' /\ state (lf_cf x) w' (old ++ parts (lf_cf x) (clock k) (lf_ops x)) /\
    Forall2 fits (P ++ life_parts clock tick n L) old /\ f_clock (d_fs w') = clock /\ f_ticks (d_fs w') = S k /\ ops_ok (lf_cf x) (clock k) (lf_ops x).
Proof.
  intros Hm. intros L; induction L as [|y L IH]; intros cf w P l tick n last HS HF Hst Hix Ht Hc Hn Hl Hp HL.
  all: cbn [app lives_ok life_parts opening] in *; set (start := clock (tick + n)%nat) in *;
    match goal with K: cf_st (lf_cf ?z) = _ /\ _ |- _ => set (pl := parts (lf_cf z) start (lf_ops z)) in *; rename z into v end;
    destruct HL as (S1 & S2 & Ha & Hlast & Ho & Hpts & HL'); pose proof Ho as (Hb & H0 & Hsz & Hend & Hs & Hw & Hlen);
    assert (Fc: f_clock (stopped cf w) = clock) by exact Hc; assert (Ft: f_ticks (stopped cf w) = tick) by exact Ht.
  all: assert (LT: forall c, In c l -> c_start (fst c) < f_clock (stopped cf w) (f_ticks (stopped cf w) + length l));
    [rewrite Fc, Ft, <- Hn; intros c Hin; specialize (Hl c Hin); fold start; lia|];
    assert (EB: f_clock (stopped cf w) (f_ticks (stopped cf w) + length l) = start) by (rewrite Fc, Ft, <- Hn; reflexivity);
    destruct (reopen_run cf (lf_cf v) w l HS Hst Hix S1 S2 Hb Ha Hsz LT) as (w1 & l1 & E1 & St1 & T1 & En1 & _ & C1); [rewrite EB; exact Hend|];
    rewrite EB in St1;
    destruct (hist_from (lf_cf v) (lf_ops v) Hsz start [] w1 l1 St1 Hs Hw) as (w2 & E2 & St2 & T2 & En2); [cbn [length]; exact Hlen|];
    change (parts_from (lf_cf v) start [] (lf_ops v)) with pl in St2.
  all: assert (FP: Forall2 fits P l1).
  1,3: rewrite Fc, Ft in C1; remember (tick + length l)%nat as hi eqn:Q; clear Q; clear - HF C1 Hp Hm;
    assert (Hp': forall c ls pts p, In c P -> In (ls, pts) (snd c) -> In p pts -> tp_ts p <= clock tick) by (intros; apply Hp; red; eauto 8);
    clear Hp; revert l1 C1; induction HF as [|c c' P l (A1 & A2 & A3) HF IH]; intros l1 C1; inversion C1 as [|? c1 ? l1' (B1 & B2 & en & i & B3 & B4 & B5) B6]; subst; constructor;
    [split; [congruence|]; split; [congruence|]; intros ls pts p G1 G2; destruct (A3 ls pts p G1 G2) as [G3 G4]; split; [assumption|];
      specialize (Hp' c ls pts p ltac:(now left) G1 G2); specialize (Hm tick i ltac:(lia)); rewrite B5; destruct (_ <? _) eqn:Q; lia
    |apply IH; [|assumption]; intros; eapply Hp'; [right|..]; eassumption].
  all: assert (DA: db_after (lf_cf v) (stopped cf w) (lf_ops v) = Some (outcomes (lf_cf v) start (lf_ops v), w2)) by (unfold db_after; rewrite E1; exact E2).
  - cbn [live]. rewrite DA. cbn [option_map snd]. rewrite app_nil_r. exists w2, l1. split; [reflexivity|]. split; [exact St2|]. split; [exact FP|].
    split; [destruct En1 as (_ & K1 & _), En2 as (_ & K2 & _); congruence|]. split; [rewrite T2, T1, Ft, <- Hn; reflexivity|]. exact Ho.
  - destruct (L ++ [x]) as [|z L2] eqn:EL2; [destruct L; discriminate|].
    assert (EL: live (v :: z :: L2) (stopped cf w) = live (z :: L2) (stopped (lf_cf v) w2)) by (cbn [live]; now rewrite DA).
    rewrite EL. rewrite app_assoc. assert (L1: length l1 = n) by (rewrite Hn; clear - C1; induction C1; cbn; congruence).
    apply (IH (lf_cf v) w2 (P ++ pl) (l1 ++ pl) _ _ (last_start start (lf_ops v))); try assumption.
    + apply Forall2_app; [exact FP|]. now apply parts_fit.
    + rewrite T2, T1, Ft, <- Hn. reflexivity.
    + destruct En1 as (_ & K1 & _), En2 as (_ & K2 & _). congruence.
    + rewrite app_length, L1. reflexivity.
    + intros c Hin. apply in_app_or in Hin as [Hin|Hin]; [|now apply (starts_bound (lf_cf v) (lf_ops v) start [])].
      destruct (F2_in_r _ _ _ _ C1 Hin) as (c0 & Hc0 & (_ & K & _)). specialize (Hl c0 Hc0). pose proof (last_start_ge _ _ _ Hs). lia.
    + intros p (c & ls & pts & K1 & K2 & K3). apply in_app_or in K1 as [K1|K1].
      * specialize (Hp p ltac:(red; eauto 8)). specialize (Hm tick (S (tick + n)) ltac:(lia)). lia.
      * apply Hpts; [discriminate|red; eauto 8].
Qed.
Lemma last_state f L x : env_ok f -> empty_dir f -> monotone (f_clock f) -> lives_ok (f_clock f) (f_ticks f) 0 (-1) (L ++ [x]) ->
  let k := opening (f_clock f) (f_ticks f) 0 L in
  exists w old, live (L ++ [x]) f = Some w /\ state (lf_cf x) w (old ++ parts (lf_cf x) (f_clock f k) (lf_ops x)) /\
    Forall2 fits (life_parts (f_clock f) (f_ticks f) 0 L) old /\ f_clock (d_fs w) = f_clock f /\ f_ticks (d_fs w) = S k /\
    ops_ok (lf_cf x) (f_clock f k) (lf_ops x) /\ cf_st (lf_cf x) = Sled /\ cf_ix (lf_cf x) = Sled /\ ascii (cf_base (lf_cf x)).
Proof.
  intros He Hd Hm HL k.
  assert (SS: cf_st (lf_cf x) = Sled /\ cf_ix (lf_cf x) = Sled /\ ascii (cf_base (lf_cf x))).
  { clear - HL. remember (-1) as z eqn:Q. clear Q. remember O as n eqn:Q. clear Q. generalize dependent n. revert z. generalize (f_ticks f). induction L as [|y L IH]; intros t z n HL; cbn [app lives_ok] in HL; [tauto|]. eapply IH. apply HL. }
  enough (G: exists w old, live (L ++ [x]) f = Some w /\ state (lf_cf x) w (old ++ parts (lf_cf x) (f_clock f k) (lf_ops x)) /\
    Forall2 fits (life_parts (f_clock f) (f_ticks f) 0 L) old /\ f_clock (d_fs w) = f_clock f /\ f_ticks (d_fs w) = S k /\ ops_ok (lf_cf x) (f_clock f k) (lf_ops x)).
  { destruct G as (w & old & G1 & G2 & G3 & G4 & G5 & G6). exists w, old. tauto. }
  clear SS. unfold k. clear k. destruct L as [|y L]; cbn [app lives_ok life_parts opening] in *; rewrite Nat.add_0_r in *.
  - destruct HL as (S1 & S2 & Ha & Hlast & Ho & _ & _). pose proof Ho as (Hb & H0 & Hsz & Hend & Hs & Hw & Hlen).
    destruct (open_run (lf_cf x) f He Hd Hb Hsz Hend) as (w1 & E1 & St1 & T1 & En1 & _).
    destruct (hist_from (lf_cf x) (lf_ops x) Hsz (f_clock f (f_ticks f)) [] w1 [] St1 Hs Hw) as (w2 & E2 & St2 & T2 & En2); [cbn [length]; exact Hlen|]. cbn [app] in St2.
    exists w2, []. split; [cbn [live]; unfold db_after; rewrite E1, E2; reflexivity|]. split; [exact St2|]. split; [constructor|].
    split; [destruct En1 as (_ & K1 & _), En2 as (_ & K2 & _); congruence|]. split; [congruence|]. exact Ho.
  - set (start := f_clock f (f_ticks f)) in *. destruct HL as (S1 & S2 & Ha & Hlast & Ho & Hpts & HL'). pose proof Ho as (Hb & H0 & Hsz & Hend & Hs & Hw & Hlen).
    destruct (open_run (lf_cf y) f He Hd Hb Hsz Hend) as (w1 & E1 & St1 & T1 & En1 & _).
    destruct (hist_from (lf_cf y) (lf_ops y) Hsz start [] w1 [] St1 Hs Hw) as (w2 & E2 & St2 & T2 & En2); [cbn [length]; exact Hlen|]. cbn [app] in St2.
    set (pl := parts (lf_cf y) start (lf_ops y)) in *.
    assert (DA: db_after (lf_cf y) f (lf_ops y) = Some (outcomes (lf_cf y) start (lf_ops y), w2)) by (unfold db_after; rewrite E1; exact E2).
    assert (NE: L ++ [x] <> []) by (destruct L; discriminate).
    assert (EL: live (y :: L ++ [x]) f = live (L ++ [x]) (stopped (lf_cf y) w2)) by (cbn [live]; destruct (L ++ [x]); [contradiction|]; now rewrite DA).
    rewrite EL. apply (last_from (f_clock f) x Hm L (lf_cf y) w2 pl pl _ _ (last_start start (lf_ops y))); try assumption.
    + now apply parts_fit.
    + rewrite T2, T1. reflexivity.
    + destruct En1 as (_ & K1 & _), En2 as (_ & K2 & _). congruence.
    + reflexivity.
    + intros c Hin. now apply (starts_bound (lf_cf y) (lf_ops y) start []).
    + intros p Hp. apply Hpts; assumption.
Qed.

Lemma live_app clock cf y : forall L tick n, life_parts clock tick n (L ++ [mkLife cf y]) =
  life_parts clock tick n L ++ parts cf (clock (opening clock tick n L)) y.
Proof.
  induction L as [|x L IH]; intros tick n; cbn [app life_parts opening lf_cf lf_ops]; [now rewrite app_nil_r|]. now rewrite IH, app_assoc.
Qed.
Lemma lives_shorter clock cf a b : (forall t, ops_ok cf t (a ++ b) -> ops_ok cf t a) ->
  forall L tick n last, lives_ok clock tick n last (L ++ [mkLife cf (a ++ b)]) -> lives_ok clock tick n last (L ++ [mkLife cf a]).
Proof.
  intros Ho. induction L as [|x L IH]; intros tick n last H; cbn [app lives_ok lf_cf lf_ops] in *.
  - destruct H as (H1 & H2 & H3 & H4 & H5 & _). split; [exact H1|]. split; [exact H2|]. split; [exact H3|]. split; [exact H4|]. split; [now apply Ho|]. split; [contradiction|exact I].
  - destruct H as (H1 & H2 & H3 & H4 & H5 & H6 & H7). split; [exact H1|]. split; [exact H2|]. split; [exact H3|]. split; [exact H4|]. split; [exact H5|].
    split; [|now apply IH]. intros _. apply H6. destruct L; discriminate.
Qed.
Lemma ops_before cf t ops op : ops_ok cf t (ops ++ [op]) -> ops_ok cf t ops.
Proof.
  intros (O1 & O2 & O3 & O4 & O5 & O6 & O7). apply starts_snoc in O5. rewrite written_snoc in O6, O7. apply Forall_app in O6 as [Hw _]. rewrite app_length in O7.
  repeat split; try assumption. lia.
Qed.
Lemma opened_ok clock cf y : forall L tick n last, lives_ok clock tick n last (L ++ [mkLife cf y]) -> ops_ok cf (clock (opening clock tick n L)) y.
Proof. induction L as [|x L IH]; intros tick n last H; cbn [app lives_ok opening lf_cf lf_ops] in *; [apply H|]. eapply IH. apply H. Qed.
Lemma lives_done clock cf a b : (forall t, ops_ok cf t a -> ops_ok cf t b) ->
  forall L tick n last, lives_ok clock tick n last (L ++ [mkLife cf a]) -> lives_ok clock tick n last (L ++ [mkLife cf b]).
Proof.
  intros Ho. induction L as [|x L IH]; intros tick n last H; cbn [app lives_ok lf_cf lf_ops] in *.
  - destruct H as (H1 & H2 & H3 & H4 & H5 & _). split; [exact H1|]. split; [exact H2|]. split; [exact H3|]. split; [exact H4|]. split; [now apply Ho|]. split; [contradiction|exact I].
  - destruct H as (H1 & H2 & H3 & H4 & H5 & H6 & H7). split; [exact H1|]. split; [exact H2|]. split; [exact H3|]. split; [exact H4|]. split; [exact H5|].
    split; [|now apply IH]. intros _. apply H6. destruct L; discriminate.
Qed.
Lemma ops_done cf t ops op ls done : writes ls op -> done_of op done -> ops_ok cf t (ops ++ [op]) -> ops_ok cf t (ops ++ done).
Proof.
  intros Hop Dn (O1 & O2 & O3 & O4 & O5 & O6 & O7). apply starts_snoc in O5. rewrite written_snoc in O6, O7. apply Forall_app in O6 as [Hw Hw1]. rewrite app_length in O7.
  assert (X: exists k, written done = firstn k (written [op])).
  { destruct Dn as [op|l p|l pts k]; [exists O; reflexivity|exists 1%nat; reflexivity|]. exists k. cbn [written]. rewrite !app_nil_r. symmetry. apply firstn_map. }
  destruct X as (k & Wd). assert (Lk: (length (written done) <= length (written [op]))%nat) by (rewrite Wd, firstn_length; lia).
  repeat split; try assumption.
  - destruct (done_cases _ _ _ Hop Dn) as [->|(o & -> & Wo)]; [now rewrite app_nil_r|]. eapply starts_writes; eassumption.
  - rewrite written_app. apply Forall_app. split; [assumption|]. rewrite Wd. rewrite <- (firstn_skipn k (written [op])) in Hw1. apply Forall_app in Hw1. apply Hw1.
  - rewrite written_app, app_length. lia.
Qed.
Lemma life_snoc L cf a : life_written (L ++ [mkLife cf a]) = life_written L ++ written a.
Proof. unfold life_written. rewrite map_app, concat_app. cbn [map concat lf_ops]. now rewrite app_nil_r. Qed.
Lemma fits_self l l' : Forall2 fits l l' -> Forall2 fits l' l'.
Proof.
  induction 1 as [|c c' l l' (E1 & E2 & F) _ IH]; constructor; [|exact IH]. split; [reflexivity|]. split; [reflexivity|].
  intros ls pts p H1 H2. rewrite E1 in H1. destruct (F ls pts p H1 H2). auto.
Qed.
Lemma fits_stored l l' p : Forall2 fits l l' -> stored l' p -> stored l p.
Proof.
  intros F (c & ls & pts & H1 & H2 & H3). destruct (F2_in_r _ _ _ _ F H1) as (b & Hb & (E & _)). rewrite E in H2. exists b, ls, pts. auto.
Qed.
Lemma fits_apart hs l l' : Forall2 fits l l' -> apart_in hs l -> apart_in hs l'.
Proof.
  intros F H ks k i k' x Hk Hks. apply H.
  - destruct Hk as (c & ls & pts & H1 & H2 & H3). destruct (F2_in_r _ _ _ _ F H1) as (b & Hb & (E & _)). rewrite E in H2. exists b, ls, pts. auto.
  - intros a Ha. destruct (Hks a Ha) as (c & ls & pts & H1 & H2 & H3). destruct (F2_in_r _ _ _ _ F H1) as (b & Hb & (E & _)). rewrite E in H2. exists b, ls, pts. auto.
Qed.
Lemma fits_short l0 l0' l1 c q s e r : Forall2 fits l0 l0' -> answer_short (l0' ++ l1 ++ [c]) q s e r -> answer_short (l0 ++ l1 ++ [c]) q s e r.
Proof.
  intros F (old & c1 & X & E & H). rewrite app_assoc in E. apply app_inj_tail in E as [<- <-]. exists (l0 ++ l1), c, X. split; [now rewrite app_assoc|].
  destruct H as (H1 & H2 & H3). split; [exact H1|]. split; [exact H2|]. intros m pts. rewrite H3, !map_app, !concat_app.
  assert (G: map (fun c => piece c q s e m) l0' = map (fun c => piece c q s e m) l0).
  { clear - F. induction F as [|a b l l' K F IH]; [reflexivity|]. cbn [map]. now rewrite IH, (fits_piece a b). }
  now rewrite G.
Qed.
Lemma sorted_end (l : list Z) z : StronglySorted Z.lt (l ++ [z]) -> Forall (fun x => x <= z) (l ++ [z]).
Proof.
  induction l as [|x l IH]; cbn [app]; intros H; [constructor; [lia|constructor]|]. inversion H as [|? ? H1 H2]; subst. constructor; [|auto].
  rewrite Forall_forall in H2. assert (In z (l ++ [z])) as Hz by (apply in_app_iff; right; now left). specialize (H2 z Hz). lia.
Qed.

Lemma cut_last cf ops : forall st h, exists l0 A, parts_from cf st h ops = l0 ++ [(the_chunk cf (last_start st ops), A)].
Proof.
  induction ops as [|[l p|l pts|st'] ops IH]; intros st h; cbn [parts_from last_start]; [exists [], (content_of (the_chunk cf st) h); reflexivity|apply IH|apply IH|].
  destruct (IH st' []) as (l0 & A & E). rewrite E. eexists (_ :: l0), A. reflexivity.
Qed.

(** ** the cut *)
Section CUT.
Variables (L : list life) (cf : config) (f : fworld) (ops : list dop) (op : dop) (ls : list label) (n : nat).
Let clock := f_clock f.
Let tick := f_ticks f.
Let k := opening clock tick 0 L.
Let P (done : list dop) := life_parts clock tick 0 (L ++ [mkLife cf (ops ++ done)]).
Hypothesis He : env_ok f.
Hypothesis Hd : empty_dir f.
Hypothesis Hm : monotone clock.
Hypothesis Hcl : forall i, clock i + cf_size cf < 2 ^ 64.
Hypothesis HL : lives_ok clock tick 0 (-1) (L ++ [mkLife cf (ops ++ [op])]).
Hypothesis HT : timely (life_written (L ++ [mkLife cf (ops ++ [op])])).
Hypothesis Hop : writes ls op.
Hypothesis Hclk : forall i, (k < i)%nat -> last_start (clock k) ops < clock i.
Hypothesis Hpts : forall p, stored (P [op]) p -> tp_ts p <= clock (S k).

(* what is known of the process that is cut *)
Lemma cut_facts : exists w old l0 c A h0 d, live (L ++ [mkLife cf ops]) f = Some w /\
  Forall2 fits (life_parts clock tick 0 L) old /\ parts cf (clock k) ops = l0 ++ [(c, A)] /\ drep cf w (old ++ l0) c A h0 d /\
  f_clock (d_fs w) = clock /\ f_ticks (d_fs w) = S k /\ cf_st cf = Sled /\ cf_ix cf = Sled /\ ascii (cf_base cf) /\
  cf_base cf <> [] /\ 0 <= cf_size cf /\ Forall ireq_ok (written [op]) /\ (length A + length (written [op]) <= length (written (ops ++ [op])))%nat /\
  Z.of_nat (length (written (ops ++ [op]))) < 2 ^ 64 - 1.
Proof.
  assert (HL0: lives_ok clock tick 0 (-1) (L ++ [mkLife cf ops])) by (apply (lives_shorter clock cf ops [op]); [intros t; apply ops_before|exact HL]).
  pose proof (last_state f L (mkLife cf ops) He Hd Hm HL0) as G. cbn [lf_cf lf_ops] in G. fold clock tick in G. fold k in G.
  destruct G as (w & old & E & St & F & Ec & Et & Ho & S1 & S2 & Ha).
  destruct St as (l0' & c & A & h0 & d & El & D).
  assert (X: exists l0, parts cf (clock k) ops = l0 ++ [(c, A)] /\ l0' = old ++ l0).
  { destruct (cut_last cf ops (clock k) []) as (l1 & A1 & Ep). change (parts cf (clock k) ops = l1 ++ [(the_chunk cf (last_start (clock k) ops), A1)]) in Ep.
    change (old ++ parts cf (clock k) ops = l0' ++ [(c, A)]) in El. rewrite Ep, app_assoc in El. apply app_inj_tail in El as [<- El]. rewrite <- El. eauto. }
  destruct X as (l0 & X1 & ->). pose proof (opened_ok _ _ _ _ _ _ _ HL) as (Q1 & Q2 & Q3 & Q4 & Q5 & Q6 & Q7).
  assert (LA: (length A <= length (written ops))%nat).
  { apply (parts_length cf ops (clock k) [] (c, A)). change (In (c, A) (parts cf (clock k) ops)). rewrite X1. apply in_or_app. right. now left. }
  rewrite written_snoc in Q6. apply Forall_app in Q6 as [_ Hw1].
  exists w, old, l0, c, A, h0, d. do 12 (split; [assumption|]). split; [|exact Q7]. rewrite written_snoc, app_length. lia.
Qed.

(* what is known of the chunks when part of the write was done *)
Lemma done_facts done w old l0 c A h0 d j : Forall2 fits (life_parts clock tick 0 L) old -> parts cf (clock k) ops = l0 ++ [(c, A)] -> drep cf w (old ++ l0) c A h0 d ->
  done_of op done -> written done = firstn j (written [op]) ->
  let B := fold_left (ins c) (written done) A in let Q := (old ++ l0) ++ [(c, B)] in
  P done = life_parts clock tick 0 L ++ l0 ++ [(c, B)] /\ Forall2 fits (P done) Q /\ Forall part_ok (P done) /\
  (forall c' i, In c' Q -> (S k <= i)%nat -> c_start (fst c') < clock i) /\ (forall p, stored Q p -> tp_ts p <= clock (S k)).
Proof.
  intros F El D Dn Wd B Q. pose proof D as [H1 H2 H3 H4 H5 H6 H7 H8 H9 H10 H11 H12].
  assert (HLd: lives_ok clock tick 0 (-1) (L ++ [mkLife cf (ops ++ done)])) by (apply (lives_done clock cf (ops ++ [op])); [intros t; now apply (ops_done cf t ops op ls)|exact HL]).
  assert (EP: parts cf (clock k) (ops ++ done) = l0 ++ [(c, B)]) by (eapply parts_done; eassumption).
  assert (E: P done = life_parts clock tick 0 L ++ l0 ++ [(c, B)]) by (unfold P; rewrite live_app; fold k; now rewrite EP).
  pose proof (opened_ok _ _ _ _ _ _ _ HLd) as HO. fold k in HO. pose proof HO as (Q1 & Q2 & Q3 & Q4 & Q5 & Q6 & Q7).
  assert (TD: timely (life_written (L ++ [mkLife cf (ops ++ done)]))).
  { rewrite life_snoc, written_app, Wd. pose proof HT as T. rewrite life_snoc, written_snoc in T. rewrite <- (firstn_skipn j (written [op])), !app_assoc in T. rewrite app_assoc. exact (timely_prefix _ _ T). }
  assert (FQ: Forall2 fits (P done) Q).
  { rewrite E. unfold Q. rewrite <- app_assoc. apply Forall2_app; [exact F|]. pose proof (parts_fit cf (clock k) (ops ++ done) Q6) as PF. rewrite EP in PF. exact PF. }
  split; [exact E|]. split; [exact FQ|]. split; [exact (life_parts_ok clock _ _ _ _ HLd TD)|]. split.
  - assert (SL: Forall (fun x => x <= c_start c) (map (fun c => c_start (fst c)) ((old ++ l0) ++ [(c, A)]))).
    { assert (EM: map (fun c => c_start (fst c)) ((old ++ l0) ++ [(c, A)]) = map (fun x => c_start (dc_chunk x)) (h0 ++ [d])).
      { rewrite map_app, (map_app _ h0). f_equal.
        - clear - H6. remember (old ++ l0) as z eqn:Q. clear Q. induction H6 as [|a b h l [(_ & K & _) _] _ IH]; [reflexivity|]. cbn [map]. rewrite IH. f_equal. first [exact K|now symmetry].
        - cbn [map fst]. f_equal. destruct H7 as (_ & K & _). first [exact K|now symmetry]. }
      rewrite EM. rewrite map_app in *. cbn [map]. cbn [map] in H12. apply sorted_end in H12. destruct H7 as (_ & K & _). replace (c_start c) with (c_start (dc_chunk d)) by (first [exact K|now symmetry]). exact H12. }
    intros c' i Hc Hi. assert (K: c_start (fst c') <= c_start c).
    { rewrite Forall_forall in SL. unfold Q in Hc. apply in_app_or in Hc as [Hc|[<-|[]]]; [|cbn [fst]; lia]. apply SL. apply in_map_iff. exists c'. split; [reflexivity|]. apply in_or_app. now left. }
    assert (K2: c_start c <= last_start (clock k) ops).
    { rewrite <- (last_done ls op done Hop Dn ops (clock k)). apply (starts_bound cf (ops ++ done) (clock k) [] (c, B) Q5). change (In (c, B) (parts cf (clock k) (ops ++ done))). rewrite EP. apply in_or_app. right. now left. }
    specialize (Hclk i ltac:(lia)). lia.
  - intros p Hp. apply Hpts. apply (fits_stored _ _ _ FQ) in Hp. rewrite E in Hp. unfold P. rewrite live_app. fold k.
    assert (EW: parts cf (clock k) (ops ++ [op]) = l0 ++ [(c, fold_left (ins c) (written [op]) A)]).
    { destruct Hop as [(p' & ->)|(pts & ->)].
      - apply (parts_done cf (clock k) ops l0 c A ls (OpPoint ls p')); [assumption|left; eauto|constructor].
      - pose proof (parts_done cf (clock k) ops l0 c A ls (OpBatch ls pts) [OpBatch ls (firstn (length pts) pts)] El (or_intror (ex_intro _ pts eq_refl)) (Done_batch _ _ _)) as X.
        rewrite firstn_all in X. exact X. }
    rewrite EW, app_assoc. rewrite app_assoc in Hp. eapply stored_grown; [|exact Hp]. unfold B. rewrite Wd. rewrite <- (firstn_skipn j (written [op])) at 2. rewrite fold_left_app. apply grown_fold.
Qed.

Theorem lives_crash_any : exists done w, done_of op done /\ live (L ++ [mkLife cf ops]) f = Some w /\
  forall hs bs o q s e, hasher_ok hs -> bs_contract bs -> Forall lab_ok q -> s <= e -> apart_in hs (P done) ->
  exists w' r', db_open cf (stopped cf (snd (crash_at dhandler n (dop_prog cf op) w))) = Some (Ok tt, w') /\
    drun (db_query hs bs o q s e) w' = Some (Ok r', w') /\ answer_short (P done) q s e r'.
Proof.
  destruct cut_facts as (w & old & l0 & c & A & h0 & d & E & F & El & D & Ec & Et & S1 & S2 & Ha & Hb & Hsz & Hw1 & LA & O7).
  pose proof D as [H1 H2 H3 H4 H5 H6 H7 H8 H9 H10 H11 H12].
  pose proof (op_halfway cf w (old ++ l0) c A h0 d op ls D Hw1 Hop ltac:(lia) n) as (Kf & j & cw & Kh & Ko).
  destruct (done_firstn ls op j Hop) as (done & Dn & Wd).
  destruct (done_facts done w old l0 c A h0 d j F El D Dn Wd) as (EP & FQ & OK & SB & HP).
  set (B := fold_left (ins c) (written done) A) in *.
  assert (EB: fold_left (ins (dc_chunk d)) (firstn j (written [op])) A = B) by (unfold B; rewrite <- Wd; apply fold_ins_ext; exact H7).
  rewrite EB in Ko.
  assert (Lk: (length (written done) <= length (written [op]))%nat) by (rewrite Wd, firstn_length; lia).
  assert (HWd: Forall ireq_ok (written done)).
  { rewrite Wd. rewrite <- (firstn_skipn j (written [op])) in Hw1. apply Forall_app in Hw1. apply Hw1. }
  destruct (crep_fold (dc_chunk d) (written done) HWd (dc_world d) A H8 ltac:(lia)) as (cwk & Rk).
  rewrite (fold_ins_ext _ _ H7) in Rk. fold B in Rk.
  pose proof (drep_write _ _ _ _ _ _ _ _ _ D Rk) as Dk.
  exists done, w. split; [assumption|]. split; [assumption|]. intros hs bs o q s e Hh Hbs Hq Hse Hp.
  destruct (halfway_reopen cf _ (old ++ l0) c B h0 _ (snd (crash_at dhandler n (dop_prog cf op) w)) cw hs bs o q s e Dk) as (w' & r' & X1 & X2 & X3); try assumption;
    cbn [set_heap d_fs dc_chunk dc_name]; try assumption; try exact I.
  { now rewrite Ec. } { now rewrite Ec. } { now rewrite Ec, Et. } { exact (fits_self _ _ FQ). } { now rewrite Ec, Et. } { exact (fits_ok _ _ FQ OK). } { exact (fits_apart _ _ _ FQ Hp). }
  exists w', r'. split; [assumption|]. split; [assumption|]. rewrite EP. rewrite <- app_assoc in X3. exact (fits_short _ _ _ _ _ _ _ _ F X3).
Qed.

Theorem lives_crash_known : has_series cf (clock k) ops ls ->
  exists done w w1, done_of op done /\ live (L ++ [mkLife cf ops]) f = Some w /\ live (L ++ [mkLife cf (ops ++ done)]) f = Some w1 /\
  forall hs bs o q s e, hasher_ok hs -> bs_contract bs -> Forall lab_ok q -> unmixed hs (P done) q s e ->
  exists r w' r', drun (db_query hs bs o q s e) w1 = Some (r, w1) /\
    db_open cf (stopped cf (snd (crash_at dhandler n (dop_prog cf op) w))) = Some (Ok tt, w') /\
    drun (db_query hs bs o q s e) w' = Some (r', w') /\ alike r r'.
Proof.
  intros Hs. destruct cut_facts as (w & old & l0 & c & A & h0 & d & E & F & El & D & Ec & Et & S1 & S2 & Ha & Hb & Hsz & Hw1 & LA & O7).
  pose proof D as [H1 H2 H3 H4 H5 H6 H7 H8 H9 H10 H11 H12].
  assert (Kn: known A ls).
  { destruct Hs as (l & ch & A' & x & X1 & X2 & X3). rewrite El in X1. apply app_inj_tail in X1 as [-> X1]. injection X1 as <- <-.
    exists x. split; [assumption|]. pose proof (wf_sets _ (cr_wf _ _ _ H8)) as Fs. rewrite Forall_forall in Fs.
    assert (SX: set_ok (fst x)) by (apply Fs; assumption).
    apply same_setb_spec; [apply SX| |assumption]. unfold keys_distinct. eapply Permutation_NoDup; [apply Permutation_map; exact X3|apply SX]. }
  pose proof (op_partly cf w (old ++ l0) c A h0 d op ls D Hw1 Hop Kn ltac:(lia) n) as (Kf & j & cw & Kh & Ko).
  destruct (done_firstn ls op j Hop) as (done & Dn & Wd).
  destruct (done_facts done w old l0 c A h0 d j F El D Dn Wd) as (EP & FQ & OK & SB & HP).
  set (B := fold_left (ins c) (written done) A) in *.
  assert (EB: fold_left (ins (dc_chunk d)) (firstn j (written [op])) A = B) by (unfold B; rewrite <- Wd; apply fold_ins_ext; exact H7).
  rewrite EB in Ko.
  assert (Lk: (length (written done) <= length (written [op]))%nat) by (rewrite Wd, firstn_length; lia).
  assert (HWd: Forall ireq_ok (written done)).
  { rewrite Wd. rewrite <- (firstn_skipn j (written [op])) in Hw1. apply Forall_app in Hw1. apply Hw1. }
  destruct (crep_fold (dc_chunk d) (written done) HWd (dc_world d) A H8 ltac:(lia)) as (cwk & Rk).
  rewrite (fold_ins_ext _ _ H7) in Rk. fold B in Rk.
  pose proof (drep_write _ _ _ _ _ _ _ _ _ D Rk) as Dk.
  assert (HLd: lives_ok clock tick 0 (-1) (L ++ [mkLife cf (ops ++ done)])) by (apply (lives_done clock cf (ops ++ [op])); [intros t; now apply (ops_done cf t ops op ls)|exact HL]).
  assert (TD: timely (life_written (L ++ [mkLife cf (ops ++ done)]))).
  { rewrite life_snoc, written_app, Wd. pose proof HT as T. rewrite life_snoc, written_snoc in T. rewrite <- (firstn_skipn j (written [op])), !app_assoc in T. rewrite app_assoc. exact (timely_prefix _ _ T). }
  assert (NE: L ++ [mkLife cf (ops ++ done)] <> []) by (destruct L; discriminate).
  destruct (last_state f L (mkLife cf (ops ++ done)) He Hd Hm HLd) as (w1 & _ & E1 & _).
  exists done, w, w1. split; [assumption|]. split; [assumption|]. split; [exact E1|]. intros hs bs o q s e Hh Hbs Hq Hp.
  destruct (lives_refine f _ hs bs o q s e He Hd Hm NE HLd TD Hh Hbs Hq Hp) as (w1' & r & E1' & Er & Ar).
  assert (w1' = w1) as -> by congruence. fold clock tick in Ar. fold (P done) in Ar.
  destruct (torn_reopen (fun _ => True) cf _ (old ++ l0) c B h0 _ (snd (crash_at dhandler n (dop_prog cf op) w)) cw hs bs o q s e Dk) as (w2 & r' & X1 & X2 & X3); try assumption;
    cbn [set_heap d_fs dc_chunk dc_name]; try assumption; try exact I.
  { now rewrite Ec. } { now rewrite Ec. } { now rewrite Ec, Et. } { exact (fits_self _ _ FQ). } { now rewrite Ec, Et. } { exact (fits_ok _ _ FQ OK). } { exact (fits_free _ _ _ _ _ _ FQ Hp). }
  exists r, w2, r'. split; [assumption|]. split; [assumption|]. split; [assumption|].
  exact (comes_alike _ _ _ _ _ _ Ar (proj1 (fits_comes _ _ _ _ _ _ FQ) X3)).
Qed.

Theorem lives_crash_keeps hs bs o q s e : hasher_ok hs -> bs_contract bs -> Forall lab_ok q -> unmixed hs (P []) q s e -> ~ shares q ls ->
  exists w r w' r', live (L ++ [mkLife cf ops]) f = Some w /\ drun (db_query hs bs o q s e) w = Some (r, w) /\
    db_open cf (stopped cf (snd (crash_at dhandler n (dop_prog cf op) w))) = Some (Ok tt, w') /\
    drun (db_query hs bs o q s e) w' = Some (r', w') /\ alike r r'.
Proof.
  intros Hh Hbs Hq Hp Hns. destruct cut_facts as (w & old & l0 & c & A & h0 & d & E & F & El & D & Ec & Et & S1 & S2 & Ha & Hb & Hsz & Hw1 & LA & O7).
  destruct (done_facts [] w old l0 c A h0 d O F El D (Done_none op) eq_refl) as (EP & FQ & OK & SB & HP). cbn [written fold_left] in EP, FQ, SB, HP.
  assert (HL0: lives_ok clock tick 0 (-1) (L ++ [mkLife cf ops])) by (apply (lives_shorter clock cf ops [op]); [intros t; apply ops_before|exact HL]).
  assert (TD: timely (life_written (L ++ [mkLife cf ops]))).
  { pose proof HT as T. rewrite life_snoc in *. rewrite written_snoc, app_assoc in T. exact (timely_prefix _ _ T). }
  assert (NE: L ++ [mkLife cf ops] <> []) by (destruct L; discriminate).
  assert (EPn: P [] = life_parts clock tick 0 (L ++ [mkLife cf ops])) by (unfold P; now rewrite app_nil_r).
  pose proof Hp as Hp0. rewrite EPn in Hp0.
  destruct (lives_refine f _ hs bs o q s e He Hd Hm NE HL0 TD Hh Hbs Hq Hp0) as (w1 & r & E1 & Er & Ar).
  assert (w1 = w) as -> by congruence. fold clock tick in Ar. rewrite <- EPn in Ar.
  assert (K: keeps dhandler (torn (d_fs w) h0 d A ls) (dop_prog cf op) w).
  { eapply op_keeps; try eassumption; [|intros st ->; destruct Hop as [(? & ?)|(? & ?)]; discriminate|lia].
    intros x Hx. destruct Hop as [(p & ->)|(pts & ->)]; cbn [written app] in Hx.
    - destruct Hx as [<-|[]]. reflexivity.
    - rewrite app_nil_r in Hx. apply in_map_iff in Hx as (? & <- & _). reflexivity. }
  destruct (K n) as (Kf & cw & Kh & Ko).
  destruct (torn_reopen _ cf w (old ++ l0) c A h0 d (snd (crash_at dhandler n (dop_prog cf op) w)) cw hs bs o q s e D Kf Kh Ko Hns) as (w2 & r' & X1 & X2 & X3); try assumption.
  { now rewrite Ec. } { now rewrite Ec. } { now rewrite Ec, Et. } { exact (fits_self _ _ FQ). } { now rewrite Ec, Et. } { exact (fits_ok _ _ FQ OK). } { exact (fits_free _ _ _ _ _ _ FQ Hp). }
  exists w, r, w2, r'. split; [assumption|]. split; [assumption|]. split; [assumption|]. split; [assumption|].
  exact (comes_alike _ _ _ _ _ _ Ar (proj1 (fits_comes _ _ _ _ _ _ FQ) X3)).
Qed.
End CUT.
