(* Queries and a swap together, from any history. *)
From Coq Require Import ZifyBool ZifyNat Permutation Sorted.
From Verif Require Import Rust StringProofs Prog Gorilla GorillaSpec Storage StorageSpec StorageProofs Labels IndexSpec Indexer
  LabelProofs IndexProofs Chunk ChunkSpec ChunkProofs ChunkFacts Conc Utils DirSpec DirProofs TiKvInit Db DbSpec MapProofs
  DbProofs DbHist RangeSpec RangeProofs DbFacts SwapSpec SwapProofs SwapConc.

(** ** assembling the answer, from any list of chunks *)
Lemma assembled_answer hs bs q s e l0 c : Forall part_ok (l0 ++ [c]) -> hasher_ok hs -> bs_contract bs -> s <= e ->
  unmixed hs (l0 ++ [c]) q s e ->
  exists r, assembled hs (okl (ans bs q s e c)) (map (fun c => okl (ans bs q s e c)) (rev l0)) = Ok r /\ db_answer (l0 ++ [c]) q s e r.
Proof.
  intros Hl Hh Hb Hse Hp. set (l := l0 ++ [c]) in *.
  assert (HA: forall c, In c l -> ans bs q s e c = query_spec (fst c) (snd c) q s e /\ part_ok c).
  { intros x Hx. rewrite Forall_forall in Hl. pose proof (Hl x Hx) as P. split; [|exact P].
    apply ans_query; [assumption|apply P|assumption]. }
  set (U := fun m => exists c, In c l /\ piece c q s e m <> []).
  assert (WA: forall c, In c l -> wfa U (okl (ans bs q s e c)) /\ forall m, pf m (okl (ans bs q s e c)) = piece c q s e m).
  { intros x Hx. destruct (HA x Hx) as [Ex P]. rewrite Ex. destruct (okl_spec x q s e P Hse) as (_ & N & F & G).
    split; [|exact G]. constructor; [exact N| |exact F]. rewrite Forall_forall in *. intros y Hy. exists x. split; [assumption|].
    rewrite <- G. unfold pf. destruct (find (fun z => labs_eqb (s_meta z) (s_meta y)) (okl (query_spec (fst x) (snd x) q s e))) as [z|] eqn:Z.
    - apply find_some in Z as [Z _]. now apply F.
    - apply (find_none _ _ Z) in Hy. now rewrite labs_eqb_refl in Hy. }
  destruct (assembled_spec U hs Hp Hh (okl (ans bs q s e c)) (map (fun c => okl (ans bs q s e c)) (rev l0))) as (r & Er & N & _ & M).
  { apply WA. apply in_app_iff. right. now left. }
  { rewrite Forall_forall. intros y Hy. apply in_map_iff in Hy as (z & <- & Hz). apply WA. apply in_app_iff. left.
    now apply in_rev. }
  exists r. split; [exact Er|]. split; [exact N|]. intros m pts. rewrite M.
  replace (concat (map (pf m) (rev (okl (ans bs q s e c) :: map (fun c => okl (ans bs q s e c)) (rev l0)))))
    with (concat (map (fun c => piece c q s e m) l)); [reflexivity|].
  f_equal. cbn [rev]. rewrite map_app, <- map_rev, rev_involutive, map_map. unfold l. rewrite map_app. cbn [map]. f_equal.
  - apply map_ext_in. intros x Hx. symmetry. apply WA. apply in_app_iff. now left.
  - f_equal. symmetry. apply WA. apply in_app_iff. right. now left.
Qed.
Lemma free_same hs l l' q s e : (forall x, In x l' -> In x l) -> unmixed hs l q s e -> unmixed hs l' q s e.
Proof. intros H. apply unmixed_less. eauto. Qed.
Lemma twice_app l c : twice_last (l ++ [c]) = (l ++ [c]) ++ [c].
Proof. unfold twice_last. rewrite rev_app_distr. reflexivity. Qed.
Lemma empty_part_ok ch : part_ok (ch, []).
Proof. constructor; [constructor; [constructor|constructor|]; intros [|i] j a b E; discriminate|constructor|cbn; lia]. Qed.

(* what a query that returns says *)
Definition says (l : list part) (a : ask) (x : danswer) : Prop :=
  exists r, x = Asked (Ok r) /\
    (db_answer l (k_labels a) (k_from a) (k_to a) r \/ db_answer (twice_last l) (k_labels a) (k_from a) (k_to a) r).

Lemma asking_qwp hb old s0 l0 c ch a : Forall plain hb -> Forall2 (holds hb) s0 l0 -> holds hb old c -> holds hb (S old) (ch, []) ->
  Forall part_ok (l0 ++ [c]) -> ask_ok (l0 ++ [c]) a -> qwp hb old s0 (asking a) 0 false false (says (l0 ++ [c]) a).
Proof.
  intros Hp H1 H2 H3 Hok (A1 & A2 & A3 & A4 & A5). unfold asking.
  assert (NP: forall x, part_ok x -> ans (k_bs a) (k_labels a) (k_from a) (k_to a) x <> Panic).
  { intros x Px. rewrite ans_query by (try assumption; apply Px). apply (okl_spec x _ _ _ Px A4). }
  apply (query_qwp hb old s0 Hp l0 c (ch, []) H1 H2 H3); [assumption| |].
  - rewrite Forall_forall in *. intros x Hx. apply NP. apply in_app_or in Hx as [Hx|[<-|[<-|[]]]].
    + apply Hok. apply in_app_iff. now left.
    + apply Hok. apply in_app_iff. right. now left.
    + apply empty_part_ok.
  - intros j1 j2 L. cbn [qwp]. split; [reflexivity|]. split; [reflexivity|]. unfold says. unfold cpart, lparts.
    destruct (j2 =? 0)%nat eqn:E2; [replace (j1 <=? 1)%nat with true by lia|destruct (j1 <=? 1)%nat eqn:E1].
    + destruct (assembled_answer (k_hs a) (k_bs a) (k_labels a) (k_from a) (k_to a) l0 c) as (r & -> & R); try assumption. exists r. auto.
    + destruct (assembled_answer (k_hs a) (k_bs a) (k_labels a) (k_from a) (k_to a) (l0 ++ [c]) c) as (r & -> & R); try assumption.
      * apply Forall_app. split; [assumption|]. apply Forall_app in Hok. apply Hok.
      * eapply free_same; [|exact A5]. intros x Hx. apply in_app_or in Hx as [Hx|[<-|[]]]; [assumption|]. apply in_app_iff. right. now left.
      * exists r. split; [reflexivity|]. right. now rewrite twice_app.
    + destruct (assembled_answer (k_hs a) (k_bs a) (k_labels a) (k_from a) (k_to a) (l0 ++ [c]) (ch, [])) as (r & -> & R); try assumption.
      * apply Forall_app. split; [assumption|]. constructor; [apply empty_part_ok|constructor].
      * now apply free_empty.
      * exists r. split; [reflexivity|]. left. exact (proj1 (answer_empty _ _ _ _ _ _) R).
Qed.

Lemma all_start hb old s0 cf start qs l w R : inv hb old s0 0 w -> swp hb old s0 (swapping cf start) 0 w false ->
  rw_readers (d_curl w) = 0%nat -> rw_readers (d_secl w) = 0%nat ->
  Forall (fun a => qwp hb old s0 (asking a) 0 false false (says l a)) qs -> run dhandler (swapping cf start) w = R ->
  all_ok hb old s0 (map (says l) qs) R (swapping cf start :: map asking qs) w.
Proof.
  intros I0 Sw E1 E2 F ER. set (items := map (fun a => (asking a, (false, false))) qs).
  assert (T1: total_c items = 0%nat) by (apply sum_zero; intros x Hx; apply in_map_iff in Hx as (a & <- & _); reflexivity).
  assert (T2: total_s items = 0%nat) by (apply sum_zero; intros x Hx; apply in_map_iff in Hx as (a & <- & _); reflexivity).
  assert (W0: with_readers w 0 0 = w) by (rewrite <- (with_self w) at 2; now rewrite E1, E2).
  refine (mkAll hb old s0 _ R _ w items (swapping cf start) 0%nat w false _ _ I0 _ Sw _).
  - f_equal. unfold items. rewrite map_map. reflexivity.
  - rewrite T1, T2. cbn [b2n Nat.add]. now rewrite W0.
  - unfold items. clear - F. induction F as [|a qs H F IH]; constructor; [exact H|exact IH].
  - cbn [b2n]. now rewrite W0.
Qed.
Lemma all_swapped hb old s0 Qs x0 w0 ts w x : all_ok hb old s0 Qs (Some (x0, w0)) ts w -> nth_error ts 0 = Some (Ret x) -> x = x0.
Proof.
  intros [items sp j ws a -> Ew I0 Fq Sw Rn] N. cbn [nth_error] in N. assert (sp = Ret x) as -> by congruence. cbn [run] in Rn. congruence.
Qed.

Theorem swap_interleaved cf f ops st qs : env_ok f -> empty_dir f ->
  let t0 := f_clock f (f_ticks f) in let l := parts cf t0 ops in
  ops_ok cf t0 (ops ++ [OpSwap st]) -> timely (written ops) -> Forall (ask_ok l) qs ->
  exists rs w w1, db_after cf f ops = Some (rs, w) /\ drun (db_swap cf st) w = Some (Ok tt, w1) /\
  forall sched ts w', interleave dhandler sched (swapping cf st :: map asking qs) w = (ts, w') ->
    (forall x, nth_error ts 0 = Some (Ret x) -> x = Swapped (Ok tt)) /\
    (forall i a x, nth_error qs i = Some a -> nth_error ts (S i) = Some (Ret x) -> says l a x) /\
    ((forall p, In p ts -> finished p) -> w' = w1) /\
    ((forall p, In p ts -> step dhandler p w' = None) -> forall p, In p ts -> finished p).
Proof.
  intros He Hd t0 l Ho T Hq. pose proof Ho as (K1 & K2 & K3 & K4 & K5 & K6 & K7). rewrite written_swap in *.
  assert (K8: starts_ok cf t0 ops /\ last_start t0 ops < st /\ st + cf_size cf < 2 ^ 64).
  { clear - K5. revert K5. generalize t0. induction ops as [|[? ?|? ?|?] ops IH]; intros t; cbn [app starts_ok last_start]; [tauto|auto|auto|].
    intros (A & B & C). destruct (IH _ C) as (D & E & F). auto. }
  destruct K8 as (K8 & K9 & K10).
  assert (Ho': ops_ok cf t0 ops) by (repeat split; assumption).
  destruct (history cf f ops He Hd Ho') as (w & E0 & HS). fold t0 in E0, HS. fold l in HS.
  assert (LP: forall t h, exists l0 A, parts_from cf t h ops = l0 ++ [(the_chunk cf (last_start t ops), A)]).
  { clear. induction ops as [|[ls p|ls pts|st'] ops IH]; intros t h; cbn [parts_from last_start].
    - exists []. eexists. reflexivity.
    - apply IH.
    - apply IH.
    - destruct (IH st' []) as (l0 & A & ->). exists ((the_chunk cf t, content_of (the_chunk cf t) h) :: l0). eexists. reflexivity. }
  destruct (LP t0 []) as (l0 & A & EP). change (parts_from cf t0 [] ops) with l in EP.
  assert (HS': state cf w (l0 ++ [(the_chunk cf (last_start t0 ops), A)])) by now rewrite <- EP.
  destruct (swap_run cf w l0 _ A st HS' K9 K3 K10) as (w1 & E3 & _).
  exists (outcomes cf t0 ops), w, w1. split; [exact E0|]. split; [exact E3|].
  assert (Hok: Forall part_ok l) by now apply parts_ok.
  destruct HS' as (l1 & c1 & A1 & h0 & d & E & D). apply app_inj_tail in E. destruct E as [<- E].
  assert (c1 = the_chunk cf (last_start t0 ops)) as -> by congruence. assert (A1 = A) as -> by congruence. clear E.
  set (c := (the_chunk cf (last_start t0 ops), A)) in *.
  pose proof D as [H1 H2 H3 H4 H5 H6 H7 H8 H9 H10 H11 H12].
  assert (U: forall x, In x (h0 ++ [d]) -> 0 <= c_start (dc_chunk x) /\ c_start (dc_chunk x) < st).
  { intros x Hx. destruct H7 as (_ & E2 & _). cbn [the_chunk c_start] in E2. split.
    - clear - H11 Hx. revert Hx. induction H11 as [|e y ds hs K1 K2 IH]; [contradiction|]. intros [<-|Hx]; [|now apply IH].
      destruct K1 as (_ & _ & U & _). unfold u64 in U. lia.
    - rewrite map_app in H12. cbn [map] in H12. apply in_app_or in Hx as [Hx|[<-|[]]]; [|lia].
      pose proof (sorted_last _ _ H12 (c_start (dc_chunk x))) as L. rewrite in_map_iff in L. specialize (L ltac:(eauto)). lia. }
  assert (S0: 0 <= st) by (pose proof (U d ltac:(apply in_or_app; right; now left)); lia).
  assert (FR: ~ In (encode_chunk_dir st (st + cf_size cf)) (map fst (f_dirs (d_fs w)))).
  { apply (fresh_name cf _ (h0 ++ [d])); [assumption|unfold u64; lia|unfold u64; lia|]. intros x Hx. pose proof (U x Hx). lia. }
  destruct (create_run cf st (d_fs w) H9 S0 K3 K10 FR) as (nd & f' & o & R & N1 & N2 & N3 & _).
  assert (HR: hrel (h0 ++ [d; nd]) (l0 ++ [c; (the_chunk cf st, [])])).
  { apply Forall2_app; [exact H6|]. constructor; [split; [exact H7|now apply crep_crd]|]. constructor; [|constructor]. split; [exact N2|now apply crep_crd]. }
  assert (HP: Forall plain (h0 ++ [d; nd])).
  { clear - HR. induction HR as [|x y a b [_ Hx] F IH]; constructor; [|exact IH]. destruct Hx. split; [assumption|]. split; assumption. }
  assert (LH: length h0 = length l0) by (apply hrel_length; exact H6).
  assert (HH: forall i x, nth_error (l0 ++ [c; (the_chunk cf st, [])]) i = Some x -> holds (h0 ++ [d; nd]) i x).
  { intros i x N. destruct (hrel_nth _ _ HR i x N) as (y & Ny & Y1 & Y2). exists y. split; [exact Ny|]. split; [exact Y1|]. split; [exact Y2|].
    assert (In x (l ++ [(the_chunk cf st, [])])) as Hx. { rewrite EP, <- app_assoc. eapply nth_error_In. exact N. }
    apply in_app_or in Hx as [Hx|[<-|[]]]; [|apply empty_part_ok]. rewrite Forall_forall in Hok. now apply Hok. }
  assert (HS0: Forall2 (holds (h0 ++ [d; nd])) (seq 0 (length h0)) l0).
  { rewrite LH. assert (G: forall k m, (forall i x, nth_error m i = Some x -> holds (h0 ++ [d; nd]) (k + i) x) -> Forall2 (holds (h0 ++ [d; nd])) (seq k (length m)) m).
    { intros k m. revert k. induction m as [|x m IH]; intros k Hm; [constructor|]. cbn [length seq]. constructor.
      - rewrite <- (Nat.add_0_r k). now apply Hm.
      - apply IH. intros i y Ny. rewrite Nat.add_succ_comm. now apply Hm. }
    apply G. intros i x N. apply HH. cbn [Nat.add]. rewrite nth_error_app1; [exact N|]. apply nth_error_Some. intros X. pose proof (eq_trans (eq_sym X) N). discriminate. }
  assert (HC: holds (h0 ++ [d; nd]) (length h0) c).
  { apply HH. rewrite LH, nth_error_app2, Nat.sub_diag by lia. reflexivity. }
  assert (HN: holds (h0 ++ [d; nd]) (S (length h0)) (the_chunk cf st, [])).
  { apply HH. rewrite LH, nth_error_app2 by lia. now replace (S (length l0) - length l0)%nat with 1%nat by lia. }
  destruct (swap_swp cf w h0 d nd f' st H1 H2 H3 H4 H5 R HP) as [I0 Sw].
  assert (RS: run dhandler (swapping cf st) w = Some (Swapped (Ok tt), w1)).
  { unfold swapping. rewrite run_bind. unfold drun in E3. rewrite E3. reflexivity. }
  intros sched ts w' EI.
  assert (FQ: Forall (fun a => qwp (h0 ++ [d; nd]) (length h0) (seq 0 (length h0)) (asking a) 0 false false (says l a)) qs).
  { rewrite Forall_forall in Hq |- *. intros a Ha. specialize (Hq a Ha). rewrite EP in Hq, Hok |- *.
    exact (asking_qwp _ _ _ l0 c _ a HP HS0 HC HN Hok Hq). }
  assert (AL: all_ok (h0 ++ [d; nd]) (length h0) (seq 0 (length h0)) (map (says l) qs) (Some (Swapped (Ok tt), w1)) ts w').
  { apply (all_interleave _ _ _ _ _ sched _ _ _ _ (all_start _ _ _ cf st qs l w _ I0 Sw ltac:(rewrite H4; reflexivity) ltac:(rewrite H5; reflexivity) FQ RS) EI). }
  split; [intros x N; exact (all_swapped _ _ _ _ _ _ _ _ _ AL N)|]. split; [|split].
  - intros i a x NQ N. refine (all_asked _ _ _ _ _ _ _ i (says l a) x AL _ N). now rewrite nth_error_map, NQ.
  - intros FI. destruct (all_idle _ _ _ _ _ _ _ AL) as (p & ws & b & N & Ew & Er).
    { intros i p N. apply FI. eapply nth_error_In. exact N. }
    destruct (FI p) as [x ->]; [eapply nth_error_In; exact N|]. cbn [run] in Er. congruence.
  - intros ST p Hp. apply In_nth_error in Hp as (i & N). refine (all_progress _ _ _ _ _ _ _ AL _ i p N).
    intros k y Ny. apply ST. eapply nth_error_In. exact Ny.
Qed.

(** ** the points of the answers *)
Lemma has_twice l q s e r r' m p : l <> [] -> db_answer l q s e r -> db_answer (twice_last l) q s e r' -> (has_point r m p <-> has_point r' m p).
Proof.
  intros Hl [N1 H1] [N2 H2]. destruct (exists_last Hl) as (l0 & c & ->). rewrite twice_app in H2.
  set (P := concat (map (fun c => piece c q s e m) (l0 ++ [c]))) in *.
  set (P' := concat (map (fun c => piece c q s e m) ((l0 ++ [c]) ++ [c]))) in *.
  assert (I: forall x, In x P <-> In x P').
  { intros x. unfold P, P'. rewrite (map_app _ (l0 ++ [c])), concat_app, in_app_iff. split; [now left|]. intros [H|H]; [exact H|].
    rewrite map_app, concat_app, in_app_iff. right. exact H. }
  split; intros (pts & Hin & Hp).
  - apply H1 in Hin as [NE ->]. fold P in Hp. exists P'. rewrite H2. assert (In p P') by now apply I. split; [|assumption]. split; [|reflexivity].
    destruct P'; [contradiction|discriminate].
  - apply H2 in Hin as [NE ->]. fold P' in Hp. exists P. rewrite H1. assert (In p P) by now apply I. split; [|assumption]. split; [|reflexivity].
    destruct P; [contradiction|discriminate].
Qed.
Lemma parts_nonempty cf ops : forall t h, parts_from cf t h ops <> [].
Proof. induction ops as [|[? ?|? ?|?] ops IH]; intros t h; cbn [parts_from]; try discriminate; apply IH. Qed.
Theorem swap_points cf f ops st qs : env_ok f -> empty_dir f ->
  let t0 := f_clock f (f_ticks f) in let l := parts cf t0 ops in
  ops_ok cf t0 (ops ++ [OpSwap st]) -> timely (written ops) -> Forall (ask_ok l) qs ->
  exists rs w, db_after cf f ops = Some (rs, w) /\
  forall sched ts w' i a x, interleave dhandler sched (swapping cf st :: map asking qs) w = (ts, w') ->
    nth_error qs i = Some a -> nth_error ts (S i) = Some (Ret x) ->
    exists r r0, x = Asked (Ok r) /\ drun (asking a) w = Some (Asked (Ok r0), w) /\ forall m p, has_point r m p <-> has_point r0 m p.
Proof.
  intros He Hd t0 l Ho T Hq.
  assert (Ho': ops_ok cf t0 ops).
  { destruct Ho as (K1 & K2 & K3 & K4 & K5 & K6 & K7). rewrite written_swap in *. repeat split; try assumption.
    clear - K5. revert K5. generalize t0. induction ops as [|[? ?|? ?|?] ops IH]; intros t; cbn [app starts_ok]; [tauto|auto|auto|].
    intros (A & B & C). auto. }
  destruct (swap_interleaved cf f ops st qs He Hd Ho T Hq) as (rs & w & w1 & E1 & E2 & H). fold t0 in H. fold l in H.
  exists rs, w. split; [exact E1|]. intros sched ts w' i a x EI NQ N. destruct (H sched ts w' EI) as (_ & HA & _).
  destruct (HA i a x NQ N) as (r & -> & HR).
  assert (AO: ask_ok l a) by (rewrite Forall_forall in Hq; apply Hq; eapply nth_error_In; exact NQ).
  destruct AO as (A1 & A2 & A3 & A4 & A5).
  destruct (db_refines cf f (k_hs a) (k_bs a) (k_timing a) ops (k_labels a) (k_from a) (k_to a) He Hd Ho' T A1 A2 A3 A4 A5) as (w0 & r0 & E3 & E4 & HR0).
  assert (w0 = w) as -> by congruence. exists r, r0. split; [reflexivity|]. split.
  { unfold drun, asking in *. rewrite run_bind, E4. reflexivity. }
  intros m p. fold t0 in HR0. fold l in HR0. destruct HR as [HR|HR].
  - pose proof (answer_unique _ _ _ _ _ _ HR HR0) as P. unfold has_point. split; intros (pts & Hin & Hp); exists pts; (split; [|exact Hp]).
    + eapply Permutation_in; [exact P|exact Hin].
    + eapply Permutation_in; [apply Permutation_sym; exact P|exact Hin].
  - symmetry. apply (has_twice l (k_labels a) (k_from a) (k_to a)); [apply parts_nonempty|assumption|assumption].
Qed.

(** ** everybody can finish *)
Section FINISH.
  Context {C : Type -> Type} {W A : Type} (h : handler C W).
  Definition sub (ts' ts : list (prog C A)) : Prop :=
    exists i X (c : C X) k x, nth_error ts i = Some (Do c k) /\ ts' = upd ts i (k x).
  Lemma sub_acc ts : Acc sub ts.
  Proof.
    induction ts as [|p ts IH].
    - constructor. intros y (i & X & c & k & x & N & _). destruct i; discriminate.
    - revert ts IH. induction p as [a|X c k IHp]; intros ts HT.
      + induction HT as [ts H IH]. constructor. intros y (i & X & c & k & x & N & ->). destruct i as [|i]; [discriminate|].
        rewrite upd_cons. apply IH. exists i, X, c, k, x. auto.
      + induction HT as [ts H IH]. constructor. intros y (i & Y & c' & k' & x & N & ->). destruct i as [|i].
        * cbn [nth_error] in N. unfold upd. cbn [firstn skipn app].
          assert (E: exists x', k' x = k x').
          { clear - N. assert (E: Do c k = Do c' k') by congruence. clear N. revert x. 
            refine (match E in _ = q return match q with Do c2 k2 => forall x, exists x', k2 x = k x' | Ret _ => True end with eq_refl => _ end).
            intros x. exists x. reflexivity. }
          destruct E as (x' & ->). apply IHp. constructor. exact H.
        * rewrite upd_cons. apply IH. exists i, Y, c', k', x. auto.
  Qed.
  Lemma stuck_dec w (ts : list (prog C A)) : (forall p, In p ts -> step h p w = None) \/ exists i p p' w', nth_error ts i = Some p /\ step h p w = Some (p', w').
  Proof.
    induction ts as [|p ts IH]; [left; contradiction|]. destruct (step h p w) as [[p' w']|] eqn:E.
    - right. exists 0%nat, p, p', w'. auto.
    - destruct IH as [IH|(i & q & q' & w' & N & St)].
      + left. intros q [<-|Hq]; auto.
      + right. exists (S i), q, q', w'. auto.
  Qed.
  Lemma finishes (P : list (prog C A) -> W -> Prop) (F : prog C A -> Prop) :
    (forall ts w i p p' w', P ts w -> nth_error ts i = Some p -> step h p w = Some (p', w') -> P (upd ts i p') w') ->
    (forall ts w, P ts w -> (forall p, In p ts -> step h p w = None) -> forall p, In p ts -> F p) ->
    forall ts w, P ts w -> exists sched, forall p, In p (fst (interleave h sched ts w)) -> F p.
  Proof.
    intros HS HF ts. induction (sub_acc ts) as [ts _ IH]. intros w HP.
    destruct (stuck_dec w ts) as [St|(i & p & p' & w' & N & St)].
    - exists []. cbn [interleave fst]. apply (HF ts w HP St).
    - destruct (IH (upd ts i p')) with (w := w') as (sched & H).
      + destruct p as [a|X c k]; [discriminate|]. cbn [step] in St. destruct (h X c w) as [[x w2]|]; [|discriminate].
        exists i, X, c, k, x. split; [exact N|]. congruence.
      + exact (HS _ _ _ _ _ _ HP N St).
      + exists (i :: sched). cbn [interleave]. rewrite N, St. exact H.
  Qed.
End FINISH.
Lemma interleave_app {C W A} (h : handler C W) s1 s2 : forall (ts : list (prog C A)) w,
  interleave h (s1 ++ s2) ts w = let '(ts', w') := interleave h s1 ts w in interleave h s2 ts' w'.
Proof.
  induction s1 as [|i s1 IH]; intros ts w; [reflexivity|]. cbn [app interleave]. destruct (nth_error ts i) as [p|]; [|apply IH].
  destruct (step h p w) as [[p' w']|]; apply IH.
Qed.

Theorem swap_finishes cf f ops st qs : env_ok f -> empty_dir f ->
  let t0 := f_clock f (f_ticks f) in
  ops_ok cf t0 (ops ++ [OpSwap st]) -> timely (written ops) -> Forall (ask_ok (parts cf t0 ops)) qs ->
  exists rs w, db_after cf f ops = Some (rs, w) /\
  forall sched, exists more, forall p, In p (fst (interleave dhandler (sched ++ more) (swapping cf st :: map asking qs) w)) -> finished p.
Proof.
  intros He Hd t0 Ho T Hq. destruct (swap_interleaved cf f ops st qs He Hd Ho T Hq) as (rs & w & w1 & E1 & E2 & H).
  exists rs, w. split; [exact E1|]. intros sched. set (start := swapping cf st :: map asking qs) in *.
  destruct (interleave dhandler sched start w) as [ts0 w0] eqn:E0.
  destruct (finishes dhandler (fun ts w' => exists s, interleave dhandler s start w = (ts, w')) finished) with (ts := ts0) (w := w0) as (more & HM).
  - intros ts w2 i p p' w' (s & Es) N St. exists (s ++ [i]). rewrite interleave_app, Es. cbn [interleave]. now rewrite N, St.
  - intros ts w2 (s & Es) St. destruct (H s ts w2 Es) as (_ & _ & _ & HP). exact (HP St).
  - exists sched. exact E0.
  - exists more. rewrite interleave_app, E0. exact HM.
Qed.
