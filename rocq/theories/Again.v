(* Proofs about work on a directory that earlier processes have left. *)
From Coq Require Import ZifyBool ZifyNat Permutation Sorted.
From Verif Require Import Rust StringProofs Prog Gorilla GorillaSpec Storage StorageSpec StorageProofs Labels IndexSpec Indexer
  LabelProofs IndexProofs Chunk ChunkSpec ChunkProofs ChunkFacts ConcSpec Conc Utils DirSpec DirProofs TiKvInit Db DbSpec MapProofs
  DbProofs DbHist RangeSpec RangeProofs DbFacts ReopenSpec ReopenProofs LossSpec LossProofs LossDbSpec LossDb FaultsSpec FaultsProofs FaultsMain SwapSpec SwapProofs SwapConc SwapMain ReadsSpec WritersSpec WritersProofs WritersConc WritersMain
  ReadsMay ReadsCrash ReadsConc ReadsFacts SharedSpec SharedLog SharedConc SharedMay SharedMain SharedFacts SharedAck AgainSpec.
Local Notation vok cf := (WritersConc.vok (good cf) fok).

(** ** the chunks there *)
Lemma left_off clock cf : forall L tick n, off_parts clock tick n (once_more L cf) = left_parts clock tick n L ++ [(the_chunk cf (opened_at clock tick n L), [])].
Proof.
  unfold once_more. induction L as [|[x losses] L IH]; intros tick n.
  - cbn [app off_parts lf_cf lf_ops left_parts opened_at hists hists_from survivors hd tl]. unfold after_loss. reflexivity.
  - cbn [app left_parts opened_at]. rewrite <- app_assoc, <- IH. cbn [off_parts]. f_equal. destruct (L ++ [(mkLife cf [], [])]) eqn:E; [|reflexivity]. destruct L; discriminate.
Qed.
Lemma once_last L cf x : List.last (once_more L cf) x = (mkLife cf [], []).
Proof. unfold once_more. apply last_last. Qed.

Lemma live_vok L cf : forall f w tick n last clock, fok f -> lives_ok clock tick n last (map fst (once_more L cf)) -> live_off (once_more L cf) f = Some w -> vok cf w.
Proof.
  unfold once_more. induction L as [|[x losses] L IH]; intros f w tick n last clock Hf HL E.
  - cbn [app live_off lf_cf lf_ops db_after_from] in E. destruct (db_open cf f) as [[[u|e|] w0]|] eqn:Eo; try discriminate. injection E as <-. destruct u. exact (open_vok cf f w0 Hf Eo).
  - cbn [app live_off] in E. destruct (db_open (lf_cf x) f) as [[[u|e|] w0]|] eqn:Eo; try discriminate. destruct u. cbn [app map fst lives_ok] in HL. destruct HL as (_ & _ & _ & _ & Ho & _ & HL).
    destruct (db_after_from (lf_cf x) (lf_ops x) w0) as [[rs w1]|] eqn:Ea; [|discriminate].
    pose proof (after_vok_ok (lf_cf x) (lf_ops x) w0 rs w1 (proj1 (proj2 (proj2 (proj2 (proj2 (proj2 Ho)))))) (open_vok (lf_cf x) f w0 Hf Eo) Ea) as V.
    destruct (L ++ [(mkLife cf [], [])]) as [|y L'] eqn:EL; [destruct L; discriminate|]. eapply IH; [|exact HL|exact E]. exact (v_fs _ _ _ V).
Qed.

Lemma sorted_last (l : list Z) z : StronglySorted Z.lt (l ++ [z]) -> Forall (fun x => x <= z) (l ++ [z]).
Proof.
  induction l as [|x l IH]; cbn [app]; intros H; [constructor; [lia|constructor]|]. inversion H as [|? ? H1 H2]; subst. constructor; [|auto].
  rewrite Forall_forall in H2. assert (In z (l ++ [z])) as Hz by (apply in_app_iff; right; now left). specialize (H2 z Hz). lia.
Qed.
Lemma state_fstate cf w l c A : state cf w (l ++ [(c, A)]) -> fstate cf w (l ++ [(c, A)]) (c_start c).
Proof.
  intros (l0 & c0 & A0 & h0 & d & E & [H1 H2 H3 H4 H5 H6 H7 H8 H9 H10 H11 H12]). apply app_inj_tail in E as [<- E]. injection E as <- <-.
  pose proof H9 as (E1 & E2 & E3 & _). rewrite map_app in H12. pose proof (sorted_last _ _ H12) as SL. cbn [map] in SL.
  assert (Ed: c_start (dc_chunk d) = c_start c) by (destruct H7 as (_ & K & _); first [exact K|now symmetry]).
  exists l, c, A, h0, d. split; [reflexivity|]. constructor; try assumption.
  - apply Forall2_app_inv_r in H11 as (d1 & d2 & _ & F & _). inversion F as [|e ? ? ? K _]; subst. destruct K as (_ & _ & K & _). unfold u64 in K. lia.
  - exact (conj E1 (conj E2 E3)).
  - intros n Hn. unfold names in Hn. assert (SL': Forall (fun x => x <= c_start (dc_chunk d)) (map (fun x => c_start (dc_chunk x)) (h0 ++ [d]))) by (rewrite map_app; exact SL). clear SL. rename SL' into SL. rewrite Ed in SL.
    clear - H11 SL Hn. remember (h0 ++ [d]) as h eqn:Q. clear Q. revert SL. induction H11 as [|e y ds h K F IH]; intros SL; [contradiction|]. cbn [map] in *. inversion SL as [|? ? S1 S2]; subst.
    destruct Hn as [<-|Hn]; [|now apply IH]. destruct K as (K1 & _ & K2 & (en & K3 & K4 & _) & _). exists (c_start (dc_chunk y)), en. rewrite K1. split; [exact K2|]. split; [exact K3|]. split; [lia|exact K4].
Qed.
Lemma failing_fstate fl cf w l hi : fstate cf w l hi -> fstate cf (failing fl w) l hi.
Proof.
  intros (l0 & c & A & h0 & d & E & [H1 H2 H3 H4 H5 H6 H7 H8 H9 H10 H11]). exists l0, c, A, h0, d. split; [exact E|]. constructor; assumption.
Qed.
Lemma failing_vok fl cf w : vok cf w -> vok cf (failing fl w).
Proof. intros [H1 H2 H3 H4 H5 H6]. constructor; assumption. Qed.

(** ** the points there *)
Lemma performed_all ops : performed ops (repeat (Ok tt) (length ops)) = ops.
Proof. induction ops as [|[ls p|ls pts|st] ops IH]; [reflexivity| | |]; cbn [length repeat performed]; now rewrite IH. Qed.
Lemma accepted_in cf start ops i ls p : ops_ok cf start ops -> timely (written ops) -> nth_error ops i = Some (OpPoint ls p) -> nth_error (outcomes cf start ops) i = Some (Ok tt) ->
  exists c ls' pts, In c (parts cf start ops) /\ In (ls', pts) (snd c) /\ same_set ls' ls /\ In p pts.
Proof.
  intros Ho T N O. pose proof (outcomes_nth cf ops start i _ _ N O) as Eo. apply nth_error_split in N as (o1 & o2 & E & Li).
  assert (Ef: firstn i ops = o1) by (rewrite E, firstn_app, <- Li, Nat.sub_diag, firstn_all; cbn; apply app_nil_r). rewrite Ef in Eo.
  pose proof Ho as (_ & _ & _ & _ & _ & Hw & _). rewrite E in Hw, T. change (OpPoint ls p :: o2) with ([OpPoint ls p] ++ o2) in Hw, T. rewrite !written_cat, app_assoc in Hw, T.
  apply Forall_app in Hw as [Hw _]. destruct (stored cf start ls p (Ok tt) o1 (repeat (Ok tt) (length o1)) o2 (repeat (Ok tt) (length o2))) as (j & c & A & ls' & pts & K1 & K2 & K3 & K4 & _).
  - apply repeat_length.
  - exact Hw.
  - exact (timely_mid [] _ _ T).
  - rewrite performed_all. now symmetry.
  - rewrite performed_app in K1 by apply repeat_length. rewrite performed_all in K1. cbn [performed] in K1. rewrite performed_all, <- E in K1. exists (c, A), ls', pts. split; [eapply nth_error_In; exact K1|]. auto.
Qed.
Lemma accepted_left clock ls p : forall L tick n last L0, lives_ok clock tick n last (map fst (L ++ L0)) -> timely (life_written (map fst L)) -> accepted_before clock tick n L ls p ->
  exists c ls' pts, In c (left_parts clock tick n L) /\ In (ls', pts) (snd c) /\ same_set ls' ls /\ In p pts.
Proof.
  induction L as [|[x losses] L IH]; intros tick n last L0 HL T H; [contradiction|]. cbn [map fst lives_ok app left_parts accepted_before] in *. destruct HL as (_ & _ & _ & _ & Ho & _ & HL).
  unfold life_written in T. cbn [map concat] in T. destruct H as [[-> (i & H1 & H2)]|H].
  - destruct (accepted_in _ _ _ _ _ _ Ho (timely_mid [] _ _ T) H1 H2) as (c & ls' & pts & K1 & K2). exists c, ls', pts. split; [|exact K2]. apply in_app_iff. left.
    rewrite survivors_nil by (apply hists_ok; [constructor|apply Ho]). unfold hists. rewrite <- hists_parts. exact K1.
  - rewrite hists_length in H. destruct (IH _ _ _ L0 HL) as (c & ls' & pts & K1 & K2); [|exact H|].
    + apply (timely_mid (written (lf_ops x)) _ []). now rewrite app_nil_r.
    + exists c, ls', pts. split; [|exact K2]. apply in_app_iff. right. rewrite hists_length. exact K1.
Qed.
Lemma survivors_in hs : forall losses c, In c (survivors hs losses) -> exists h a, In (fst c, h) hs /\ snd c = after_loss (fst c) h a.
Proof.
  induction hs as [|[c0 h] hs IH]; intros losses c Hc; [contradiction|]. cbn [survivors] in Hc. destruct Hc as [<-|Hc]; [exists h, (hd O losses); split; [now left|reflexivity]|].
  destruct (IH _ _ Hc) as (h' & a & K1 & K2). exists h', a. split; [now right|exact K2].
Qed.
Lemma hists_seg cf ops : forall start h c h', In (c, h') (hists_from cf start h ops) -> exists a b, h ++ written ops = a ++ h' ++ b.
Proof.
  induction ops as [|[ls p|ls pts|st] ops IH]; intros start h c h' Hin; cbn [hists_from written] in *.
  - destruct Hin as [E|[]]. injection E as _ <-. exists [], []. now rewrite !app_nil_r.
  - destruct (IH _ _ _ _ Hin) as (a & b & E). exists a, b. rewrite <- E, <- app_assoc. reflexivity.
  - destruct (IH _ _ _ _ Hin) as (a & b & E). exists a, b. rewrite <- E, <- app_assoc. reflexivity.
  - destruct Hin as [E|Hin]; [injection E as _ <-; exists [], (written ops); reflexivity|]. destruct (IH _ _ _ _ Hin) as (a & b & E). exists (h ++ a), b. cbn [app] in E. rewrite E, <- app_assoc. reflexivity.
Qed.
Lemma left_from clock : forall L tick n last L0, lives_ok clock tick n last (map fst (L ++ L0)) -> forall c ls pts, In c (left_parts clock tick n L) -> In (ls, pts) (snd c) ->
  (exists p, In (ls, p) (life_written (map fst L))) /\ forall p, In p pts -> c_start (fst c) <= tp_ts p.
Proof.
  induction L as [|[x losses] L IH]; intros tick n last L0 HL c ls pts Hc Hin; [contradiction|]. cbn [map fst lives_ok app left_parts] in *. destruct HL as (_ & _ & _ & _ & Ho & _ & HL).
  apply in_app_or in Hc as [Hc|Hc].
  - pose proof (proj1 (proj2 (proj2 (proj2 (proj2 (proj2 Ho)))))) as Hw. split.
    + destruct (survivors_in _ _ _ Hc) as (h & a & K1 & K2). rewrite K2 in Hin.
      assert (Hh: Forall ireq_ok h) by (pose proof (hists_ok (lf_cf x) (lf_ops x) (clock (tick + n)%nat) [] (Forall_nil _) Hw) as F; rewrite Forall_forall in F; exact (F _ K1)).
      destruct (loss_entry _ _ _ _ _ Hh Hin) as (pts0 & K3 & _). destruct (content_from _ _ _ _ K3) as (p & Hp). exists p.
      destruct (hists_seg _ _ _ _ _ _ K1) as (u & v & E). cbn [app] in E. unfold life_written. cbn [map concat]. apply in_app_iff. left. rewrite E. apply in_app_iff. right. apply in_app_iff. now left.
    + intros p Hp. destruct (survivors_sub _ _ _ _ _ _ Hc Hin Hp) as (h & ls' & pts' & K1 & K2 & K3).
      assert (In (part_of (fst c, h)) (parts (lf_cf x) (clock (tick + n)%nat) (lf_ops x))) as K4 by (unfold parts; rewrite hists_parts; now apply in_map).
      pose proof (parts_in_window _ _ _ _ ls' pts' p Hw K4 K2 K3) as K. unfold in_window in K. cbn [part_of fst] in K. lia.
  - rewrite hists_length in Hc. destruct (IH _ _ _ L0 HL c ls pts Hc Hin) as [(p & Hp) K]. split; [|exact K]. exists p. unfold life_written. cbn [map concat]. apply in_app_iff. now right.
Qed.

(** ** the database just opened *)
Section AGAIN.
  Variables (f : fworld) (L : list (life * list nat)) (cf : config) (w1 : dworld).
  Local Notation clock := (f_clock f).
  Local Notation tick := (f_ticks f).
  Local Notation t0 := (opened_at clock tick 0 L).
  Hypothesis (He : env_ok f) (Hd : empty_dir f) (Hm : monotone clock) (HL : lives_ok clock tick 0 (-1) (map fst (once_more L cf)))
    (Hlive : live_off (once_more L cf) f = Some w1).

  Lemma start_again : exists old, Forall2 reread (left_parts clock tick 0 L) old /\ forall fl, fstate cf (failing fl w1) (old ++ [(the_chunk cf t0, [])]) t0 /\ vok cf (failing fl w1).
  Proof.
    destruct (off_state f (once_more L cf) He Hd Hm HL) as (w & l & cf' & E & St & F & C & Lst); [unfold once_more; destruct L; discriminate|].
    assert (w = w1) as -> by congruence. specialize (C (mkLife cf [], [])). rewrite once_last in C. cbn [fst lf_cf] in C. subst cf'.
    rewrite left_off in F, Lst. apply Forall2_app_inv_l in F as (old & l2 & F1 & F2 & ->). inversion F2 as [|? c' ? ? _ F3]; subst. inversion F3; subst.
    specialize (Lst c'). rewrite !last_last in Lst. subst c'. exists old. split; [exact F1|]. intros fl. split.
    - apply failing_fstate. exact (state_fstate cf w1 old (the_chunk cf t0) [] St).
    - apply failing_vok. eapply live_vok; [|exact HL|exact Hlive]. intros n. apply He.
  Qed.
  Lemma again_ok old : Forall2 reread (left_parts clock tick 0 L) old -> timely (life_written (map fst L)) -> Forall part_ok old.
  Proof.
    intros F T. assert (T': timely (life_written (map fst (once_more L cf)))).
    { unfold once_more, life_written in *. rewrite !map_app, concat_app. cbn. now rewrite app_nil_r. }
    pose proof (off_parts_ok clock (once_more L cf) tick 0 (-1) HL T') as OK. rewrite left_off in OK. apply Forall_app in OK as [OK _]. exact (fits_ok _ _ F OK).
  Qed.

  Theorem shared_again fl ops rs0 starts cs qs w sched : ops_ok cf t0 ops -> db_after_from cf ops (failing fl w1) = Some (rs0, w) -> work_ok cf t0 ops starts cs ->
    timely (life_written (map fst L)) ->
    exists old, Forall2 reread (left_parts clock tick 0 L) old /\
    let at_ n := interleave dhandler (firstn n sched) (WritersSpec.threads cf starts cs qs) w in
    let chunks_of log := old ++ chunks_after cf t0 ops rs0 log in
    exists E, length E = length sched /\
      (forall n i a, nth_error sched n = Some i -> nth_error (fst (at_ n)) i = Some (Ret a) -> nth_error E n = Some []) /\
      (forall n, explains cf starts cs w (at_ n) (logged (firstn n sched) E)) /\
      forall k a n1 n2 rs, let j := S (length cs + k) in
        nth_error qs k = Some [a] -> asks a -> ~ In j (firstn n1 sched) -> nth_error (fst (at_ n2)) j = Some (Ret (Answered rs)) ->
        let before := logged (firstn n1 sched) E in let upto := logged (firstn n2 sched) E in
        unmixed_sets (k_hs a) (chunks_of upto) (k_labels a) -> timely (written (ops ++ map e_op upto)) ->
        exists acked pend r, rs = [r] /\ done_of before acked pend /\
          (forall e, pend = Some e -> exists p, nth_error (fst (at_ n1)) (e_who e) = Some p /\ ~ finished p) /\
          grew (chunks_of acked) (chunks_of upto) /\ sets_once (chunks_of upto) /\
          query_outcome (chunks_of acked) (chunks_of upto) (k_labels a) (k_from a) (k_to a) r.
  Proof.
    intros Ho Ha Hw T. destruct start_again as (old & F & S0). destruct (S0 fl) as [S1 S2]. exists old. split; [exact F|].
    destruct (shared_work_from cf old t0 ops rs0 starts cs qs (failing fl w1) w sched S1 S2 (again_ok old F T) Ho Ha Hw) as (E & E1 & E2 & E3 & E4).
    exists E. split; [exact E1|]. split; [exact E2|]. split; [exact E3|]. intros k a n1 n2 rs j N A Hj Nj before upto Np Tm. exact (E4 k a n1 n2 rs N A Hj Nj Np (or_introl Tm)).
  Qed.

  Theorem acknowledged_again fl ops rs0 starts cs qs w sched k a n1 n2 rs ls p : ops_ok cf t0 ops -> db_after_from cf ops (failing fl w1) = Some (rs0, w) -> work_ok cf t0 ops starts cs ->
    timely (life_written (map fst L)) -> own_series ops cs ->
    let at_ n := fst (interleave dhandler (firstn n sched) (WritersSpec.threads cf starts cs qs) w) in let j := S (length cs + k) in
    nth_error qs k = Some [a] -> asks a -> ~ In j (firstn n1 sched) -> nth_error (at_ n2) j = Some (Ret (Answered rs)) ->
    accepted_before clock tick 0 L ls p \/ acknowledged ops rs0 cs (at_ n1) ls p -> k_labels a <> [] -> incl (k_labels a) ls ->
    only_set ops cs (k_labels a) ls -> (forall r, In r (life_written (map fst L)) -> wanted (k_labels a) (fst r) -> same_set (fst r) ls) -> k_from a <= tp_ts p <= k_to a ->
    exists r ps, rs = [Ok r] /\ In (sort_labels ls, ps) r /\ In p ps.
  Proof.
    intros Ho Ha Hw T Hown at_ j Nk A Hj Nj Hack Hq Hincl H1 H2 Hp. destruct start_again as (old & F & S0). destruct (S0 fl) as [S1 S2].
    apply (acknowledged_from cf old t0 ops rs0 starts cs qs (failing fl w1) w sched k a n1 n2 rs ls p S1 S2 (again_ok old F T) Ho Ha Hw Hown Nk A Hj Nj); try assumption.
    - destruct Hack as [Hack|Hack]; [left|right; exact Hack]. destruct (accepted_left clock ls p L tick 0 (-1) [(mkLife cf [], [])] HL T Hack) as (c & ls' & pts & K1 & K2 & K3 & K4).
      destruct (left_from clock L tick 0 (-1) [(mkLife cf [], [])] HL c ls' pts K1 K2) as [_ K5]. specialize (K5 p K4).
      assert (G: exists c', In c' old /\ reread c c') by (clear - F K1; induction F as [|x y l l' H F IH]; [contradiction|]; destruct K1 as [->|K1]; [exists y; split; [now left|exact H]|destruct (IH K1) as (c' & G1 & G2); exists c'; split; [now right|exact G2]]).
      destruct G as ([c' A'] & G1 & (G2 & G3 & G4)). cbn [fst snd] in *. destruct (G4 _ _ _ K2 K4) as [_ G5]. exists c', A', ls', pts. split; [exact G1|]. split; [now rewrite G2|]. split; [exact K3|]. split; [exact K4|]. lia.
    - intros c x Hc Hx Hwt. destruct (F2_in_r _ _ _ _ F Hc) as (c0 & G1 & (G2 & _)). rewrite G2 in Hx. destruct x as [lx px].
      destruct (left_from clock L tick 0 (-1) [(mkLife cf [], [])] HL c0 lx px G1 Hx) as [(p0 & Hp0) _]. exact (H2 (lx, p0) Hp0 Hwt).
  Qed.

  Theorem faulty_again fl ops : ops_ok cf t0 ops ->
    exists rs w u, db_after_from cf ops (failing fl w1) = Some (rs, w) /\ reported cf t0 ops rs /\
      fl = u ++ f_faults (d_fs w) /\ (~ In true u -> performed ops rs = ops) /\
      forall hs bs o q s e, timely (life_written (map fst L)) -> timely (written ops) -> hasher_ok hs -> bs_contract bs -> Forall lab_ok q ->
        let chunks := left_parts clock tick 0 L ++ parts cf t0 (performed ops rs) in
        unmixed hs chunks q s e -> exists r, drun (db_query hs bs o q s e) w = Some (r, w) /\ comes_to chunks q s e r.
  Proof.
    intros Ho. destruct start_again as (old & F & S0). destruct (S0 fl) as [S1 _]. pose proof Ho as (Hb & H0 & Hsz & Hend & Hs & Hw & HLn).
    destruct (any_from cf ops Hsz t0 t0 [] (failing fl w1) old S1 Hs Hw HLn) as (rs & w & hi & u & E & R & HS & Hh & U & Pf).
    exists rs, w, u. split; [exact E|]. split; [exact R|]. split; [exact U|]. split; [exact Pf|].
    intros hs bs o q s e T0 T Hhs Hbs Hq chunks Hp. rewrite <- (performed_written cf ops t0 rs R) in T.
    assert (FF: Forall2 fits chunks (old ++ parts cf t0 (performed ops rs))).
    { apply Forall2_app; [exact F|]. apply parts_fit. apply (performed_ok cf t0 ops rs R Ho). }
    destruct (query_any hs bs o q s e w _ (fstate_quiet _ _ _ _ HS)) as (r & Er & Ha); try assumption.
    - apply Forall_app. split; [exact (again_ok old F T0)|]. apply parts_ok; [exact (performed_ok cf t0 ops rs R Ho)|exact T].
    - exact (fits_free _ _ _ _ _ _ FF Hp).
    - exists r. split; [exact Er|]. now apply (fits_comes chunks (old ++ parts cf t0 (performed ops rs))).
  Qed.
End AGAIN.
