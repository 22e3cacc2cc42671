(* What queries answer after an insert was stopped part way and the chunk was started again. *)
From Coq Require Import ZifyBool ZifyNat Permutation.
From Verif Require Import Rust StringProofs Prog Gorilla GorillaSpec Storage StorageSpec StorageProofs Labels Indexer IndexSpec
  LabelProofs IntersectProofs IndexProofs IndexHist Chunk ChunkSpec ChunkProofs ChunkFacts ConcSpec Conc CrashProofs ReadsSpec ReadsMay ReadsCrash
  ReadsFacts ReadsConc Flush LossSpec FlushProofs LossProofs StopSpec.
Ltac Zify.zify_post_hook ::= Z.div_mod_to_equations.

(** ** the index is written before the points *)
Definition ix_quiet ch X (c : ccmd X) : Prop := forall w x w', chandler ch X c w = Some (x, w') -> w_ix w' = w_ix w.
Inductive points_only ch {A} : prog ccmd A -> Prop :=
| P_ret a : points_only ch (Ret a)
| P_do X c k : ix_quiet ch X c -> (forall x, points_only ch (k x)) -> points_only ch (Do c k).
(* no change of the index after one of the point store *)
Inductive ordered ch {A} : prog ccmd A -> Prop :=
| Or_points p : points_only ch p -> ordered ch p
| Or_do X c k : st_quiet ch X c -> (forall x, ordered ch (k x)) -> ordered ch (Do c k).

Lemma points_crash ch {A} (p : prog ccmd A) : points_only ch p -> forall n w, w_ix (snd (crash_at (chandler ch) n p w)) = w_ix w.
Proof.
  induction 1 as [a|X c k Q H IH]; intros [|n] w; try reflexivity. cbn [crash_at].
  destruct (chandler ch X c w) as [[x w']|] eqn:E; [|reflexivity]. rewrite IH. eapply Q. exact E.
Qed.
Lemma points_run ch {A} (p : prog ccmd A) : points_only ch p -> forall w a w', run (chandler ch) p w = Some (a, w') -> w_ix w' = w_ix w.
Proof.
  induction 1 as [a|X c k Q H IH]; intros w r w' E; cbn [run] in E; [congruence|].
  destruct (chandler ch X c w) as [[x w2]|] eqn:F; [|discriminate]. rewrite (IH _ _ _ _ E). eapply Q. exact F.
Qed.
Lemma ordered_crash ch {A} (p : prog ccmd A) : ordered ch p -> forall n w a w1, run (chandler ch) p w = Some (a, w1) ->
  w_st (snd (crash_at (chandler ch) n p w)) = w_st w \/ w_ix (snd (crash_at (chandler ch) n p w)) = w_ix w1.
Proof.
  induction 1 as [p H|X c k Q H IH]; intros n w a w1 E.
  - right. rewrite points_crash by assumption. symmetry. eapply points_run; eassumption.
  - destruct n as [|n]; [now left|]. cbn [crash_at run] in *. destruct (chandler ch X c w) as [[x w2]|] eqn:F; [|now left].
    rewrite <- (Q _ _ _ F). eapply IH. exact E.
Qed.
Lemma points_bind ch {A B} (p : prog ccmd A) (f : A -> prog ccmd B) : points_only ch p -> (forall a, points_only ch (f a)) -> points_only ch (bind p f).
Proof. intros H F. induction H as [a|X c k Q H IH]; [apply F|]. constructor; [assumption|]. intros x. apply IH. Qed.
Lemma ordered_bind ch {A B} (p : prog ccmd A) (f : A -> prog ccmd B) : silent ch p -> (forall a, ordered ch (f a)) -> ordered ch (bind p f).
Proof. intros H F. induction H as [a|X c k Q H IH]; [apply F|]. apply Or_do; [assumption|]. intros x. apply IH. Qed.
Lemma ordered_then ch {A B} (p : prog ccmd A) (f : A -> prog ccmd B) : ordered ch p -> (forall a, points_only ch (f a)) -> ordered ch (bind p f).
Proof.
  intros H F. induction H as [p H|X c k Q H IH].
  - apply Or_points. now apply points_bind.
  - apply Or_do; [assumption|]. intros x. apply IH.
Qed.
Lemma st_points ch {A} (p : prog kcmd A) : points_only ch (lift (@CSt) p).
Proof.
  induction p as [a|X c k IH]; cbn [lift]; constructor; [|assumption]. intros w x w' E. unfold chandler in E.
  destruct (kv_fault_handler _ X c (w_st w, w_faults w)) as [[y [s fs]]|]; [|discriminate].
  assert (w' = set_st w s fs) as -> by congruence. reflexivity.
Qed.
Lemma unlock_quiet ch b : ix_quiet ch _ (CWriteUnlock b).
Proof. intros w x w' E. cbn in E. assert (w' = set_lock w false (w_poisoned w || b)) as -> by congruence. reflexivity. Qed.
Lemma insert_ordered ch ls p : ordered ch (chunk_insert ch ls p).
Proof.
  assert (Si: forall r : res unit, points_only ch (Ret r)) by (intros; constructor).
  assert (So: forall r : res unit, ordered ch (Ret r)) by (intros; apply Or_points; constructor).
  assert (Ca: forall X (c : ccmd X), st_quiet ch X c -> silent ch (call c)) by (intros X c Q; constructor; [assumption|intros; constructor]).
  assert (Un: forall b, points_only ch (call (CWriteUnlock b))) by (intros b; constructor; [apply unlock_quiet|intros; constructor]).
  pose proof (fun b => lock_quiet ch b) as LQ.
  unfold chunk_insert, with_write_lock. apply ordered_bind; [apply Ca, (LQ true)|]. intros [|].
  - apply Or_points, points_bind; [apply Un|]. intros _. apply Si.
  - apply ordered_then.
    + unfold insert_body. destruct (negb _); [apply So|]. unfold qbind at 1. apply ordered_bind; [apply ix_silent|].
      intros [[id|]|e|]; try apply So.
      * apply Or_points, points_bind; [apply st_points|]. intros r. apply Si.
      * apply ordered_bind; [apply Ca, (LQ true)|]. intros id. unfold qbind at 1. apply ordered_bind; [apply ix_silent|].
        intros [u|e|]; try apply So. unfold qbind. apply Or_points, points_bind; [apply st_points|]. intros [x|e|]; apply Si.
    + intros r. apply points_bind; [apply Un|]. intros _. apply Si.
Qed.

(** ** contents *)
Lemma add_cases st A ls p : (exists e, In e A /\ same_setb (fst e) ls = true) /\ map fst (add_point st A ls p) = map fst A \/
  (forall e, In e A -> same_setb (fst e) ls = false) /\ add_point st A ls p = A ++ [(ls, [p])].
Proof.
  induction A as [|[l q] A IH]; [right; split; [intros ? []|reflexivity]|]. cbn [add_point]. destruct (same_setb l ls) eqn:Q.
  - left. split; [exists (l, q); split; [now left|exact Q]|reflexivity].
  - destruct IH as [[(e & He & Qe) E]|[N E]].
    + left. split; [exists e; split; [now right|assumption]|]. cbn [map fst]. now rewrite E.
    + right. split; [intros e [<-|He]; auto|]. rewrite E. reflexivity.
Qed.
Lemma cut_labels C A B : map fst A = map fst B -> cut C A = cut C B.
Proof.
  revert B. induction A as [|a A IH]; intros [|b B] E; try discriminate; [reflexivity|]. cbn [cut map] in *.
  injection E as E1 E2. rewrite E1. f_equal. apply IH. exact E2.
Qed.
Lemma nth_same {X} (a : list X) : forall b, (forall i, nth_error a i = nth_error b i) -> a = b.
Proof.
  induction a as [|x a IH]; intros [|y b] H; [reflexivity|specialize (H O); discriminate..|].
  pose proof (H O) as H0. cbn in H0. injection H0 as ->. f_equal. apply IH. intros i. exact (H (S i)).
Qed.
Lemma cut_self A : wfc A -> cut A A = A.
Proof.
  intros W. apply nth_same. intros i. rewrite cut_nth. destruct (nth_error A i) as [[l p]|] eqn:H; [|reflexivity]. cbn [option_map fst].
  pose proof (points_at A A i (l, p) (grown_refl A) W H) as P. cbn [fst] in P. now rewrite P, H.
Qed.

Lemma cut_new A ls p : wfc A -> (forall e, In e A -> same_setb (fst e) ls = false) -> cut A (A ++ [(ls, [p])]) = A ++ [(ls, [])].
Proof.
  intros W N. unfold cut. rewrite map_app. fold (cut A A). rewrite cut_self by assumption. cbn [map fst]. do 3 f_equal.
  unfold points_in. destruct (find _ A) as [e|] eqn:F; [|reflexivity]. apply find_some in F as [F1 F2]. rewrite (N _ F1) in F2. discriminate.
Qed.
Lemma cut_before A B : grown A B -> cut A (firstn (length A) B) = cut A A.
Proof.
  intros G. apply cut_labels. revert B G. induction A as [|[l p] A IH]; intros B G; [reflexivity|].
  destruct B as [|[l' p'] B]; [destruct (G 0%nat _ _ eq_refl) as (? & ? & _); discriminate|].
  destruct (G 0%nat _ _ eq_refl) as (p2 & E & _). injection E as -> ->. cbn [length firstn map fst]. f_equal. apply IH.
  intros i ls pts H. exact (G (S i) ls pts H).
Qed.

(** ** the series a query looks at *)
Lemma numbered_id A x y : In x (numbered 1 A) -> In y (numbered 1 A) -> fst x = fst y -> x = y.
Proof.
  intros Hx Hy E. apply numbered_In in Hx as (i & Hx & Ex). apply numbered_In in Hy as (j & Hy & Ey).
  assert (i = j) by lia. subst j. destruct x as [a x], y as [b y]. cbn [fst snd] in *. congruence.
Qed.
Lemma numbered_occurs A x l : In x (numbered 1 A) -> has (fst (snd x)) l = true -> occurs A l = true.
Proof.
  intros Hx H. apply numbered_In in Hx as (i & Hx & _). apply nth_error_In in Hx. apply existsb_exists. eauto.
Qed.
Lemma matching_asc A q : ascending (map fst (matching A q)).
Proof.
  unfold matching. assert (K: forall B n, ascending (map fst (filter (fun e : Z * (list label * list tp) => matches A q (fst (snd e))) (numbered n B))) /\
    Forall (Z.le n) (map fst (filter (fun e : Z * (list label * list tp) => matches A q (fst (snd e))) (numbered n B)))).
  { induction B as [|b B IH]; intros n; [split; constructor|]. cbn [numbered filter]. destruct (IH (n + 1)) as [I1 I2]. 
    assert (F: Forall (Z.lt n) (map fst (filter (fun e : Z * (list label * list tp) => matches A q (fst (snd e))) (numbered (n + 1) B)))).
    { eapply Forall_impl; [|exact I2]. cbn beta. intros; lia. }
    destruct (matches A q _); cbn [map fst].
    - split; [constructor; assumption|]. constructor; [lia|]. eapply Forall_impl; [|exact F]. cbn beta. intros; lia.
    - split; [assumption|]. eapply Forall_impl; [|exact F]. cbn beta. intros; lia. }
  apply K.
Qed.
Lemma asc_keep (f : Z * (list label * list tp) -> bool) l : ascending (map fst l) -> ascending (map fst (filter f l)).
Proof.
  induction l as [|x l IH]; intros H; [constructor|]. cbn [map] in H. inversion H as [|? ? H1 H2]; subst. cbn [filter].
  destruct (f x); [|exact (IH H1)]. cbn [map]. constructor; [exact (IH H1)|]. apply Forall_forall. intros y Hy. rewrite Forall_forall in H2. apply H2.
  apply in_map_iff in Hy as (z & <- & Hz). apply filter_In in Hz as [Hz _]. now apply in_map.
Qed.
Lemma numbered_labels B C x : map fst B = map fst C -> forall n, In x (numbered n B) -> exists p, In (fst x, (fst (snd x), p)) (numbered n C).
Proof.
  revert C. induction B as [|[l p] B IH]; intros [|[l' p'] C] E n H; try discriminate; [contradiction|]. cbn [map fst] in E. injection E as -> E.
  cbn [numbered] in *. destruct H as [<-|H]; [exists p'; now left|]. destruct (IH _ E _ H) as (p2 & H2). exists p2. now right.
Qed.

(* nothing was added *)
Lemma seen_same A q M : seen A A q M -> M = matching A q.
Proof.
  intros Se. apply asc_pairs; [apply (se_order _ _ _ _ Se)|apply matching_asc|]. intros [id [ls pts]]. split.
  - intros H. destruct (se_real _ _ _ _ Se _ _ _ H) as (p1 & H1 & (c & E1)). destruct (se_points _ _ _ _ Se _ _ _ _ H H1) as (d & E2).
    assert (pts = p1) as ->. { rewrite E1 in E2. rewrite <- app_assoc in E2. rewrite <- (app_nil_r pts) in E2 at 1. apply app_inv_head in E2.
      symmetry in E2. apply app_eq_nil in E2 as [-> _]. now rewrite app_nil_r in E1. }
    apply filter_In. split; [assumption|]. cbn [fst snd]. unfold matches. apply andb_true_intro. split.
    + destruct (se_some _ _ _ _ Se _ _ _ H) as (l & Hl & Hh). apply existsb_exists. exists l. split; [assumption|]. eapply numbered_occurs; eassumption.
    + apply forallb_forall. intros l Hl. destruct (occurs A l) eqn:O; [|reflexivity]. cbn [negb orb]. eapply (se_every _ _ _ _ Se); eassumption.
  - intros H. apply filter_In in H as [H1 H2]. cbn [fst snd] in H2. destruct (se_all _ _ _ _ Se _ _ _ H1 H2) as (p & Hp).
    destruct (se_real _ _ _ _ Se _ _ _ Hp) as (p1 & Hp1 & (c & E1)). pose proof (numbered_id _ _ _ H1 Hp1 eq_refl) as E. assert (p1 = pts) as -> by congruence.
    destruct (se_points _ _ _ _ Se _ _ _ _ Hp H1) as (d & E2).
    assert (p = pts) as ->; [|assumption]. rewrite E1 in E2. rewrite <- app_assoc in E2. rewrite <- (app_nil_r p) in E2 at 1. apply app_inv_head in E2.
      symmetry in E2. apply app_eq_nil in E2 as [-> _]. now rewrite app_nil_r in E1.
Qed.
(* a series without points was added *)
Lemma seen_new A ls q M : seen A (A ++ [(ls, [])]) q M -> let N := 1 + Z.of_nat (length A) in
  exists keep b, M = filter keep (matching A q) ++ (if b : bool then [(N, (ls, []))] else []) /\
    (b = true -> shares q ls) /\
    (forall x, In x (matching A q) -> matches (A ++ [(ls, [])]) q (fst (snd x)) = true -> keep x = true).
Proof.
  intros Se N. set (keep := fun x : Z * (list label * list tp) => existsb (fun y => fst y =? fst x) M). set (b := existsb (fun y : Z * (list label * list tp) => fst y =? N) M).
  assert (Hold: forall x, In x (numbered 1 A) -> fst x < N).
  { intros x Hx. apply numbered_In in Hx as (i & Hx & E). assert (i < length A)%nat by (apply nth_error_Some; congruence). unfold N. lia. }
  assert (Real: forall id l pts, In (id, (l, pts)) M -> In (id, (l, pts)) (numbered 1 A) \/ (id, (l, pts)) = (N, (ls, []))).
  { intros id l pts H. destruct (se_real _ _ _ _ Se _ _ _ H) as (p1 & H1 & (c & E1)). rewrite numbered_app in H1. apply in_app_iff in H1 as [H1|H1].
    - left. destruct (se_points _ _ _ _ Se _ _ _ _ H H1) as (d & E2). rewrite E1 in E2. rewrite <- app_assoc in E2. rewrite <- (app_nil_r pts) in E2 at 1.
      apply app_inv_head in E2. symmetry in E2. apply app_eq_nil in E2 as [-> _]. rewrite app_nil_r in E1. now subst.
    - right. cbn [numbered] in H1. destruct H1 as [H1|[]]. assert (E0: p1 = []) by congruence. rewrite E0 in E1. symmetry in E1. apply app_eq_nil in E1 as [-> _].
      unfold N. congruence. }
  exists keep, b. split; [|split].
  - apply asc_pairs; [apply (se_order _ _ _ _ Se)| |].
    + rewrite map_app. destruct b; cbn [map fst]; [|rewrite app_nil_r; apply asc_keep, matching_asc]. apply asc_snoc. split; [apply asc_keep, matching_asc|].
      apply Forall_forall. intros y Hy. apply in_map_iff in Hy as (x & <- & Hx). apply filter_In in Hx as [Hx _]. apply filter_In in Hx as [Hx _]. auto.
    + intros [id [l pts]]. rewrite in_app_iff. split.
      * intros H. destruct (Real _ _ _ H) as [Hn|E].
        -- left. apply filter_In. split; [|apply existsb_exists; eexists; split; [exact H|apply Z.eqb_refl]]. apply filter_In. split; [assumption|]. cbn [fst snd].
           unfold matches. apply andb_true_intro. split.
           ++ destruct (se_some _ _ _ _ Se _ _ _ H) as (lb & Hl & Hh). apply existsb_exists. exists lb. split; [assumption|]. eapply numbered_occurs; eassumption.
           ++ apply forallb_forall. intros lb Hl. destruct (occurs A lb) eqn:O; [|reflexivity]. cbn [negb orb]. eapply (se_every _ _ _ _ Se); eassumption.
        -- right. assert (b = true) as ->. { apply existsb_exists. eexists. split; [exact H|]. cbn [fst]. assert (id = N) as -> by congruence. apply Z.eqb_refl. }
           left. now rewrite E.
      * intros [H|H].
        -- apply filter_In in H as [H Hk]. apply existsb_exists in Hk as ([i2 [l2 p2]] & H2 & Ei). cbn [fst] in Ei. apply Z.eqb_eq in Ei. subst i2.
           apply filter_In in H as [H _]. destruct (Real _ _ _ H2) as [Hn|E].
           ++ now rewrite (numbered_id _ _ _ H Hn eq_refl).
           ++ pose proof (Hold _ H) as L. cbn [fst] in L. assert (id = N) by congruence. lia.
        -- destruct b eqn:Eb; [|contradiction]. destruct H as [H|[]]. apply existsb_exists in Eb as ([i2 [l2 p2]] & H2 & Ei). cbn [fst] in Ei. apply Z.eqb_eq in Ei. subst i2.
           rewrite <- H. destruct (Real _ _ _ H2) as [Hn|E]; [pose proof (Hold _ Hn) as L; cbn [fst] in L; lia|]. now rewrite <- E.
  - intros Eb. apply existsb_exists in Eb as ([i2 [l2 p2]] & H2 & Ei). cbn [fst] in Ei. apply Z.eqb_eq in Ei. subst i2.
    destruct (Real _ _ _ H2) as [Hn|E]; [pose proof (Hold _ Hn) as L; cbn [fst] in L; lia|]. assert (l2 = ls) as -> by congruence.
    destruct (se_some _ _ _ _ Se _ _ _ H2) as (lb & Hl & Hh). exists lb. split; [assumption|]. now apply has_In.
  - intros [id [l pts]] Hx Hm. apply filter_In in Hx as [Hx _]. cbn [fst snd] in Hm. destruct (se_all _ _ _ _ Se _ _ _ Hx Hm) as (p & Hp).
    apply existsb_exists. eexists. split; [exact Hp|apply Z.eqb_refl].
Qed.
Lemma filter_all {X} (f : X -> bool) l : (forall x, In x l -> f x = true) -> filter f l = l.
Proof. induction l as [|x l IH]; intros H; [reflexivity|]. cbn [filter]. rewrite H by now left. f_equal. apply IH. intros y Hy. apply H. now right. Qed.
Lemma occurs_new A ls pts l : occurs (A ++ [(ls, pts)]) l = occurs A l || has ls l.
Proof. unfold occurs. rewrite existsb_app. cbn [existsb fst]. now rewrite orb_false_r. Qed.
Lemma matches_occurs A B q l : (forall y, occurs A y = occurs B y) -> matches A q l = matches B q l.
Proof.
  intros O. unfold matches. f_equal.
  - induction q as [|y q IH]; [reflexivity|]. cbn [existsb]. now rewrite O, IH.
  - induction q as [|y q IH]; [reflexivity|]. cbn [forallb]. now rewrite O, IH.
Qed.
Lemma matches_apart A ls pts q l : ~ shares q ls -> matches (A ++ [(ls, pts)]) q l = matches A q l.
Proof.
  intros H. assert (O: forall x, In x q -> occurs (A ++ [(ls, pts)]) x = occurs A x).
  { intros x Hx. rewrite occurs_new. destruct (has ls x) eqn:E; [|apply orb_false_r]. exfalso. apply H. exists x. split; [assumption|now apply has_In]. }
  unfold matches. clear H. induction q as [|x q IH]; [reflexivity|]. cbn [existsb forallb].
  assert (I: existsb (occurs (A ++ [(ls, pts)])) q && forallb (fun y => negb (occurs (A ++ [(ls, pts)]) y) || has l y) q =
             existsb (occurs A) q && forallb (fun y => negb (occurs A y) || has l y) q) by (apply IH; intros y Hy; apply O; now right).
  assert (J: existsb (occurs (A ++ [(ls, pts)])) q = existsb (occurs A) q).
  { clear -O. induction q as [|y q IH]; [reflexivity|]. cbn [existsb]. rewrite (O y) by (right; now left). f_equal. apply IH. intros z [->|Hz]; apply O; [now left|right; now right]. }
  assert (K: forallb (fun y => negb (occurs (A ++ [(ls, pts)]) y) || has l y) q = forallb (fun y => negb (occurs A y) || has l y) q).
  { clear -O. induction q as [|y q IH]; [reflexivity|]. cbn [forallb]. rewrite (O y) by (right; now left). f_equal. apply IH. intros z [->|Hz]; apply O; [now left|right; now right]. }
  rewrite O by now left. rewrite J, K. reflexivity.
Qed.
Lemma collect_app rd a b : collect rd (a ++ b) = (let* x := collect rd a in let* y := collect rd b in Ok (x ++ y)).
Proof.
  induction a as [|[id [ls pts]] a IH]; cbn [app collect rbind].
  - destruct (collect rd b); reflexivity.
  - destruct (rd pts) as [d|e|]; cbn [rbind]; [|reflexivity..]. rewrite IH. destruct (collect rd a) as [x|e|]; cbn [rbind]; [|reflexivity..].
    destruct (collect rd b) as [y|e|]; cbn [rbind]; [|reflexivity..]. destruct d; reflexivity.
Qed.

(** ** queries after a restart *)
Lemma starts_cases ch A r : wfc A -> ireq_ok r ->
  map fst (ins ch A r) = map fst A \/ starts_series ch A r /\ (forall e, In e A -> same_setb (fst e) (fst r) = false) /\ ins ch A r = A ++ [(fst r, [snd r])].
Proof.
  intros W Hr. unfold ins. destruct (in_windowb ch (tp_ts (snd r))) eqn:Ew; [|now left].
  destruct (add_cases (c_storage ch) A (fst r) (snd r)) as [[_ E]|[N E]]; [now left|]. right. split; [|split; assumption]. split.
  - unfold in_window, in_windowb in *. lia.
  - intros e He F. apply same_setb_spec in F; [rewrite N in F by assumption; discriminate|now apply (wf_keys A e W)|apply (proj1 Hr)].
Qed.
Theorem stopped_queries ch bs o h r n q s e : bs_contract bs -> Forall ireq_ok h -> ireq_ok r -> Z.of_nat (length h) + 1 < 2 ^ 64 ->
  all_increasing (content_of ch (h ++ [r])) -> Forall lab_ok q -> s <= e ->
  exists w x, after ch h = Some w /\ crun ch (chunk_query ch bs o q s e) (restarted ch n r w) = Some (x, restarted ch n r w) /\
    (x = query_spec ch (content_of ch h) q s e \/ x = query_spec ch (content_of ch (h ++ [r])) q s e \/
     starts_series ch (content_of ch h) r /\ shares q (fst r) /\
     exists keep, (forall y, In y (matching (content_of ch h) q) -> matches (content_of ch (h ++ [r])) q (fst (snd y)) = true -> keep y = true) /\
       (x = part_answer ch (content_of ch h) q s e keep \/
        x = let* _ := part_answer ch (content_of ch h) q s e keep in Err NotFoundErr)).
Proof.
  intros Hb Hh Hr HL Hi Hq Hse. destruct (after_logs ch h Hh ltac:(lia)) as (w & Ew & R & _ & _).
  assert (Hh1: Forall ireq_ok (h ++ [r])) by (apply Forall_app; split; [assumption|constructor; [assumption|constructor]]).
  destruct (after_logs ch (h ++ [r]) Hh1) as (w1 & E1 & R1 & _ & _); [rewrite app_length; cbn [length]; lia|].
  pose proof (content_length ch h) as CL. pose proof (content_length ch (h ++ [r])) as CL2. rewrite app_length in CL2. cbn [length] in CL2.
  assert (exists z, crun ch (chunk_insert ch (fst r) (snd r)) w = Some (z, w1)) as (z & Ex).
  { pose proof (insert_run ch w (content_of ch h) (fst r) (snd r) R (proj1 Hr) (proj2 Hr) ltac:(lia)) as I.
    destruct (in_windowb ch (tp_ts (snd r))).
    - destruct I as (w2 & I & _). exists (Ok tt). assert (E2: Some w2 = Some w1) by (etransitivity; [symmetry; exact (after_snoc ch h r w w2 Ew _ I)|exact E1]). injection E2 as ->. exact I.
    - exists (Err (OutOfRangeErr (c_start ch) (c_end ch))). assert (E2: Some w = Some w1) by (etransitivity; [symmetry; exact (after_snoc ch h r w w Ew _ I)|exact E1]). injection E2 as ->. exact I. }
  pose proof (insert_crash ch (fst r) (snd r) w n z w1 Ex) as C. cbv zeta in C.
  pose proof (ordered_crash ch _ (insert_ordered ch (fst r) (snd r)) n w z w1 Ex) as O.
  destruct (crash_log ch _ n w z w1 Ex (cr_faults _ _ _ R)) as (L1 & L2 & F1 & F2).
  exists w. unfold restarted. cbv zeta. set (w' := snd (crash_at (chandler ch) n (chunk_insert ch (fst r) (snd r)) w)) in *. clearbody w'.
  pose proof (content_wf ch h Hh) as W. set (A := content_of ch h) in *.
  assert (D: w_st w' = w_st w \/ w_st w' = w_st w1 /\ w_ix w' = w_ix w1) by (clear -C O; destruct C, O; auto). clear C O.
  rewrite content_snoc in *. fold A in Hi, R1, CL2 |- *. set (B := ins ch A r) in *.
  pose proof (grown_ins ch A r) as G. fold B in G.
  assert (HA: all_increasing A) by (eapply grown_increasing; eassumption).
  destruct D as [D|[D1 D2]].
  - assert (Bt: between (c_indexer ch) (w_ix w') (regs B) (length A)).
    { rewrite F1. unfold B. eapply (insert_between ch w _ r z w1 L2 L1); try eassumption; [lia| |reflexivity]. now rewrite F2, F1. }
    destruct (loss_seen ch bs o A B (length A) (w_st w') (w_ix w') q s e G (cr_wf _ _ _ R1) ltac:(lia) (grown_length _ _ G)) as (M & Se & Q);
      [rewrite D; apply R|exact Bt|assumption|].
    rewrite cut_before, cut_self in Se by assumption.
    rewrite (seen_spec ch bs _ _ q M s e Hb (cut_increasing A B HA) Hse Se) in Q.
    eexists. split; [assumption|]. split; [exact Q|]. destruct (starts_cases ch A r W Hr) as [E|(St & Nw & E)]; fold B in E.
    + left. rewrite (cut_labels A B A E), cut_self in Se by assumption. now rewrite (seen_same _ _ _ Se).
    + rewrite E, cut_new in Se by assumption. destruct (seen_new _ _ _ _ Se) as (keep & b & EM & Sh & Kp).
      assert (Mm: forall l, matches B q l = matches (A ++ [(fst r, [])]) q l).
      { intros l. rewrite E. apply matches_occurs. intros y. now rewrite !occurs_new. }
      assert (Dec: shares q (fst r) \/ ~ shares q (fst r)).
      { destruct (existsb (has (fst r)) q) eqn:Es.
        - left. apply existsb_exists in Es as (l & Hl & H). exists l. split; [assumption|now apply has_In].
        - right. intros (l & Hl & H). apply has_In in H. rewrite <- not_true_iff_false in Es. apply Es. apply existsb_exists. eauto. }
      destruct Dec as [Hs|Hn].
      * right. right. split; [assumption|]. split; [assumption|]. exists keep. split; [intros y Hy H; rewrite Mm in H; auto|].
        unfold answer_from, part_answer. rewrite EM. destruct (_ || _); [now left|]. destruct b; [right|left; now rewrite app_nil_r].
        rewrite collect_app. reflexivity.
      * left. destruct b; [exfalso; apply Hn, Sh; reflexivity|]. rewrite EM, app_nil_r. unfold answer_from, query_spec. destruct (_ || _); [reflexivity|].
        rewrite filter_all; [reflexivity|]. intros y Hy. apply Kp; [assumption|]. rewrite matches_apart by assumption. apply filter_In in Hy. apply Hy.
  - eexists. split; [assumption|]. rewrite D1, D2. split.
    + apply (query_crd ch bs o (new_world (w_st w1) (w_ix w1)) B q s e); [|lia|assumption]. constructor; try reflexivity; apply R1.
    + right. left. unfold query_spec. destruct (_ || _); [reflexivity|]. apply collect_ext. intros x Hx.
      apply reader_spec; try assumption. apply matching_pts in Hx as (_ & _ & Hin & _). unfold all_increasing in Hi. rewrite Forall_forall in Hi. now apply Hi.
Qed.
(* a query that searches no label of the insert *)
Lemma filter_same {X} (f g : X -> bool) l : (forall x, f x = g x) -> filter f l = filter g l.
Proof. intros H. induction l as [|x l IH]; [reflexivity|]. cbn [filter]. now rewrite H, IH. Qed.
Lemma add_point_other st A ls p q : ~ shares q ls -> wfc A -> set_ok ls -> matching (add_point st A ls p) q = matching A q.
Proof.
  intros Hn W Hls.
  assert (O: forall l, In l q -> occurs (add_point st A ls p) l = occurs A l).
  { intros l Hl. destruct (add_cases st A ls p) as [[_ E]|[_ E]].
    - unfold occurs. revert E. generalize (add_point st A ls p). induction A as [|a A IH]; intros [|b B] E; try discriminate; [reflexivity|].
      cbn [map] in E. injection E as E1 E2. cbn [existsb]. rewrite E1. f_equal. apply IH; [|assumption]. clear -W. destruct W as [W1 W2 W3].
      constructor; [now inversion W1|now inversion W2|]. intros i j x y Hi Hj H. specialize (W3 (S i) (S j) x y Hi Hj H). lia.
    - rewrite E, occurs_new. destruct (has ls l) eqn:Q; [|apply orb_false_r]. exfalso. apply Hn. exists l. split; [assumption|now apply has_In]. }
  assert (Me: forall l, matches (add_point st A ls p) q l = matches A q l).
  { intros l. unfold matches. clear -O. f_equal.
    - induction q as [|y q IH]; [reflexivity|]. cbn [existsb]. rewrite O by now left. f_equal. apply IH. intros z Hz. apply O. now right.
    - induction q as [|y q IH]; [reflexivity|]. cbn [forallb]. rewrite O by now left. f_equal. apply IH. intros z Hz. apply O. now right. }
  unfold matching. rewrite (filter_same _ (fun e => matches A q (fst (snd e)))) by (intros; apply Me).
  assert (No: forall l, same_setb l ls = true -> NoDup (map l_key l) -> matches A q l = false).
  { intros l Hs Hk. apply same_setb_spec in Hs; [|assumption|apply Hls]. apply not_true_iff_false. intros Hm. unfold matches in Hm. apply andb_prop in Hm as [H1 H2].
    apply existsb_exists in H1 as (y & Hy & Oy). rewrite forallb_forall in H2. specialize (H2 y Hy). rewrite Oy in H2. cbn [negb orb] in H2.
    apply has_In in H2. apply Hn. exists y. split; [assumption|]. eapply Permutation_in; eassumption. }
  assert (Ks: Forall (fun e => NoDup (map l_key (fst e))) A) by (apply Forall_forall; intros e He; apply (wf_keys A e W He)).
  assert (Nl: matches A q ls = false).
  { apply not_true_iff_false. intros Hm. unfold matches in Hm. apply andb_prop in Hm as [H1 H2].
    apply existsb_exists in H1 as (y & Hy & Oy). rewrite forallb_forall in H2. specialize (H2 y Hy). rewrite Oy in H2. cbn [negb orb] in H2.
    apply has_In in H2. apply Hn. exists y. auto. }
  clear -No Ks Nl. generalize 1. revert Ks No Nl. generalize (matches A q). intros m Ks No Nl. induction Ks as [|[l pts] A Hk Ks IH]; intros n.
  - cbn [add_point numbered filter fst snd]. now rewrite Nl.
  - cbn [add_point]. destruct (same_setb l ls) eqn:Q; cbn [numbered filter fst snd].
    + now rewrite (No l Q Hk).
    + now rewrite IH.
Qed.
Theorem other_queries ch bs o h r n q s e : bs_contract bs -> Forall ireq_ok h -> ireq_ok r -> Z.of_nat (length h) + 1 < 2 ^ 64 ->
  all_increasing (content_of ch (h ++ [r])) -> Forall lab_ok q -> s <= e -> ~ shares q (fst r) ->
  exists w, after ch h = Some w /\
    crun ch (chunk_query ch bs o q s e) (restarted ch n r w) = Some (query_spec ch (content_of ch h) q s e, restarted ch n r w).
Proof.
  intros Hb Hh Hr HL Hi Hq Hse Hn. destruct (stopped_queries ch bs o h r n q s e Hb Hh Hr HL Hi Hq Hse) as (w & x & Ew & E & C).
  exists w. split; [assumption|]. rewrite E. do 2 f_equal. destruct C as [->|[->|(_ & F & _)]]; [reflexivity| |now destruct (Hn F)].
  unfold query_spec. destruct (_ || _); [reflexivity|]. f_equal. rewrite content_snoc. unfold ins. destruct (in_windowb _ _); [|reflexivity].
  apply add_point_other; [assumption|now apply content_wf|apply Hr].
Qed.
