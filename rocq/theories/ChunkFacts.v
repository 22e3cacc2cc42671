(* Consequences of the refinement of ChunkProofs: C21-C24, C26. *)
From Coq Require Import ZifyBool ZifyNat Permutation Sorted.
From Verif Require Import Rust Prog Gorilla GorillaSpec Storage StorageSpec StorageProofs Labels Indexer IndexSpec
  LabelProofs IntersectProofs IndexProofs IndexHist Chunk ChunkSpec ChunkProofs.
Ltac Zify.zify_post_hook ::= Z.div_mod_to_equations.

Lemma in_window_spec ch t : in_windowb ch t = true <-> in_window ch t.
Proof. unfold in_windowb, in_window. lia. Qed.

Lemma fold_ins_length ch h : forall A, (length (fold_left (ins ch) h A) <= length A + length h)%nat.
Proof.
  induction h as [|r h IH]; intros A; cbn [fold_left length]; [lia|].
  pose proof (IH (ins ch A r)). pose proof (ins_length ch A r). lia.
Qed.
Lemma content_length ch h : (length (content_of ch h) <= length h)%nat.
Proof. pose proof (fold_ins_length ch h []). cbn [length] in *. exact H. Qed.

(** C21 *)
Lemma insert_outside ch w ls p : w_locked w = false -> w_poisoned w = false -> ~ in_window ch (tp_ts p) ->
  crun ch (chunk_insert ch ls p) w = Some (Err (OutOfRangeErr (c_start ch) (c_end ch)), w).
Proof.
  intros H1 H2 N. unfold crun, chunk_insert. rewrite with_lock_run by assumption.
  unfold insert_body, is_in_range. fold (in_windowb ch (tp_ts p)).
  destruct (in_windowb ch (tp_ts p)) eqn:E; [apply in_window_spec in E; contradiction|]. cbn [negb run is_panic].
  f_equal. f_equal. destruct w; cbn in *. now subst.
Qed.
Lemma insert_inside ch h ls p : Forall ireq_ok h -> Z.of_nat (length h) + 1 < 2 ^ 64 -> set_ok ls -> tp_ok p ->
  in_window ch (tp_ts p) ->
  exists w w', after ch h = Some w /\ crun ch (chunk_insert ch ls p) w = Some (Ok tt, w') /\
    after ch (h ++ [(ls, p)]) = Some w'.
Proof.
  intros H L Hls Hp Hw. destruct (after_content ch h H ltac:(lia)) as (w & Ew & R).
  pose proof (content_length ch h). pose proof (insert_run ch w _ ls p R Hls Hp ltac:(lia)) as I.
  rewrite (proj2 (in_window_spec ch _) Hw) in I. destruct I as (w' & E & _). exists w, w'.
  split; [assumption|]. split; [assumption|]. unfold after in *. revert Ew E. generalize (new_world [] []). clear.
  induction h as [|r h IH]; intros w0 Ew E; cbn [after_from app] in *.
  - assert (w0 = w) as -> by congruence. cbn [fst snd]. now rewrite E.
  - destruct (crun ch (chunk_insert ch (fst r) (snd r)) w0) as [[x w1]|]; [|discriminate]. now apply IH.
Qed.

(** C22 *)
Lemma collect_ext rd rd' m : (forall x, In x m -> rd (snd (snd x)) = rd' (snd (snd x))) -> collect rd m = collect rd' m.
Proof.
  induction m as [|[id [ls pts]] m IH]; intros H; [reflexivity|]. cbn [collect].
  pose proof (H _ (or_introl eq_refl)) as E. cbn [snd] in E. rewrite E. rewrite IH; [reflexivity|]. intros x Hx. apply H. now right.
Qed.
Lemma reader_spec bs s e pts : bs_contract bs -> increasing pts -> s <= e -> reader bs s e pts = read_spec pts s e.
Proof.
  intros Hb Hi Hse. unfold reader. destruct pts as [|p l]; [reflexivity|]. rewrite read_tail_any by assumption.
  apply read_any_spec; [discriminate|assumption].
Qed.

Theorem chunk_refines ch bs o h q s e : bs_contract bs -> Forall ireq_ok h -> Z.of_nat (length h) < 2 ^ 64 ->
  Forall lab_ok q -> all_increasing (content_of ch h) -> s <= e ->
  exists w, after ch h = Some w /\
    crun ch (chunk_query ch bs o q s e) w = Some (query_spec ch (content_of ch h) q s e, w).
Proof.
  intros Hb H L Hq Hi Hse. destruct (after_content ch h H L) as (w & Ew & R). exists w. split; [assumption|].
  pose proof (content_length ch h). rewrite (query_run ch bs o w (content_of ch h)) by (assumption || lia).
  unfold query_spec. destruct (_ || _); [reflexivity|]. do 2 f_equal. apply collect_ext.
  intros x Hx. apply matching_pts in Hx as (_ & _ & Hin & _). unfold all_increasing in Hi. rewrite Forall_forall in Hi.
  apply reader_spec; auto.
Qed.

(* TiKV chunks are always increasing *)
Lemma add_increasing i A ls p : all_increasing A -> all_increasing (add_point (TiKvStorage i) A ls p).
Proof.
  intros H. unfold all_increasing in *. induction H as [|[l pts] A Hx H IH]; cbn [add_point].
  - constructor; [|constructor]. cbn. auto.
  - destruct (same_setb l ls); constructor; try assumption. cbn [snd] in *.
    destruct (keeps (TiKvStorage i) pts p) eqn:K; [|assumption]. apply increasing_snoc; [assumption|]. intros y Hy.
    cbn [keeps] in K. destruct pts as [|p0 pts]; [contradiction|]. pose proof (increasing_last _ p0 y Hx Hy). lia.
Qed.
Lemma tikv_content_increasing ch i h : c_storage ch = TiKvStorage i -> all_increasing (content_of ch h).
Proof.
  intros E. unfold content_of. assert (B: all_increasing []) by constructor. revert B. generalize (@nil (list label * list tp)).
  induction h as [|r h IH]; intros A B; [assumption|]. cbn [fold_left]. apply IH. unfold ins.
  destruct (in_windowb _ _); [|assumption]. rewrite E. now apply add_increasing.
Qed.

(** content and history *)
Lemma In_add st A ls p ls' pts : In (ls', pts) (add_point st A ls p) ->
  In (ls', pts) A \/ (exists pts0, In (ls', pts0) A /\ same_setb ls' ls = true /\ pts = if keeps st pts0 p then pts0 ++ [p] else pts0)
  \/ (ls' = ls /\ pts = [p]).
Proof.
  induction A as [|[l q] A IH]; cbn [add_point].
  - intros [E|[]]. right. right. split; congruence.
  - destruct (same_setb l ls) eqn:Q.
    + intros [E|H]; [|left; now right]. right. left. exists q. assert (l = ls') by congruence. subst l.
      split; [now left|]. split; [assumption|]. congruence.
    + intros [E|H]; [left; left; assumption|]. destruct (IH H) as [H1|[(pts0 & H1 & H2)|H1]].
      * left. now right.
      * right. left. exists pts0. split; [now right|assumption].
      * right. now right.
Qed.

(* everything in the content was inserted, under the same label set, in the window *)
Lemma content_sound ch h : Forall ireq_ok h -> forall ls pts, In (ls, pts) (content_of ch h) ->
  set_ok ls /\ forall p, In p pts -> exists ls', In (ls', p) h /\ same_set ls' ls /\ in_window ch (tp_ts p).
Proof.
  intros H. unfold content_of. induction h as [|[l q] h IH] using rev_ind; [intros ? ? []|].
  apply Forall_app in H as [H1 H2]. inversion H2 as [|x xs [Hl Hq] _]; subst. cbn [fst snd] in *.
  specialize (IH H1). rewrite fold_left_app. cbn [fold_left]. intros ls pts Hin.
  assert (Old: In (ls, pts) (fold_left (ins ch) h []) -> set_ok ls /\ forall p, In p pts ->
     exists ls', In (ls', p) (h ++ [(l, q)]) /\ same_set ls' ls /\ in_window ch (tp_ts p)).
  { intros Ho. destruct (IH _ _ Ho) as [A B]. split; [assumption|]. intros p Hp.
    destruct (B p Hp) as (ls' & C & D). exists ls'. split; [apply in_app_iff; now left|assumption]. }
  unfold ins in Hin. cbn [fst snd] in Hin. destruct (in_windowb ch (tp_ts q)) eqn:W; [|now apply Old].
  apply in_window_spec in W.
  destruct (In_add _ _ _ _ _ _ Hin) as [Ho|[(pts0 & Ho & Q & ->)|[-> ->]]].
  - now apply Old.
  - destruct (IH _ _ Ho) as [A B]. split; [assumption|]. intros p Hp.
    assert (In p pts0 \/ p = q) as [Hp'| ->].
    { destruct (keeps _ _ _); [|now left]. apply in_app_iff in Hp as [Hp|[<-|[]]]; auto. }
    + destruct (B p Hp') as (ls' & C & D). exists ls'. split; [apply in_app_iff; now left|assumption].
    + exists l. split; [apply in_app_iff; right; now left|]. split; [|assumption]. apply Permutation_sym.
      apply same_setb_spec in Q; [assumption|apply A|apply Hl].
  - split; [assumption|]. intros p [<-|[]]. exists l. split; [apply in_app_iff; right; now left|].
    split; [apply Permutation_refl|assumption].
Qed.

Lemma add_mono st A ls p ls' pts x : In (ls', pts) A -> In x pts ->
  exists pts', In (ls', pts') (add_point st A ls p) /\ In x pts'.
Proof.
  induction A as [|[l q] A IH]; intros H Hx; [contradiction|]. cbn [add_point]. destruct (same_setb l ls).
  - destruct H as [E|H].
    + assert (l = ls') by congruence. assert (q = pts) by congruence. subst. eexists. split; [left; reflexivity|].
      destruct (keeps st pts p); [apply in_app_iff; now left|assumption].
    + exists pts. split; [now right|assumption].
  - destruct H as [E|H].
    + exists pts. split; [left; assumption|assumption].
    + destruct (IH H Hx) as (pts' & H1 & H2). exists pts'. split; [now right|assumption].
Qed.
Lemma add_has A ls p : set_ok ls -> Forall (fun e => set_ok (fst e)) A ->
  exists ls' pts, In (ls', pts) (add_point SledStorage A ls p) /\ same_set ls' ls /\ In p pts.
Proof.
  intros Hls H. induction H as [|[l q] A Hl H IH]; cbn [add_point].
  - exists ls, [p]. split; [now left|]. split; [apply Permutation_refl|now left].
  - cbn [fst] in Hl. destruct (same_setb l ls) eqn:Q.
    + exists l, (q ++ [p]). split; [left; reflexivity|]. split; [|apply in_app_iff; right; now left].
      apply same_setb_spec in Q; [assumption|apply Hl|apply Hls].
    + destruct IH as (ls' & pts & H1 & H2). exists ls', pts. split; [now right|assumption].
Qed.
(* everything inserted in the window is in the content (sled) *)
Lemma content_complete ch h : c_storage ch = SledStorage -> Forall ireq_ok h -> forall ls p,
  In (ls, p) h -> in_window ch (tp_ts p) ->
  exists ls' pts, In (ls', pts) (content_of ch h) /\ same_set ls' ls /\ In p pts.
Proof.
  intros E H. induction h as [|[l q] h IH] using rev_ind; [intros ? ? []|].
  apply Forall_app in H as [H1 H2]. inversion H2 as [|x xs [Hl Hq] _]; subst. cbn [fst snd] in *.
  specialize (IH H1). unfold content_of. rewrite fold_left_app. cbn [fold_left]. intros ls p Hin W.
  apply in_app_iff in Hin as [Hin|[Hin|[]]].
  - destruct (IH _ _ Hin W) as (ls' & pts & A & B & C). unfold ins. cbn [fst snd].
    destruct (in_windowb ch (tp_ts q)).
    + destruct (add_mono (c_storage ch) _ l q ls' pts p A C) as (pts' & A' & C'). exists ls', pts'. auto.
    + exists ls', pts. auto.
  - assert (l = ls) by congruence. assert (q = p) by congruence. subst. unfold ins at 1. cbn [fst snd].
    rewrite (proj2 (in_window_spec ch _) W). rewrite E. apply add_has; [assumption|].
    rewrite Forall_forall. intros e He. destruct e as [a b]. now apply (content_sound ch h H1 a b) in He.
Qed.

Lemma occurs_spec A l : occurs A l = true <-> exists ls pts, In (ls, pts) A /\ In l ls.
Proof.
  unfold occurs. rewrite existsb_exists. split.
  - intros ([ls pts] & H1 & H2). exists ls, pts. split; [assumption|]. now apply has_In.
  - intros (ls & pts & H1 & H2). exists (ls, pts). split; [assumption|]. now apply has_In.
Qed.
Lemma matches_spec A q ls : matches A q ls = true <->
  (exists l, In l q /\ occurs A l = true) /\ (forall l, In l q -> occurs A l = true -> In l ls).
Proof.
  unfold matches. rewrite andb_true_iff, existsb_exists, forallb_forall. split; intros [H1 H2]; (split; [assumption|]); intros l Hl.
  - intros Ho. specialize (H2 l Hl). rewrite Ho in H2. now apply has_In.
  - destruct (occurs A l) eqn:O; [|reflexivity]. cbn. apply has_In. auto.
Qed.

Lemma collect_In rd m r : collect rd m = Ok r -> forall x, In x r <->
  exists id ls pts d, In (id, (ls, pts)) m /\ rd pts = Ok d /\ d <> [] /\ x = mkSeries id (sort_labels ls) d.
Proof.
  revert r. induction m as [|[id [ls pts]] m IH]; intros r H x; cbn [collect] in H.
  - assert (r = []) by congruence. subst. split; [intros []|intros (? & ? & ? & ? & [] & _)].
  - destruct (rd pts) as [d|er|] eqn:D; cbn [rbind] in H; try discriminate.
    destruct (collect rd m) as [rest|er|]; cbn [rbind] in H; try discriminate.
    specialize (IH rest eq_refl x).
    assert (r = match d with [] => rest | _ => mkSeries id (sort_labels ls) d :: rest end) as -> by (destruct d; congruence).
    clear H. split.
    + intros Hx. assert ((d <> [] /\ x = mkSeries id (sort_labels ls) d) \/ In x rest) as [[H1 H2]|H1].
      { destruct d; [now right|]. destruct Hx as [<-|Hx]; [left; split; [discriminate|reflexivity]|now right]. }
      * exists id, ls, pts, d. split; [now left|]. auto.
      * apply IH in H1 as (i & l & ps & d' & H1 & H2). exists i, l, ps, d'. split; [now right|assumption].
    + intros (i & l & ps & d' & H1 & H2 & H3 & H4). destruct H1 as [E|H1].
      * assert (id = i) by congruence. assert (ls = l) by congruence. assert (pts = ps) by congruence. subst.
        assert (d = d') by congruence. subst. destruct d'; [congruence|]. now left.
      * assert (In x rest) by (apply IH; exists i, l, ps, d'; auto). destruct d; [assumption|now right].
Qed.

Lemma reader_sub bs s e pts d : reader bs s e pts = Ok d -> forall p, In p d -> In p pts.
Proof.
  intros H p Hp. unfold reader in H. destruct pts as [|f l]; [discriminate|]. unfold read_tail in H.
  destruct (_ || _); [discriminate|]. unfold trim_time_series in H.
  destruct (match bs (f :: l) e with Found i => Ok i | Missing 0 => Panic | Missing (S j) => Ok j end) as [r|er|]; try discriminate.
  cbn [rbind] in H. unfold slice_incl in H. destruct (_ && _); [|discriminate].
  assert (d = firstn (S r - match bs (f :: l) s with Found i => i | Missing i => i end)
                (skipn (match bs (f :: l) s with Found i => i | Missing i => i end) (f :: l))) as -> by congruence.
  clear H. revert Hp. generalize (match bs (f :: l) s with Found i => i | Missing i => i end) as n.
  generalize (f :: l) as L. intros L n Hp. assert (In p (skipn n L)).
  { rewrite <- (firstn_skipn (S r - n) (skipn n L)). apply in_app_iff. now left. }
  rewrite <- (firstn_skipn n L). apply in_app_iff. now right.
Qed.

(** C23, no assumption on order *)
Theorem chunk_sound ch bs o h q s e : Forall ireq_ok h -> Z.of_nat (length h) < 2 ^ 64 -> Forall lab_ok q ->
  exists w r, after ch h = Some w /\ crun ch (chunk_query ch bs o q s e) w = Some (r, w) /\
  forall l, r = Ok l -> forall x, In x l ->
    (forall p, In p (s_points x) -> exists ls, In (ls, p) h /\ same_set ls (s_meta x) /\ in_window ch (tp_ts p)) /\
    (forall lb, In lb q -> (exists ls p, In (ls, p) h /\ in_window ch (tp_ts p) /\ In lb ls) -> In lb (s_meta x)).
Proof.
  intros H L Hq. destruct (after_content ch h H L) as (w & Ew & R). pose proof (content_length ch h) as CL.
  eexists w, _. split; [assumption|]. split; [rewrite (query_run ch bs o w (content_of ch h)) by (assumption || lia); reflexivity|].
  intros l El x Hx. destruct (_ || _); [discriminate|].
  apply (collect_In _ _ _ El) in Hx as (id & ls & pts & d & H1 & H2 & H3 & ->).
  apply matching_pts in H1 as (_ & _ & Hin & HM). cbn [fst snd s_meta s_points] in *.
  destruct (content_sound ch h H ls pts Hin) as [Sok Snd]. split.
  - intros p Hp. apply (reader_sub _ _ _ _ _ H2) in Hp. destruct (Snd p Hp) as (ls' & A & B & C).
    exists ls'. split; [assumption|]. split; [|assumption].
    eapply Permutation_trans; [exact B|apply sort_perm].
  - intros lb Hlb (ls' & p & A & B & C).
    apply matches_spec in HM as [_ HM]. eapply Permutation_in; [apply sort_perm|]. apply HM; [assumption|].
    apply occurs_spec.
    assert (X: exists l0 pts0, In (l0, pts0) (content_of ch h) /\ same_set l0 ls').
    { clear -H A B. unfold content_of. induction h as [|[l1 q1] h IH] using rev_ind; [contradiction|].
      apply Forall_app in H as [H1 H2]. inversion H2 as [|x xs [Hl Hq] _]; subst. cbn [fst snd] in *.
      rewrite fold_left_app. cbn [fold_left]. unfold ins at 1. cbn [fst snd].
      assert (K: forall P : content, (exists l0 pts0, In (l0, pts0) P /\ same_set l0 ls') ->
        exists l0 pts0, In (l0, pts0) (if in_windowb ch (tp_ts q1) then add_point (c_storage ch) P l1 q1 else P) /\ same_set l0 ls').
      { intros P (l0 & pts0 & I1 & I2). destruct (in_windowb _ _); [|eauto].
        assert (exists pts', In (l0, pts') (add_point (c_storage ch) P l1 q1)) as (pts' & I3).
        { clear -I1. induction P as [|[a b] P IH]; [contradiction|]. cbn [add_point]. destruct (same_setb a l1).
          - destruct I1 as [E|I1]; [|exists pts0; now right]. assert (a = l0) by congruence. subst. eexists. left. reflexivity.
          - destruct I1 as [E|I1]; [exists pts0; now left|]. destruct (IH I1) as (y & Hy). exists y. now right. }
        eauto. }
      apply in_app_iff in A as [A|[A|[]]].
      - apply K. now apply IH.
      - assert (l1 = ls') by congruence. assert (q1 = p) by congruence. subst.
        rewrite (proj2 (in_window_spec ch _) B).
        assert (F: Forall (fun e => set_ok (fst e)) (fold_left (ins ch) h [])).
        { rewrite Forall_forall. intros [a b] He. now apply (content_sound ch h H1 a b) in He. }
        revert F. generalize (fold_left (ins ch) h []). intros P F.
        induction F as [|[a b] P Ha F IHF]; cbn [add_point].
        + exists ls', [p]. split; [now left|apply Permutation_refl].
        + cbn [fst] in Ha. destruct (same_setb a ls') eqn:Q.
          * exists a. eexists. split; [left; reflexivity|]. apply same_setb_spec in Q; [assumption|apply Ha|apply Hl].
          * destruct IHF as (l0 & pts0 & I1 & I2). exists l0, pts0. split; [now right|assumption]. }
    destruct X as (l0 & pts0 & I1 & I2). exists l0, pts0. split; [assumption|].
    eapply Permutation_in; [apply Permutation_sym; exact I2|assumption].
Qed.

Lemma read_spec_range pts s e d : read_spec pts s e = Ok d -> d = within s e pts.
Proof. unfold read_spec. destruct pts; [discriminate|]. destruct (_ || _); congruence. Qed.

Theorem chunk_in_range ch bs o h q s e : bs_contract bs -> Forall ireq_ok h -> Z.of_nat (length h) < 2 ^ 64 ->
  Forall lab_ok q -> all_increasing (content_of ch h) -> s <= e ->
  exists w r, after ch h = Some w /\ crun ch (chunk_query ch bs o q s e) w = Some (r, w) /\
  forall l, r = Ok l -> forall x, In x l -> increasing (s_points x) /\ s_points x <> [] /\
    forall p, In p (s_points x) -> s <= tp_ts p <= e.
Proof.
  intros Hb H L Hq Hi Hse. destruct (chunk_refines ch bs o h q s e Hb H L Hq Hi Hse) as (w & Ew & Er).
  exists w, (query_spec ch (content_of ch h) q s e). split; [assumption|]. split; [assumption|].
  intros l El x Hx. unfold query_spec in El. destruct (_ || _); [discriminate|].
  apply (collect_In _ _ _ El) in Hx as (id & ls & pts & d & H1 & H2 & H3 & ->). cbn [s_points].
  apply read_spec_range in H2. subst d. apply matching_pts in H1 as (_ & _ & Hin & _). cbn [snd] in Hin.
  unfold all_increasing in Hi. rewrite Forall_forall in Hi. specialize (Hi _ Hin). cbn [snd] in Hi. split; [|split; [assumption|]].
  - clear -Hi. induction pts as [|p pts IH]; [exact I|]. destruct Hi as [H1 H2]. cbn [within filter].
    destruct ((s <=? tp_ts p) && (tp_ts p <=? e)); [|now apply IH]. split; [|now apply IH].
    rewrite Forall_forall in *. intros x Hx. apply filter_In in Hx as [Hx _]. now apply H1.
  - intros p Hp. apply filter_In in Hp as [_ Hp]. lia.
Qed.

(** C24 *)

Lemma read_spec_touch pts s e : increasing pts -> pts <> [] ->
  (touches s e pts /\ read_spec pts s e = Ok (within s e pts)) \/
  (~ touches s e pts /\ exists a b, read_spec pts s e = Err (OutOfRangeErr a b)).
Proof.
  intros Hi Hne. unfold read_spec. destruct pts as [|f l]; [congruence|].
  assert (Lst: In (last (f :: l) f) (f :: l)).
  { destruct (@exists_last _ (f :: l) Hne) as (l' & x & E). rewrite E, last_last. apply in_app_iff. right. now left. }
  destruct ((e <? tp_ts f) || (tp_ts (last (f :: l) f) <? s)) eqn:E.
  - right. split; [|eauto]. intros [(p & Hp & Hpe) (p' & Hp' & Hps)].
    pose proof (increasing_last _ f p' Hi Hp'). assert (tp_ts f <= tp_ts p); [|lia].
    destruct Hp as [->|Hp]; [lia|]. destruct Hi as [Hf _]. rewrite Forall_forall in Hf. specialize (Hf _ Hp). lia.
  - left. split; [|reflexivity]. split; [exists f; split; [now left|lia]|exists (last (f :: l) f); split; [assumption|lia]].
Qed.

Lemma touches_dec s e pts : touches s e pts \/ ~ touches s e pts.
Proof.
  unfold touches.
  assert (D: forall f : tp -> bool, (exists p, In p pts /\ f p = true) \/ ~ (exists p, In p pts /\ f p = true)).
  { intros f. destruct (existsb f pts) eqn:E; [left; now apply existsb_exists|].
    right. intros X. apply existsb_exists in X. congruence. }
  destruct (D (fun p => tp_ts p <=? e)) as [(p & A & B)|A]; destruct (D (fun p => s <=? tp_ts p)) as [(p' & C & F)|C].
  - left. split; [exists p|exists p']; split; (assumption || lia).
  - right. intros [_ (x & X & Y)]. apply C. exists x. split; [assumption|lia].
  - right. intros [(x & X & Y) _]. apply A. exists x. split; [assumption|lia].
  - right. intros [(x & X & Y) _]. apply A. exists x. split; [assumption|lia].
Qed.

Lemma collect_all s e m : (forall x, In x m -> increasing (snd (snd x)) /\ snd (snd x) <> []) ->
  ((forall x, In x m -> touches s e (snd (snd x))) -> exists r, collect (fun pts => read_spec pts s e) m = Ok r) /\
  (~ (forall x, In x m -> touches s e (snd (snd x))) -> exists a b, collect (fun pts => read_spec pts s e) m = Err (OutOfRangeErr a b)).
Proof.
  induction m as [|[id [ls pts]] m IH]; intros H.
  - split; [intros _; exists []; reflexivity|intros N; exfalso; apply N; intros x []].
  - destruct (IH (fun x Hx => H x (or_intror Hx))) as [I1 I2]. destruct (H _ (or_introl eq_refl)) as [Hi Hn]. cbn [snd] in Hi, Hn.
    cbn [collect]. destruct (read_spec_touch pts s e Hi Hn) as [[T E]|[T (a & b & E)]]; rewrite E; cbn [rbind].
    + split.
      * intros F. destruct I1 as (r & ->); [intros x Hx; apply F; now right|]. cbn [rbind]. eauto.
      * intros N. destruct I2 as (a & b & ->); [|cbn [rbind]; eauto]. intros F. apply N. intros x [<-|Hx]; [exact T|now apply F].
    + split.
      * intros F. exfalso. apply T. exact (F _ (or_introl eq_refl)).
      * intros _. eauto.
Qed.

Lemma collect_any s e m : (forall x, In x m -> increasing (snd (snd x))) ->
  ((forall x, In x m -> touches s e (snd (snd x))) -> exists r, collect (fun pts => read_spec pts s e) m = Ok r) /\
  (~ (forall x, In x m -> touches s e (snd (snd x))) -> exists er, collect (fun pts => read_spec pts s e) m = Err er).
Proof.
  induction m as [|[id [ls pts]] m IH]; intros H.
  - split; [intros _; exists []; reflexivity|intros N; exfalso; apply N; intros x []].
  - destruct (IH (fun x Hx => H x (or_intror Hx))) as [I1 I2]. pose proof (H _ (or_introl eq_refl)) as Hi. cbn [snd] in Hi.
    cbn [collect]. assert (R: (touches s e pts /\ read_spec pts s e = Ok (within s e pts)) \/ (~ touches s e pts /\ exists er, read_spec pts s e = Err er)).
    { destruct pts as [|p pts]; [right; split; [intros [(? & [] & _) _]|exists NotFoundErr; reflexivity]|].
      destruct (read_spec_touch (p :: pts) s e Hi) as [T|[T (a & b & E)]]; [discriminate|left; exact T|right; split; eauto]. }
    destruct R as [[T E]|[T (er & E)]]; rewrite E; cbn [rbind].
    + split.
      * intros F. destruct I1 as (r & ->); [intros x Hx; apply F; now right|]. cbn [rbind]. eauto.
      * intros N. destruct I2 as (er & ->); [|cbn [rbind]; eauto]. intros F. apply N. intros x [<-|Hx]; [exact T|now apply F].
    + split.
      * intros F. exfalso. apply T. exact (F _ (or_introl eq_refl)).
      * intros _. eauto.
Qed.

Lemma content_wf ch h : Forall ireq_ok h -> wfc (content_of ch h).
Proof.
  intros H. unfold content_of. assert (B: wfc []).
  { constructor; [constructor|constructor|]. intros [|i] j a b E; discriminate. }
  revert B. generalize (@nil (list label * list tp)). induction H as [|r h [H1 H2] H IH]; intros A B; [assumption|].
  cbn [fold_left]. apply IH. unfold ins. destruct (in_windowb _ _); [now apply wf_add|assumption].
Qed.

Lemma add_nonempty st A ls p : Forall (fun e : list label * list tp => snd e <> []) A -> Forall (fun e => snd e <> []) (add_point st A ls p).
Proof.
  induction A as [|[l q] A IH]; intros H; cbn [add_point]; [repeat constructor; discriminate|]. apply Forall_cons_iff in H as [H1 H2].
  destruct (same_setb l ls); constructor; auto. cbn [snd] in *. destruct (keeps st q p); [destruct q; discriminate|assumption].
Qed.
Lemma content_pts ch h : Forall ireq_ok h -> Forall (fun e => snd e <> [] /\ Forall tp_ok (snd e)) (content_of ch h).
Proof.
  intros H. pose proof (wf_pts _ (content_wf ch h H)) as F.
  assert (N: Forall (fun e : list label * list tp => snd e <> []) (content_of ch h)).
  { unfold content_of. assert (B: Forall (fun e : list label * list tp => snd e <> []) []) by constructor. revert B. clear.
    generalize (@nil (list label * list tp)). induction h as [|r h IH]; intros A B; [assumption|]. cbn [fold_left]. apply IH.
    unfold ins. destruct (in_windowb _ _); [now apply add_nonempty|assumption]. }
  rewrite Forall_forall in *. auto.
Qed.

Lemma matching_has A q ls pts : In (ls, pts) A -> matches A q ls = true -> exists id, In (id, (ls, pts)) (matching A q).
Proof.
  intros H M. apply In_nth_error in H as (i & Hi). exists (1 + Z.of_nat i). apply filter_In.
  split; [now apply numbered_nth|assumption].
Qed.

Theorem chunk_complete ch bs o h q s e : bs_contract bs -> Forall ireq_ok h -> Z.of_nat (length h) < 2 ^ 64 ->
  Forall lab_ok q -> all_increasing (content_of ch h) -> s <= e -> c_start ch <= e -> s <= c_end ch ->
  let A := content_of ch h in
  exists w r, after ch h = Some w /\ crun ch (chunk_query ch bs o q s e) w = Some (r, w) /\
  ((forall ls pts, In (ls, pts) A -> matches A q ls = true -> touches s e pts) ->
     exists l, r = Ok l /\ forall ls pts, In (ls, pts) A -> matches A q ls = true -> within s e pts <> [] ->
       exists x, In x l /\ same_set ls (s_meta x) /\ s_points x = within s e pts) /\
  (~ (forall ls pts, In (ls, pts) A -> matches A q ls = true -> touches s e pts) ->
     exists a b, r = Err (OutOfRangeErr a b)).
Proof.
  intros Hb H L Hq Hi Hse He Hs A. destruct (chunk_refines ch bs o h q s e Hb H L Hq Hi Hse) as (w & Ew & Er).
  exists w, (query_spec ch (content_of ch h) q s e). split; [assumption|]. split; [assumption|].
  unfold query_spec. replace ((e <? c_start ch) || (c_end ch <? s)) with false by lia. fold A in Hi |- *.
  assert (P: forall x, In x (matching A q) -> increasing (snd (snd x)) /\ snd (snd x) <> []).
  { intros x Hx. apply matching_pts in Hx as (_ & _ & Hin & _). unfold all_increasing in Hi. rewrite Forall_forall in Hi.
    split; [now apply Hi|]. pose proof (content_pts ch h H) as F. rewrite Forall_forall in F. now apply F. }
  destruct (collect_all s e (matching A q) P) as [C1 C2].
  assert (EQ: (forall ls pts, In (ls, pts) A -> matches A q ls = true -> touches s e pts) <->
              (forall x, In x (matching A q) -> touches s e (snd (snd x)))).
  { split.
    - intros F x Hx. apply matching_pts in Hx as (_ & _ & Hin & M). destruct x as [id [ls pts]]. cbn [fst snd] in *. eauto.
    - intros F ls pts Hin M. destruct (matching_has A q ls pts Hin M) as (id & X). exact (F _ X). }
  split.
  - intros F. destruct (C1 (proj1 EQ F)) as (r & E). exists r. split; [assumption|]. intros ls pts Hin M Hne.
    destruct (matching_has A q ls pts Hin M) as (id & X).
    exists (mkSeries id (sort_labels ls) (within s e pts)). split; [|split; [apply sort_perm|reflexivity]].
    apply (collect_In _ _ _ E). exists id, ls, pts, (within s e pts). split; [assumption|]. split; [|auto].
    destruct (P _ X) as [P1 P2]. cbn [snd] in *. destruct (read_spec_touch pts s e P1 P2) as [[_ T]|[T _]]; [assumption|].
    exfalso. apply T. exact (F _ _ Hin M).
  - intros N. apply C2. intros F. apply N. now apply EQ.
Qed.

(** C26 *)
Lemma run_st_closed {A} ch b (p : prog kcmd A) : forall w,
  run (chandler ch) (lift (@CSt) p) (set_closed w b) =
  option_map (fun x => (fst x, set_closed (snd x) b)) (run (chandler ch) (lift (@CSt) p) w).
Proof.
  induction p as [a|X c k IH]; intros w; [reflexivity|]. cbn [lift run]. unfold chandler at 1 3. cbn [w_st w_faults set_closed].
  destruct (kv_fault_handler _ X c (w_st w, w_faults w)) as [[x [s fs]]|]; [|reflexivity].
  exact (IH x (set_st w s fs)).
Qed.
Lemma run_ix_closed {A} ch b (p : prog kcmd A) : forall w,
  run (chandler ch) (lift (@CIx) p) (set_closed w b) =
  option_map (fun x => (fst x, set_closed (snd x) b)) (run (chandler ch) (lift (@CIx) p) w).
Proof.
  induction p as [a|X c k IH]; intros w; [reflexivity|]. cbn [lift run]. unfold chandler at 1 3. cbn [w_ix w_faults set_closed].
  destruct (kv_fault_handler _ X c (w_ix w, w_faults w)) as [[x [s fs]]|]; [|reflexivity].
  exact (IH x (set_ix w s fs)).
Qed.

Definition ignores_closed {A} ch (p : prog ccmd A) : Prop := forall w b,
  run (chandler ch) p (set_closed w b) = option_map (fun x => (fst x, set_closed (snd x) b)) (run (chandler ch) p w).
Lemma ic_bind {A B} ch (p : prog ccmd A) (f : A -> prog ccmd B) :
  ignores_closed ch p -> (forall a, ignores_closed ch (f a)) -> ignores_closed ch (bind p f).
Proof.
  intros H1 H2 w b. rewrite !run_bind, H1. destruct (run (chandler ch) p w) as [[a w']|]; [|reflexivity].
  cbn [option_map fst snd]. apply H2.
Qed.
Lemma ic_qbind {A B} ch (p : prog ccmd (res A)) (f : A -> prog ccmd (res B)) :
  ignores_closed ch p -> (forall a, ignores_closed ch (f a)) -> ignores_closed ch (qbind p f).
Proof.
  intros H1 H2. unfold qbind. apply ic_bind; [assumption|]. intros [a|e|]; [apply H2|intros w b; reflexivity..].
Qed.
Theorem insert_ignores_closed ch ls p : ignores_closed ch (chunk_insert ch ls p).
Proof.
  assert (R: forall (A : Type) (a : A), ignores_closed ch (Ret a)) by (intros A a w b; reflexivity).
  unfold chunk_insert, with_write_lock. apply ic_bind.
  - intros w b. cbn [run call chandler]. cbn [w_locked set_closed]. destruct (w_locked w); reflexivity.
  - intros [|].
    + apply ic_bind; [intros w b; reflexivity|]. intros _. apply R.
    + apply ic_bind.
      * unfold insert_body. destruct (negb _); [apply R|]. apply ic_qbind; [intros w b; apply run_ix_closed|].
        intros [id|].
        -- apply ic_bind; [intros w b; apply run_st_closed|]. intros r. apply R.
        -- apply ic_bind; [intros w b; reflexivity|]. intros id.
           apply ic_qbind; [intros w b; apply run_ix_closed|]. intros _.
           apply ic_qbind; [intros w b; apply run_st_closed|]. intros _. apply R.
      * intros r. apply ic_bind; [intros w b; reflexivity|]. intros _. apply R.
Qed.
