(* Proofs about the hash map the database query builds. *)
From Coq Require Import ZifyBool ZifyNat Permutation.
From Verif Require Import Rust StringProofs Prog Gorilla Storage Labels LabelProofs Chunk Db DirSpec DbSpec Conc.

Lemma label_eqb_eq a b : label_eqb a b = true <-> a = b.
Proof.
  unfold label_eqb. rewrite andb_true_iff, !bytes_eqb_spec. destruct a, b; cbn. split; [intros [-> ->]; reflexivity|].
  intros [= -> ->]; auto.
Qed.
Lemma labs_eqb_spec a : forall b, labs_eqb a b = true <-> a = b.
Proof.
  induction a as [|x a IH]; intros [|y b]; cbn; try (split; congruence).
  rewrite andb_true_iff, label_eqb_eq, IH. split; [intros [-> ->]; reflexivity|intros [= -> ->]; auto].
Qed.
Lemma labs_eqb_refl a : labs_eqb a a = true.
Proof. now apply labs_eqb_spec. Qed.
Lemma labs_eqb_neq a b : a <> b -> labs_eqb a b = false.
Proof. intros H. destruct (labs_eqb a b) eqn:E; [|reflexivity]. apply labs_eqb_spec in E. contradiction. Qed.

Lemma labels_eq_free a : forall b, (forall x, b = a ++ x -> x = []) -> (forall x, a = b ++ x -> x = []) ->
  labels_eq a b = Ok (labs_eqb a b).
Proof.
  induction a as [|x a IH]; intros [|y b] H1 H2; cbn [labels_eq labs_eqb].
  - reflexivity.
  - specialize (H1 (y :: b) eq_refl). discriminate.
  - specialize (H2 (x :: a) eq_refl). discriminate.
  - destruct (label_eqb x y) eqn:E; [|reflexivity]. apply label_eqb_eq in E. subst y. cbn [andb]. apply IH.
    + intros z ->. now apply H1.
    + intros z ->. now apply H2.
Qed.

Lemma apart_less hs (U V : list label -> Prop) : (forall m, V m -> U m) -> tells_apart hs U -> tells_apart hs V.
Proof. intros H P ks k i k' x Hk Hks. apply P; [now apply H|]. intros a Ha. now apply H, Hks. Qed.
Lemma apart_free hs (U : list label -> Prop) : (forall a x, U a -> U (a ++ x) -> x = []) -> tells_apart hs U.
Proof.
  intros H ks k i k' x Hk Hks _ N E. assert (Hk': U k') by (apply Hks; eapply nth_error_In; exact N).
  destruct E as [-> | ->]; [exact (H k x Hk Hk')|exact (H k' x Hk' Hk)].
Qed.
Lemma free_unmixed hs l q s e : prefix_free l q s e -> unmixed hs l q s e.
Proof. intros H. apply apart_free. intros a x (c & H1 & H2) (c' & H3 & H4). exact (H c c' a x H1 H3 H2 H4). Qed.
Lemma unmixed_less hs l l' q s e : (forall c m, In c l' -> piece c q s e m <> [] -> exists c', In c' l /\ piece c' q s e m <> []) ->
  unmixed hs l q s e -> unmixed hs l' q s e.
Proof. intros H. apply apart_less. intros m (c & H1 & H2). exact (H c m H1 H2). Qed.

Section MAP.
  Variable U : list label -> Prop.
  Variable hs : hasher.
  Hypothesis free : tells_apart hs U.
  Hypothesis ok : hasher_ok hs.

  Lemma eq_U ks k i k' : U k -> (forall a, In a ks -> U a) -> In i (h_probe hs ks k) -> nth_error ks i = Some k' ->
    labels_eq k k' = Ok (labs_eqb k k').
  Proof.
    intros Hk Ha Hi N. apply labels_eq_free; intros x H; [exact (free ks k i k' x Hk Ha Hi N (or_introl H))|exact (free ks k i k' x Hk Ha Hi N (or_intror H))].
  Qed.

  Definition keysU (m : hmap) : Prop := Forall (fun e => U (fst e)) m.

  Lemma probe_spec m k l : keysU m -> U k -> (forall i, In i l -> In i (h_probe hs (map fst m) k)) ->
    exists o, probe m k l = Ok o /\
      match o with
      | Some i => exists v, nth_error m i = Some (k, v)
      | None => forall i v, In i l -> nth_error m i <> Some (k, v)
      end.
  Proof.
    intros Hm Hk. induction l as [|i l IH]; intros HL; cbn [probe].
    - exists None. split; [reflexivity|]. intros ? ? [].
    - destruct IH as (o & E & Ho); [intros j Hj; apply HL; now right|]. destruct (nth_error m i) as [e|] eqn:N.
      + rewrite (eq_U (map fst m) k i (fst e)); [|assumption| |apply HL; now left|rewrite nth_error_map, N; reflexivity].
        2: { intros a Ha. apply in_map_iff in Ha as (y & <- & Hy). unfold keysU in Hm. rewrite Forall_forall in Hm. now apply Hm. } cbn [rbind]. destruct (labs_eqb k (fst e)) eqn:Q.
        * apply labs_eqb_spec in Q. exists (Some i). split; [reflexivity|]. exists (snd e). rewrite N, Q. now destruct e.
        * exists o. split; [exact E|]. destruct o as [j|]; [exact Ho|]. intros j v [<-|Hj]; [|now apply Ho].
          rewrite N. intros [= ->]. cbn in Q. rewrite labs_eqb_refl in Q. discriminate.
      + exists o. split; [exact E|]. destruct o as [j|]; [exact Ho|]. intros j v [<-|Hj]; [congruence|now apply Ho].
  Qed.

  Lemma find_spec m k : keysU m -> U k ->
    exists o, hm_find hs m k = Ok o /\
      match o with
      | Some i => exists v, nth_error m i = Some (k, v)
      | None => ~ In k (map fst m)
      end.
  Proof.
    intros Hm Hk. destruct (probe_spec m k (h_probe hs (map fst m) k) Hm Hk (fun i H => H)) as (o & E & Ho). exists o.
    split; [exact E|]. destruct o as [i|]; [exact Ho|]. intros H. apply In_nth_error in H as (i & Hi).
    pose proof (proj1 ok _ _ _ Hi) as P. rewrite nth_error_map in Hi. destruct (nth_error m i) as [[k' v]|] eqn:N; [|discriminate].
    assert (k' = k) as -> by (cbn in Hi; congruence). now apply (Ho i v P).
  Qed.

  (* the points stored for a key *)
  Definition vals (m : hmap) (k : list label) : list tp :=
    match find (fun e => labs_eqb (fst e) k) m with Some e => snd e | None => [] end.
  Record wfm (m : hmap) : Prop := mkWfm {
    m_nodup : NoDup (map fst m); m_U : keysU m; m_ne : Forall (fun e => snd e <> []) m }.

  Lemma vals_app m k v k' : ~ In k (map fst m) ->
    vals (m ++ [(k, v)]) k' = if labs_eqb k k' then v else vals m k'.
  Proof.
    intros H. unfold vals. induction m as [|e m IH]; cbn [app find fst].
    - destruct (labs_eqb k k'); reflexivity.
    - destruct (labs_eqb (fst e) k') eqn:E.
      + destruct (labs_eqb k k') eqn:F; [|reflexivity]. apply labs_eqb_spec in E, F. exfalso. apply H. left. congruence.
      + apply IH. intros K. apply H. now right.
  Qed.
  Lemma vals_none m k : ~ In k (map fst m) -> vals m k = [].
  Proof.
    intros H. unfold vals. destruct (find _ m) as [e|] eqn:E; [|reflexivity]. apply find_some in E as [E1 E2].
    apply labs_eqb_spec in E2. exfalso. apply H. rewrite <- E2. now apply in_map.
  Qed.
  Lemma vals_In m k v : NoDup (map fst m) -> In (k, v) m -> vals m k = v.
  Proof.
    unfold vals. induction m as [|e m IH]; intros N H; [contradiction|]. cbn [find]. inversion N as [|x xs N1 N2]; subst.
    destruct H as [->|H]; cbn [fst].
    - now rewrite labs_eqb_refl.
    - destruct (labs_eqb (fst e) k) eqn:E; [|now apply IH]. apply labs_eqb_spec in E. exfalso. apply N1. rewrite E.
      change k with (fst (k, v)). now apply in_map.
  Qed.
  Lemma vals_mem m k : vals m k <> [] -> In (k, vals m k) m.
  Proof.
    unfold vals. destruct (find _ m) as [e|] eqn:E; [|congruence]. intros _. apply find_some in E as [E1 E2].
    apply labs_eqb_spec in E2. subst k. now destruct e.
  Qed.
  Lemma map_upd {A B} (f : A -> B) l i x : map f (upd l i x) = upd (map f l) i (f x).
  Proof.
    unfold upd. rewrite map_app, firstn_map. f_equal. rewrite skipn_map. destruct (skipn i l); reflexivity.
  Qed.
  Lemma upd_self {A} (l : list A) i x : nth_error l i = Some x -> upd l i x = l.
  Proof.
    revert i. induction l as [|y l IH]; intros [|i] H; try discriminate.
    - injection H as ->. reflexivity.
    - unfold upd. cbn [firstn skipn app]. f_equal. apply IH. exact H.
  Qed.
  Lemma upd_cons {A} (y : A) l i x : upd (y :: l) (S i) x = y :: upd l i x.
  Proof. reflexivity. Qed.
  Lemma upd_Forall {A} (P : A -> Prop) l i x : Forall P l -> P x -> Forall P (upd l i x).
  Proof.
    intros H Hx. revert i. induction H as [|y l Hy H IH]; intros [|i].
    - constructor.
    - constructor.
    - constructor; assumption.
    - rewrite upd_cons. constructor; [assumption|]. apply IH.
  Qed.
  Lemma vals_upd m i k v v' k' : NoDup (map fst m) -> nth_error m i = Some (k, v) ->
    vals (upd m i (k, v')) k' = if labs_eqb k k' then v' else vals m k'.
  Proof.
    revert i. induction m as [|e m IH]; intros [|i] N H; try discriminate.
    - injection H as ->. cbn. unfold vals. cbn [find fst]. destruct (labs_eqb k k'); reflexivity.
    - rewrite upd_cons. unfold vals. cbn [find]. inversion N as [|x xs N1 N2]; subst.
      destruct (labs_eqb (fst e) k') eqn:E.
      + destruct (labs_eqb k k') eqn:F; [|reflexivity]. apply labs_eqb_spec in E, F. exfalso. apply N1.
        replace (fst e) with (fst (k, v)) by (cbn; congruence). apply in_map. eapply nth_error_In. exact H.
      + apply (IH i N2 H).
  Qed.

  Lemma insert_new m k v : wfm m -> U k -> v <> [] -> ~ In k (map fst m) ->
    hm_insert hs m k v = Ok (m ++ [(k, v)]) /\ wfm (m ++ [(k, v)]).
  Proof.
    intros [W1 W2 W3] Hk Hv N. split.
    - unfold hm_insert. destruct (find_spec m k W2 Hk) as (o & E & Ho). rewrite E. cbn [rbind].
      destruct o as [i|]; [|reflexivity]. destruct Ho as (v' & Hi). exfalso. apply N.
      change k with (fst (k, v')). apply in_map. eapply nth_error_In. exact Hi.
    - constructor.
      + rewrite map_app. cbn [map fst]. apply (Permutation_NoDup (Permutation_cons_append (map fst m) k)). constructor; assumption.
      + apply Forall_app. split; [assumption|]. constructor; [assumption|constructor].
      + apply Forall_app. split; [assumption|]. constructor; [assumption|constructor].
  Qed.

  Lemma append_spec m k v : wfm m -> U k -> v <> [] ->
    exists m', hm_append hs m k v = Ok m' /\ wfm m' /\
      forall k', vals m' k' = if labs_eqb k k' then vals m k ++ v else vals m k'.
  Proof.
    intros W Hk Hv. pose proof W as [W1 W2 W3]. unfold hm_append. destruct (find_spec m k W2 Hk) as (o & E & Ho). rewrite E. cbn [rbind].
    destruct o as [i|].
    - destruct Ho as (v0 & Hi). rewrite Hi. cbn [fst snd]. exists (upd m i (k, v0 ++ v)). split; [reflexivity|]. split.
      + constructor.
        * rewrite map_upd. cbn [fst]. rewrite upd_self; [assumption|]. rewrite nth_error_map, Hi. reflexivity.
        * apply upd_Forall; [assumption|exact Hk].
        * apply upd_Forall; [assumption|]. cbn. intros K. apply app_eq_nil in K as [_ K]. contradiction.
      + intros k'. rewrite (vals_upd m i k v0) by assumption.
        rewrite (vals_In m k v0 W1) by (eapply nth_error_In; exact Hi). reflexivity.
    - destruct (insert_new m k v W Hk Hv Ho) as [E1 E2]. exists (m ++ [(k, v)]). split; [exact E1|]. split; [exact E2|].
      intros k'. rewrite vals_app by assumption. now rewrite (vals_none m k) by assumption.
  Qed.

  (* the points of label set m in an answer *)
  Definition pf (m : list label) (l : list series) : list tp :=
    match find (fun x => labs_eqb (s_meta x) m) l with Some x => s_points x | None => [] end.
  Record wfa (l : list series) : Prop := mkWfa {
    a_nodup : NoDup (map s_meta l); a_U : Forall (fun x => U (s_meta x)) l; a_ne : Forall (fun x => s_points x <> []) l }.

  Lemma pf_none m l : ~ In m (map s_meta l) -> pf m l = [].
  Proof.
    intros H. unfold pf. destruct (find _ l) as [e|] eqn:E; [|reflexivity]. apply find_some in E as [E1 E2].
    apply labs_eqb_spec in E2. exfalso. apply H. rewrite <- E2. now apply in_map.
  Qed.
  Lemma rev_ne {A} (l : list A) : l <> [] -> rev l <> [].
  Proof. intros H K. apply H. rewrite <- (rev_involutive l), K. reflexivity. Qed.

  Lemma merge_append l : forall m, wfm m -> wfa l ->
    exists m', merge (hm_append hs) m l = Ok m' /\ wfm m' /\ forall k, vals m' k = vals m k ++ rev (pf k l).
  Proof.
    induction l as [|x l IH]; intros m W [A1 A2 A3]; cbn [merge].
    - exists m. split; [reflexivity|]. split; [assumption|]. intros k. cbn. now rewrite app_nil_r.
    - cbn [map] in A1. inversion A1 as [|y ys N1 N2]; subst. inversion A2 as [|y ys B1 B2]; subst. inversion A3 as [|y ys C1 C2]; subst.
      destruct (append_spec m (s_meta x) (rev (s_points x)) W B1 (rev_ne _ C1)) as (m1 & E1 & W1 & V1).
      rewrite E1. cbn [rbind]. destruct (IH m1 W1 (mkWfa _ N2 B2 C2)) as (m2 & E2 & W2 & V2). exists m2.
      split; [exact E2|]. split; [exact W2|]. intros k. rewrite V2, V1. unfold pf at 2. cbn [find].
      destruct (labs_eqb (s_meta x) k) eqn:E; [|reflexivity]. apply labs_eqb_spec in E. subst k.
      rewrite pf_none by assumption. cbn [rev]. now rewrite app_nil_r.
  Qed.
  Lemma merge_insert l : forall m, wfm m -> wfa l -> (forall x, In x l -> ~ In (s_meta x) (map fst m)) ->
    exists m', merge (hm_insert hs) m l = Ok m' /\ wfm m' /\ forall k, vals m' k = vals m k ++ rev (pf k l).
  Proof.
    induction l as [|x l IH]; intros m W [A1 A2 A3] D; cbn [merge].
    - exists m. split; [reflexivity|]. split; [assumption|]. intros k. cbn. now rewrite app_nil_r.
    - cbn [map] in A1. inversion A1 as [|y ys N1 N2]; subst. inversion A2 as [|y ys B1 B2]; subst. inversion A3 as [|y ys C1 C2]; subst.
      pose proof (D x (or_introl eq_refl)) as Dx.
      destruct (insert_new m (s_meta x) (rev (s_points x)) W B1 (rev_ne _ C1) Dx) as (E1 & W1).
      rewrite E1. cbn [rbind]. destruct (IH _ W1 (mkWfa _ N2 B2 C2)) as (m2 & E2 & W2 & V2).
      { intros y Hy K. rewrite map_app in K. apply in_app_iff in K as [K|[K|[]]]; [apply (D y (or_intror Hy) K)|].
        cbn [fst] in K. apply N1. rewrite K. now apply in_map. }
      exists m2. split; [exact E2|]. split; [exact W2|]. intros k. rewrite V2, vals_app by assumption.
      unfold pf at 2. cbn [find].
      destruct (labs_eqb (s_meta x) k) eqn:E; [|reflexivity]. apply labs_eqb_spec in E. subst k.
      rewrite pf_none by assumption. cbn [rev]. rewrite app_nil_r. rewrite vals_none by assumption. reflexivity.
  Qed.

  Lemma listing_spec m order : wfm m -> Forall (fun i => i < length m)%nat order ->
    exists r, listing hs m order = Ok r /\
      map Some r = map (fun i => option_map (fun e => (fst e, rev (snd e))) (nth_error m i)) order.
  Proof.
    intros [W1 W2 W3] H. induction H as [|i order Hi H IH]; cbn [listing map]; [exists []; auto|].
    destruct IH as (r & E & R). destruct (nth_error m i) as [e|] eqn:N; [|apply nth_error_None in N; lia].
    assert (He: U (fst e)) by (unfold keysU in W2; rewrite Forall_forall in W2; apply W2; eapply nth_error_In; exact N).
    destruct (find_spec m (fst e) W2 He) as (o & F & Ho). rewrite F, E. cbn [rbind]. destruct o as [j|].
    - destruct Ho as (v & Hj). rewrite Hj. cbn [fst snd].
      assert (v = snd e) as ->.
      { rewrite <- (vals_In m (fst e) v W1 (nth_error_In _ _ Hj)). apply vals_In; [assumption|].
        rewrite <- surjective_pairing. eapply nth_error_In. exact N. }
      eexists. split; [reflexivity|]. cbn [map option_map]. now rewrite R.
    - exfalso. apply Ho. apply in_map. eapply nth_error_In. exact N.
  Qed.

  Lemma map_Some_inj {A} (a b : list A) : map Some a = map Some b -> a = b.
  Proof.
    revert b. induction a as [|x a IH]; intros [|y b] H; try discriminate; [reflexivity|]. cbn in H.
    injection H as -> H. f_equal. now apply IH.
  Qed.
  Lemma nth_all {A} (m : list A) : map (nth_error m) (seq 0 (length m)) = map Some m.
  Proof.
    induction m as [|x m IH]; [reflexivity|]. cbn [length seq map nth_error]. f_equal. rewrite <- seq_shift, map_map. exact IH.
  Qed.

  Lemma listing_all m : wfm m ->
    exists r, listing hs m (h_iter hs (map fst m)) = Ok r /\ Permutation r (map (fun e => (fst e, rev (snd e))) m).
  Proof.
    intros W. pose proof (proj2 ok (map fst m)) as P. rewrite map_length in P.
    destruct (listing_spec m (h_iter hs (map fst m)) W) as (r & E & R).
    { rewrite Forall_forall. intros i Hi. apply (Permutation_in _ P) in Hi. apply in_seq in Hi. lia. }
    exists r. split; [exact E|].
    assert (Q: Permutation (map Some r) (map Some (map (fun e => (fst e, rev (snd e))) m))).
    { rewrite R. rewrite (Permutation_map _ P). rewrite map_map.
      assert (map (fun i => option_map (fun e : list label * list tp => (fst e, rev (snd e))) (nth_error m i)) (seq 0 (length m))
              = map (option_map (fun e => (fst e, rev (snd e)))) (map (nth_error m) (seq 0 (length m)))) as -> by now rewrite map_map.
      rewrite nth_all, !map_map. apply Permutation_refl. }
    apply Permutation_map_inv in Q as (l' & E' & P'). apply map_Some_inj in E'. subst l'. exact (Permutation_sym P').
  Qed.

  (* the whole result of a query whose chunks answered [a0] (current) and [rest] (the others, in
     the order visited) *)
  Fixpoint merges (m : hmap) (rest : list (list series)) : res hmap :=
    match rest with
    | [] => Ok m
    | l :: rest' => let* m' := merge (hm_append hs) m l in merges m' rest'
    end.
  Lemma merges_spec rest : forall m, wfm m -> Forall wfa rest ->
    exists m', merges m rest = Ok m' /\ wfm m' /\
      forall k, vals m' k = vals m k ++ concat (map (fun l => rev (pf k l)) rest).
  Proof.
    induction rest as [|l rest IH]; intros m W H; cbn [merges].
    - exists m. split; [reflexivity|]. split; [assumption|]. intros k. cbn. now rewrite app_nil_r.
    - inversion H as [|x xs H1 H2]; subst. destruct (merge_append l m W H1) as (m1 & E1 & W1 & V1). rewrite E1. cbn [rbind].
      destruct (IH m1 W1 H2) as (m2 & E2 & W2 & V2). exists m2. split; [exact E2|]. split; [exact W2|].
      intros k. rewrite V2, V1. cbn [map concat]. now rewrite app_assoc.
  Qed.
  Definition assembled (a0 : list series) (rest : list (list series)) : res (list (list label * list tp)) :=
    let* m := merge (hm_insert hs) [] a0 in
    let* m := merges m rest in
    listing hs m (h_iter hs (map fst m)).

  Lemma rev_concat_rev {A} (l : list (list A)) : rev (concat (map (@rev A) l)) = concat (rev l).
  Proof.
    induction l as [|x l IH]; [reflexivity|]. cbn [map concat rev]. rewrite rev_app_distr, IH, rev_involutive, concat_app.
    cbn [concat]. now rewrite app_nil_r.
  Qed.

  Theorem assembled_spec a0 rest : wfa a0 -> Forall wfa rest ->
    exists r, assembled a0 rest = Ok r /\ NoDup (map fst r) /\ Forall (fun e => U (fst e)) r /\
      forall m pts, In (m, pts) r <-> pts <> [] /\ pts = concat (map (pf m) (rev (a0 :: rest))).
  Proof.
    intros H0 H. unfold assembled.
    assert (W0: wfm []) by (constructor; constructor).
    destruct (merge_insert a0 [] W0 H0) as (m1 & E1 & W1 & V1); [intros x Hx []|]. rewrite E1. cbn [rbind].
    destruct (merges_spec rest m1 W1 H) as (m2 & E2 & W2 & V2). rewrite E2. cbn [rbind].
    destruct (listing_all m2 W2) as (r & E3 & P). exists r. split; [exact E3|].
    assert (M: map fst (map (fun e : list label * list tp => (fst e, rev (snd e))) m2) = map fst m2) by (rewrite map_map; reflexivity).
    split; [|split].
    - apply (Permutation_NoDup (Permutation_sym (Permutation_map fst P))). rewrite M. apply W2.
    - rewrite Forall_forall. intros e He. apply (Permutation_in _ P) in He. apply in_map_iff in He as (x & <- & Hx). cbn [fst].
      pose proof (m_U _ W2) as F. unfold keysU in F. rewrite Forall_forall in F. now apply F.
    - intros m pts.
      assert (V: concat (map (pf m) (rev (a0 :: rest))) = rev (vals m2 m)).
      { rewrite V2, V1. change (vals [] m) with (@nil tp). cbn [app].
        change (rev (pf m a0) ++ concat (map (fun l => rev (pf m l)) rest)) with (concat (map (fun l => rev (pf m l)) (a0 :: rest))).
        rewrite <- (map_map (pf m) (@rev tp)). rewrite rev_concat_rev. f_equal. now rewrite map_rev. }
      rewrite V. split.
      + intros Hin. apply (Permutation_in _ P) in Hin. apply in_map_iff in Hin as ([k v] & E & Hx). cbn [fst snd] in E.
        assert (k = m) by congruence. assert (pts = rev v) by congruence. subst k pts.
        pose proof (m_ne _ W2) as F. rewrite Forall_forall in F. specialize (F _ Hx). cbn in F.
        split; [now apply rev_ne|]. now rewrite (vals_In m2 m v (m_nodup _ W2) Hx).
      + intros [Hne ->]. apply (Permutation_in _ (Permutation_sym P)).
        assert (vals m2 m <> []) by (intros K; apply Hne; now rewrite K).
        apply vals_mem in H1. apply in_map_iff. exists (m, vals m2 m). split; [reflexivity|assumption].
  Qed.
End MAP.
