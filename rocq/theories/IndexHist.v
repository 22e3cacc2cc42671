(* The index after a history of creations. *)
From Coq Require Import ZifyBool ZifyNat Permutation Sorted.
From Verif Require Import Rust Prog Compactor Labels Indexer IndexSpec LabelProofs IntersectProofs IndexProofs.
Ltac Zify.zify_post_hook ::= Z.div_mod_to_equations.

Lemma created_snoc ix h e :
  created ix (h ++ [e]) = snd (krun (create_index ix (snd e) (fst e)) (created ix h)).
Proof. unfold created. now rewrite fold_left_app. Qed.
Lemma once_snoc h e : registered_once (h ++ [e]) = register_once (registered_once h) e.
Proof. unfold registered_once. now rewrite fold_left_app. Qed.

Lemma created_rep ix h : hist_ok h -> rep ix (created ix h) (registry ix h).
Proof.
  induction h as [|[id ls] h IH] using rev_ind; intros H.
  - destruct ix; apply rep_empty.
  - apply Forall_app in H as [H1 H2]. inversion H2 as [|x xs [Hi Hs] _]; subst. cbn [fst snd] in Hi, Hs.
    specialize (IH H1). rewrite created_snoc. cbn [fst snd]. destruct ix; cbn [registry] in *.
    + rewrite once_snoc. unfold register_once. cbn [snd].
      pose proof (sled_create_run _ _ ls id IH Hs Hi) as C.
      destruct (existsb _ _); [now rewrite C|]. destruct C as (s' & -> & R). exact R.
    + destruct (tikv_create_run ident _ _ ls id IH Hs Hi) as (s' & -> & R). exact R.
Qed.

Lemma once_incl h e : In e (registered_once h) -> In e h.
Proof.
  induction h as [|x h IH] using rev_ind; [intros []|]. rewrite once_snoc. unfold register_once. rewrite in_app_iff.
  destruct (existsb _ _); [auto|]. rewrite in_app_iff. tauto.
Qed.
Lemma registry_incl ix h e : In e (registry ix h) -> In e h.
Proof. destruct ix; [apply once_incl|auto]. Qed.
Lemma registry_ids_ok ix h : hist_ok h -> ids_ok (registry ix h).
Proof.
  intros H. unfold ids_ok. rewrite Forall_forall. intros e He. apply registry_incl in He.
  unfold hist_ok in H. rewrite Forall_forall in H. now apply H.
Qed.
Lemma registry_sets_ok ix h : hist_ok h -> sets_ok (registry ix h).
Proof.
  intros H. unfold sets_ok. rewrite Forall_forall. intros e He. apply registry_incl in He.
  unfold hist_ok in H. rewrite Forall_forall in H. now apply H.
Qed.
Lemma asc_snoc l x : ascending (l ++ [x]) <-> ascending l /\ Forall (fun y => y < x) l.
Proof.
  induction l as [|y l IH]; cbn [app].
  - split; [intros _; split; constructor|intros _; repeat constructor].
  - split.
    + intros H. apply asc_inv in H as [H1 H2]. apply IH in H1 as [H1 H3]. apply Forall_app in H2 as [H2 H4].
      inversion H4; subst. split; constructor; assumption.
    + intros [H1 H2]. apply asc_inv in H1 as [H1 H3]. inversion H2; subst. constructor.
      * apply IH. auto.
      * apply Forall_app. split; [assumption|]. now repeat constructor.
Qed.
Lemma registry_asc ix h : ascending (map fst h) -> ascending (map fst (registry ix h)).
Proof.
  destruct ix; [|auto]. cbn [registry]. induction h as [|x h IH] using rev_ind; [auto|].
  rewrite once_snoc, map_app. cbn [map]. intros H. apply asc_snoc in H as [H1 H2].
  unfold register_once. destruct (existsb _ _); [now apply IH|]. rewrite map_app. cbn [map]. apply asc_snoc.
  split; [now apply IH|]. rewrite Forall_forall in *. intros y Hy. apply H2.
  apply in_map_iff in Hy as (e & <- & He). apply in_map. now apply once_incl.
Qed.

Lemma same_setb_trans_r a b c : keys_distinct a -> keys_distinct b -> keys_distinct c ->
  same_setb a b = true -> same_setb c a = same_setb c b.
Proof.
  intros A B C H. apply same_setb_spec in H; [|assumption..].
  destruct (same_setb c a) eqn:E1; destruct (same_setb c b) eqn:E2; try reflexivity.
  - apply same_setb_spec in E1; [|assumption..]. assert (same_setb c b = true); [|congruence].
    apply same_setb_spec; [assumption..|]. now rewrite E1.
  - apply same_setb_spec in E2; [|assumption..]. assert (same_setb c a = true); [|congruence].
    apply same_setb_spec; [assumption..|]. now rewrite E2, H.
Qed.

Lemma find_app {A} (f : A -> bool) l l' : find f (l ++ l') = match find f l with Some x => Some x | None => find f l' end.
Proof. induction l as [|x l IH]; cbn; [reflexivity|]. destruct (f x); auto. Qed.

(* the sled index answers with the first registration of the set *)
Lemma once_lookup h : hist_ok h -> forall ls, keys_distinct ls ->
  lookup_set (registered_once h) ls = find (fun e => same_setb (snd e) ls) h.
Proof.
  induction h as [|e h IH] using rev_ind; intros H ls Hls; [reflexivity|].
  apply Forall_app in H as [H1 H2]. inversion H2 as [|x xs [Hi (_ & Hs & _)] _]; subst. specialize (IH H1).
  assert (K: forall x, In x h -> keys_distinct (snd x)).
  { intros x Hx. unfold hist_ok in H1. rewrite Forall_forall in H1. now apply H1. }
  rewrite once_snoc, find_app. cbn [find]. unfold register_once.
  destruct (existsb (fun e' => same_setb (snd e') (snd e)) (registered_once h)) eqn:E.
  - rewrite IH by assumption. destruct (find _ h) eqn:F; [reflexivity|].
    destruct (same_setb (snd e) ls) eqn:Q; [|reflexivity]. exfalso.
    apply lookup_set_some in E as (e' & E). rewrite IH in E by assumption.
    apply find_some in E as [E1 E2]. pose proof (find_none _ _ F e' E1) as N. cbn beta in N.
    rewrite (same_setb_trans_r (snd e) ls) in E2; auto. congruence.
  - rewrite lookup_set_snoc, IH by assumption. destruct (same_setb (snd e) ls) eqn:Q.
    + destruct (find _ h) as [e'|] eqn:F; [|reflexivity]. exfalso. apply find_some in F as [F1 F2].
      rewrite <- (same_setb_trans_r (snd e) ls) in F2 by auto.
      assert (exists x, lookup_set (registered_once h) (snd e) = Some x) as X.
      { rewrite IH by assumption. destruct (find (fun e0 => same_setb (snd e0) (snd e)) h) eqn:F3; [eauto|].
        pose proof (find_none _ _ F3 e' F1) as N. cbn beta in N. congruence. }
      apply lookup_set_some in X. congruence.
    + destruct (find _ h); reflexivity.
Qed.

Definition first_of (h : reg) ls := find (fun e : Z * list label => same_setb (snd e) ls) h.

Lemma by_labels_created ix h ls : hist_ok h -> set_ok ls ->
  krun (series_id_by_labels ix ls) (created ix h) =
  (Ok (option_map fst (first_of (match ix with SledIndexer => h | TiKvIndexer _ => rev h end) ls)), created ix h).
Proof.
  intros H Hls. rewrite (by_labels_run ix _ (registry ix h)); [|now apply created_rep|now apply registry_ids_ok|assumption].
  destruct ix; cbn [registry]; [|reflexivity]. rewrite once_lookup; [reflexivity|assumption|apply Hls].
Qed.

Lemma by_labels_exact ix h ls : hist_ok h -> set_ok ls ->
  exists r, krun (series_id_by_labels ix ls) (created ix h) = (Ok r, created ix h) /\
    (forall id, r = Some id -> exists ls', In (id, ls') h /\ same_set ls' ls) /\
    (r = None -> forall id ls', In (id, ls') h -> ~ same_set ls' ls).
Proof.
  intros H Hls. rewrite by_labels_created by assumption. eexists. split; [reflexivity|].
  set (h' := match ix with SledIndexer => h | TiKvIndexer _ => rev h end).
  assert (P: forall e, In e h' <-> In e h) by (intros e; subst h'; destruct ix; [reflexivity|symmetry; apply in_rev]).
  assert (K: forall x, In x h -> keys_distinct (snd x)).
  { intros x Hx. unfold hist_ok in H. rewrite Forall_forall in H. now apply H. }
  split.
  - intros id E. unfold first_of in E. destruct (find _ h') as [[i l]|] eqn:F; [|discriminate]. cbn in E.
    apply find_some in F as [F1 F2]. apply P in F1. exists l. assert (i = id) by congruence. subst. split; [assumption|].
    apply same_setb_spec; [exact (K _ F1)|apply Hls|assumption].
  - intros E id l Hi S1. unfold first_of in E. destruct (find _ h') as [e|] eqn:F; [discriminate|].
    pose proof (find_none _ _ F (id, l)) as N. cbn [snd] in N.
    assert (same_setb l ls = true) by (apply same_setb_spec; [exact (K _ Hi)|apply Hls|assumption]).
    rewrite N in H0; [discriminate|]. now apply P.
Qed.

Lemma contains_created ix o h q : hist_ok h -> ascending (map fst h) -> Forall lab_ok q ->
  krun (series_id_contains_labels ix o q) (created ix h) =
  (Ok (map fst (search_regs (registry ix h) q)), created ix h).
Proof.
  intros H A Q. apply contains_run; auto using created_rep, registry_ids_ok, registry_asc.
Qed.
Lemma metadata_created ix o h q : hist_ok h -> ascending (map fst h) -> Forall lab_ok q ->
  krun (series_metadata_contains_labels ix o q) (created ix h) =
  (Ok (map (fun e => (fst e, sort_labels (snd e))) (search_regs (registry ix h) q)), created ix h).
Proof.
  intros H A Q. apply metadata_run; auto using created_rep, registry_ids_ok, registry_asc, registry_sets_ok.
Qed.

(* when every searched label is known the answer is exact *)
Lemma search_known R q : q <> [] -> (forall l, In l q -> known R l = true) ->
  search_regs R q = filter (fun e => forallb (has (snd e)) q) R.
Proof.
  intros Hne Hk. unfold search_regs. assert (existsb (known R) q = true) as ->.
  { destruct q as [|l q]; [congruence|]. cbn. now rewrite Hk by now left. }
  apply filter_ext. intros e. clear Hne.
  induction q as [|l q IH]; [reflexivity|]. cbn [forallb]. rewrite Hk by now left. cbn [negb orb].
  rewrite IH; [reflexivity|]. intros; apply Hk; now right.
Qed.

Lemma sled_duplicate h ls id : hist_ok h -> set_ok ls -> id_ok id ->
  krun (create_index SledIndexer ls id) (created SledIndexer h) =
    (if existsb (fun e => same_setb (snd e) ls) h then (Err InternalErr, created SledIndexer h)
     else (Ok tt, created SledIndexer (h ++ [(id, ls)]))).
Proof.
  intros H Hls Hid. pose proof (sled_create_run _ _ ls id (created_rep SledIndexer h H) Hls Hid) as C.
  cbn [registry] in C.
  assert (existsb (fun e => same_setb (snd e) ls) (registered_once h) = existsb (fun e => same_setb (snd e) ls) h) as E.
  { destruct (existsb _ (registered_once h)) eqn:E1; symmetry.
    - apply lookup_set_some in E1 as (e & E1). rewrite once_lookup in E1 by (auto; apply Hls).
      apply find_some in E1. apply existsb_exists. eauto.
    - destruct (existsb _ h) eqn:E2; [|reflexivity]. exfalso.
      assert (X: exists e, lookup_set (registered_once h) ls = Some e).
      { rewrite once_lookup by (auto; apply Hls). apply existsb_exists in E2 as (e & E2 & E3).
        destruct (find _ h) eqn:F; [eauto|]. pose proof (find_none _ _ F e E2) as N. cbn beta in N. congruence. }
      apply lookup_set_some in X. congruence. }
  rewrite E in C. destruct (existsb _ h); [exact C|]. destruct C as (s' & C & _).
  rewrite created_snoc. cbn [fst snd]. rewrite C. reflexivity.
Qed.

Lemma tikv_rebind i h ls id : hist_ok h -> set_ok ls -> id_ok id ->
  krun (create_index (TiKvIndexer i) ls id) (created (TiKvIndexer i) h) =
    (Ok tt, created (TiKvIndexer i) (h ++ [(id, ls)])) /\
  fst (krun (series_id_by_labels (TiKvIndexer i) ls) (created (TiKvIndexer i) (h ++ [(id, ls)]))) = Ok (Some id).
Proof.
  intros H Hls Hid. split.
  - destruct (tikv_create_run i _ _ ls id (created_rep _ h H) Hls Hid) as (s' & C & _).
    rewrite created_snoc. cbn [fst snd]. rewrite C. reflexivity.
  - rewrite by_labels_created; [|apply Forall_app; split; [assumption|repeat constructor; assumption || apply Hls || apply Hid]|assumption].
    rewrite rev_app_distr. cbn [rev app first_of find snd fst].
    assert (same_setb ls ls = true) as ->.
    { apply same_setb_spec; [apply Hls..|]. apply Permutation_refl. }
    reflexivity.
Qed.

Lemma by_labels_perm ix a b s : keys_distinct a -> same_set a b ->
  krun (series_id_by_labels ix a) s = krun (series_id_by_labels ix b) s.
Proof.
  intros D P.
  assert (E: encode_labels a true = encode_labels b true).
  { rewrite !encode_labels_join. now rewrite (sort_perm_eq a b D P). }
  destruct ix; cbn [series_id_by_labels]; unfold sled_by_labels, tikv_by_labels; now rewrite E.
Qed.

(** the domain of the label codec, up to order *)
Fixpoint name_bytes (ls : list label) : nat :=
  match ls with [] => 0 | l :: ls' => length (l_key l) + name_bytes ls' end.
Lemma name_bytes_perm a b : Permutation a b -> name_bytes a = name_bytes b.
Proof. induction 1; cbn [name_bytes]; lia. Qed.

Lemma decoded_shorter l r : Forall2 (fun a b => decode_pair (encode_pair a) = Ok b) l r ->
  (name_bytes r <= name_bytes l)%nat /\
  (name_bytes r = name_bytes l -> Forall (fun a => ~ In equals (l_key a)) l).
Proof.
  induction 1 as [|a b l r H _ [IH1 IH2]]; [split; [lia|constructor]|].
  change (name_bytes (a :: l)) with (length (l_key a) + name_bytes l)%nat.
  change (name_bytes (b :: r)) with (length (l_key b) + name_bytes r)%nat.
  apply decode_pair_inv in H as [H1 H2].
  assert (length (l_key b) <= length (l_key a) /\ (length (l_key b) = length (l_key a) -> l_key a = l_key b))%nat as [L1 L2].
  { unfold encode_pair in H1. cbn [app] in H1. revert H1 H2. generalize (l_val a) (l_val b). generalize (l_key b).
    generalize (l_key a). intros ka. induction ka as [|x ka IH]; intros kb va vb H1 H2.
    - destruct kb as [|y kb]; [split; [lia|reflexivity]|]. injection H1 as E _. exfalso. apply H2. now left.
    - destruct kb as [|y kb]; cbn [length].
      + split; [lia|discriminate].
      + cbn [app] in H1. injection H1 as -> H1.
        destruct (IH kb va vb H1) as [A B]; [intros Q; apply H2; now right|]. split; [lia|].
        intros E. f_equal. apply B. lia. }
  split; [lia|]. intros E. constructor; [|apply IH2; lia]. rewrite L2 by lia. assumption.
Qed.

Lemma decode_perm_iff ls k :
  (exists r, decode_labels (encode_labels ls k) k = Ok r /\ same_set ls r) <-> ls <> [] /\ Forall lab_ok ls.
Proof.
  split.
  - intros (r & D & P). apply decode_encode_iff with (k := k).
    rewrite D. rewrite encode_labels_join in D.
    assert (D': mapM decode_pair (split_on comma (join comma (map encode_pair (sort_labels ls)))) = Ok r)
      by (rewrite <- D; destruct k; reflexivity).
    clear D. assert (P': Permutation (sort_labels ls) r).
    { eapply Permutation_trans; [apply Permutation_sym, sort_perm|exact P]. }
    clear P. f_equal. revert D' P'. generalize (sort_labels ls). intros l D P. apply mapM_ok in D.
    assert (Hne: l <> []). { intros ->. cbn in D. apply Permutation_nil in P. subst. inversion D. }
    assert (L: length (split_on comma (join comma (map encode_pair l))) = length l).
    { rewrite (Permutation_length P). eapply Forall2_len; exact D. }
    rewrite split_on_length in L.
    assert (C: Forall (fun s => ~ In comma s) (map encode_pair l)).
    { apply join_occ; [destruct l; cbn; congruence|]. rewrite map_length. lia. }
    rewrite split_on_join in D by (try assumption; destruct l; cbn; congruence).
    assert (D2: Forall2 (fun a b => decode_pair (encode_pair a) = Ok b) l r).
    { clear -D. remember (map encode_pair l) as m. revert l Heqm. induction D; intros [|a l0] E; try discriminate; constructor.
      - injection E as -> E. assumption.
      - apply IHD. now injection E. }
    pose proof (proj2 (decoded_shorter _ _ D2) (eq_sym (name_bytes_perm _ _ P))) as N.
    clear -D2 N. induction D2 as [|a b l r H D2 IH]; [reflexivity|]. inversion N; subst. f_equal; [|now apply IH].
    rewrite decode_pair_encode in H by assumption. congruence.
  - intros H. exists (sort_labels ls). split; [now apply decode_encode_iff|apply sort_perm].
Qed.

Lemma insert_le x l : sorted_by_name l -> sorted_by_name (insert_label x l).
Proof.
  intros H. induction H as [|y l H IH Hy]; cbn; [repeat constructor|].
  assert (C: forall z, In z (y :: l) -> bytes_cmp (l_key x) (l_key y) <> Gt -> bytes_cmp (l_key x) (l_key z) <> Gt).
  { intros z [<-|Hz] N; [assumption|]. rewrite Forall_forall in Hy. specialize (Hy _ Hz).
    destruct (bytes_cmp (l_key x) (l_key y)) eqn:E1; [apply bytes_cmp_eq in E1; now rewrite E1| |congruence].
    destruct (bytes_cmp (l_key y) (l_key z)) eqn:E2; [apply bytes_cmp_eq in E2; rewrite <- E2; congruence| |congruence].
    rewrite (bytes_cmp_trans _ _ _ E1 E2). discriminate. }
  unfold label_cmp. destruct (bytes_cmp (l_key x) (l_key y)) eqn:E.
  - constructor; [constructor; assumption|]. rewrite Forall_forall. intros z Hz. apply C; [assumption|discriminate].
  - constructor; [constructor; assumption|]. rewrite Forall_forall. intros z Hz. apply C; [assumption|discriminate].
  - constructor; [assumption|]. eapply Permutation_Forall; [apply insert_perm|]. constructor; [|assumption].
    rewrite bytes_cmp_sym, E. discriminate.
Qed.
Lemma sort_by_name l : sorted_by_name (sort_labels l).
Proof. induction l; cbn; [constructor|now apply insert_le]. Qed.

Lemma decode_sorted ls k : ls <> [] -> Forall lab_ok ls ->
  exists r, decode_labels (encode_labels ls k) k = Ok r /\ same_set ls r /\ sorted_by_name r.
Proof.
  intros H1 H2. exists (sort_labels ls). split; [now apply decode_encode_iff|]. split; [apply sort_perm|apply sort_by_name].
Qed.

Lemma same_in_reg ls h : keys_distinct ls -> hist_ok h ->
  existsb (fun e => same_setb (snd e) ls) h = true <-> exists e, In e h /\ same_set (snd e) ls.
Proof.
  intros D H. rewrite existsb_exists. unfold hist_ok in H. rewrite Forall_forall in H. split; intros (e & H1 & H2); exists e.
  - split; [assumption|]. apply same_setb_spec in H2; [assumption|now apply H|assumption].
  - split; [assumption|]. apply same_setb_spec; [now apply H|assumption|assumption].
Qed.

Lemma sled_refuses h ls id : hist_ok h -> set_ok ls -> id_ok id ->
  ((exists e, In e h /\ same_set (snd e) ls) ->
     krun (create_index SledIndexer ls id) (created SledIndexer h) = (Err InternalErr, created SledIndexer h)) /\
  (~ (exists e, In e h /\ same_set (snd e) ls) ->
     fst (krun (create_index SledIndexer ls id) (created SledIndexer h)) = Ok tt).
Proof.
  intros H Hls Hid. rewrite sled_duplicate by assumption.
  pose proof (same_in_reg ls h (proj1 (proj2 Hls)) H) as E. destruct (existsb _ h).
  - split; [reflexivity|]. intros N. exfalso. apply N. now apply E.
  - split; [|reflexivity]. intros X. apply E in X. discriminate.
Qed.

Lemma hist_snoc h id ls : hist_ok h -> set_ok ls -> id_ok id -> hist_ok (h ++ [(id, ls)]).
Proof. intros H Hls Hid. apply Forall_app. split; [assumption|]. constructor; [|constructor]. split; assumption. Qed.

Lemma created_found ix h ls ls' id : hist_ok h -> set_ok ls -> id_ok id -> same_set ls ls' ->
  (forall e, In e h -> ~ same_set (snd e) ls) ->
  fst (krun (create_index ix ls id) (created ix h)) = Ok tt /\
  fst (krun (series_id_by_labels ix ls') (snd (krun (create_index ix ls id) (created ix h)))) = Ok (Some id).
Proof.
  intros H Hls Hid P N. rewrite <- (by_labels_perm ix ls ls') by (apply Hls || assumption). destruct ix.
  - pose proof (sled_duplicate h ls id H Hls Hid) as C.
    assert (E: existsb (fun e => same_setb (snd e) ls) h = false).
    { destruct (existsb _ h) eqn:E; [|reflexivity]. apply same_in_reg in E as (e & E1 & E2); [|apply Hls|assumption].
      exfalso. now apply (N e). }
    rewrite E in C. rewrite C. split; [reflexivity|]. cbn [snd].
    rewrite by_labels_created by (auto using hist_snoc). unfold first_of. rewrite find_app.
    destruct (find _ h) as [e|] eqn:F.
    + exfalso. apply find_some in F as [F1 F2].
      assert (existsb (fun e => same_setb (snd e) ls) h = true) by (apply existsb_exists; eauto). congruence.
    + cbn [find snd]. assert (same_setb ls ls = true) as ->; [|reflexivity].
      apply same_setb_spec; [apply Hls..|apply Permutation_refl].
  - destruct (tikv_rebind ident h ls id H Hls Hid) as [C1 C2]. rewrite C1. split; [reflexivity|exact C2].
Qed.

Lemma known_In R l : known R l = true <-> exists e, In e R /\ In l (snd e).
Proof.
  unfold known. rewrite existsb_exists. split; intros (e & H1 & H2); exists e; (split; [assumption|]); now apply has_In.
Qed.

Lemma contains_known ix o h q : hist_ok h -> ascending (map fst h) -> Forall lab_ok q -> q <> [] ->
  (forall l, In l q -> exists e, In e (registry ix h) /\ In l (snd e)) ->
  fst (krun (series_id_contains_labels ix o q) (created ix h)) =
  Ok (map fst (filter (fun e => forallb (has (snd e)) q) (registry ix h))).
Proof.
  intros H A Q Hne K. rewrite contains_created by assumption. cbn [fst]. rewrite search_known; [reflexivity|assumption|].
  intros l Hl. apply known_In. auto.
Qed.
Lemma contains_nothing ix o h q : hist_ok h -> ascending (map fst h) -> Forall lab_ok q ->
  (forall l e, In l q -> In e (registry ix h) -> ~ In l (snd e)) ->
  fst (krun (series_id_contains_labels ix o q) (created ix h)) = Ok [].
Proof.
  intros H A Q N. rewrite contains_created by assumption. cbn [fst]. unfold search_regs.
  destruct (existsb (known (registry ix h)) q) eqn:E; [|reflexivity].
  apply existsb_exists in E as (l & Hl & K). apply known_In in K as (e & He & Hi). exfalso. now apply (N l e).
Qed.

Lemma metadata_registered ix o h q : hist_ok h -> ascending (map fst h) -> Forall lab_ok q ->
  exists m, krun (series_metadata_contains_labels ix o q) (created ix h) = (Ok m, created ix h) /\
    fst (krun (series_id_contains_labels ix o q) (created ix h)) = Ok (map fst m) /\
    (forall id ls, In (id, ls) m -> sorted_by_name ls /\ exists ls', In (id, ls') h /\ same_set ls' ls).
Proof.
  intros H A Q. eexists. split; [now apply metadata_created|]. split.
  - rewrite contains_created by assumption. cbn [fst]. rewrite map_map. reflexivity.
  - intros id ls Hi. apply in_map_iff in Hi as ([i l] & E & He). cbn [fst snd] in E.
    assert (i = id) by congruence. assert (ls = sort_labels l) by congruence. subst.
    split; [apply sort_by_name|]. exists l. split; [|apply sort_perm].
    apply search_regs_In in He as [He _]. now apply registry_incl in He.
Qed.
