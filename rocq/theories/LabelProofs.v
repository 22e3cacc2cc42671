(* Proofs about label sets and their encoding. *)
From Coq Require Import ZifyBool ZifyNat Permutation Sorted String.
From Verif Require Import Rust BitsProofs StringProofs Compactor Labels IndexSpec.
Ltac Zify.zify_post_hook ::= Z.div_mod_to_equations.
Local Notation length := List.length.

(** ** joining and splitting *)
Fixpoint join (c : Z) (l : list bytes) : bytes :=
  match l with
  | [] => []
  | [x] => x
  | x :: l' => x ++ c :: join c l'
  end.

Lemma join_cons c x y l : join c (x :: y :: l) = x ++ c :: join c (y :: l).
Proof. reflexivity. Qed.

Lemma split_on_none c s : ~ In c s -> split_on c s = [s].
Proof.
  induction s as [|x s IH]; intros H; [reflexivity|]. cbn [split_on].
  destruct (x =? c) eqn:E; [exfalso; apply H; left; lia|].
  rewrite IH; [reflexivity|]. intros Hi; apply H; now right.
Qed.

Lemma split_on_cons c s t : ~ In c s -> split_on c (s ++ c :: t) = s :: split_on c t.
Proof.
  induction s as [|x s IH]; intros H; cbn [app split_on].
  - now rewrite Z.eqb_refl.
  - destruct (x =? c) eqn:E; [exfalso; apply H; left; lia|].
    rewrite IH; [reflexivity|]. intros Hi; apply H; now right.
Qed.

Lemma split_on_join c l : l <> [] -> Forall (fun s => ~ In c s) l -> split_on c (join c l) = l.
Proof.
  intros Hne H. induction H as [|x l Hx H IH]; [congruence|].
  destruct l as [|y l].
  - cbn. now apply split_on_none.
  - rewrite join_cons, split_on_cons by assumption. f_equal. apply IH. congruence.
Qed.

Lemma split_on_length c s : length (split_on c s) = S (count_occ Z.eq_dec s c).
Proof.
  induction s as [|x s IH]; [reflexivity|]. cbn [split_on count_occ].
  destruct (x =? c) eqn:E; destruct (Z.eq_dec x c); try lia.
  - cbn [length]. now rewrite IH.
  - destruct (split_on c s) as [|w ws]; [cbn in IH; lia|]. exact IH.
Qed.

Lemma join_occ c l : (count_occ Z.eq_dec (join c l) c + 1 >= length l)%nat /\
  (l <> [] -> count_occ Z.eq_dec (join c l) c + 1 = length l -> Forall (fun s => ~ In c s) l)%nat.
Proof.
  induction l as [|x l IH]; [cbn; split; [lia|congruence]|].
  destruct l as [|y l].
  - cbn [join length]. split; [lia|]. intros _ H. constructor; [|constructor].
    apply (count_occ_not_In Z.eq_dec). lia.
  - rewrite join_cons. rewrite count_occ_app. cbn [count_occ]. destruct (Z.eq_dec c c); [|congruence].
    destruct IH as [IH1 IH2]. change (length (x :: y :: l)) with (S (length (y :: l))).
    set (n := count_occ Z.eq_dec (join c (y :: l)) c) in *. split; [lia|]. intros _ H. constructor.
    + apply (count_occ_not_In Z.eq_dec). lia.
    + apply IH2; [congruence|lia].
Qed.

Lemma removelast_body (l : list bytes) c :
  removelast (concat_bytes (map (fun x => x ++ [c]) l)) = join c l.
Proof.
  unfold concat_bytes. induction l as [|x l IH]; [reflexivity|].
  destruct l as [|y l].
  - cbn [map concat join]. rewrite app_nil_r. apply removelast_last.
  - rewrite join_cons, <- IH. cbn [map]. set (r := map _ _).
    cbn [concat]. rewrite <- app_assoc. cbn [app].
    rewrite removelast_app by congruence. f_equal. cbn [concat].
    destruct ((y ++ [c]) ++ concat r) eqn:E; [destruct y; discriminate|]. reflexivity.
Qed.

Lemma encode_labels_join ls p :
  encode_labels ls p = (if p then s2b "L" else []) ++ join comma (map encode_pair (sort_labels ls)).
Proof.
  unfold encode_labels.
  replace (map (fun l => encode_pair l ++ [comma]) (sort_labels ls))
    with (map (fun x => x ++ [comma]) (map encode_pair (sort_labels ls))) by (rewrite map_map; reflexivity).
  rewrite removelast_body. destruct p; reflexivity.
Qed.

(** ** sorting *)
Lemma bytes_cmp_eq a : forall b, bytes_cmp a b = Eq <-> a = b.
Proof.
  induction a as [|x a IH]; intros [|y b]; cbn; try (split; congruence).
  destruct (Z.compare_spec x y) as [->|H|H].
  - rewrite IH. split; [intros ->; reflexivity|intros H; injection H; auto].
  - split; [discriminate|]. intros E. injection E as -> _. lia.
  - split; [discriminate|]. intros E. injection E as -> _. lia.
Qed.
Lemma bytes_cmp_sym a : forall b, bytes_cmp b a = CompOpp (bytes_cmp a b).
Proof.
  induction a as [|x a IH]; intros [|y b]; cbn; try reflexivity.
  rewrite (Z.compare_antisym x y). destruct (x ?= y) eqn:E; cbn; [apply IH|reflexivity..].
Qed.
Lemma bytes_cmp_trans a : forall b c, bytes_cmp a b = Lt -> bytes_cmp b c = Lt -> bytes_cmp a c = Lt.
Proof.
  induction a as [|x a IH]; intros [|y b] [|z c]; cbn; try congruence.
  destruct (Z.compare_spec x y) as [->|H|H]; destruct (Z.compare_spec y z) as [->|H'|H']; try congruence; intros H1 H2.
  - eapply IH; eassumption.
  - destruct (Z.compare_spec x z); [lia|reflexivity|lia].
  - destruct (Z.compare_spec x z); [lia|reflexivity|lia].
Qed.

Definition key_lt (a b : label) : Prop := bytes_cmp (l_key a) (l_key b) = Lt.

Lemma insert_perm x l : Permutation (x :: l) (insert_label x l).
Proof.
  induction l as [|y l IH]; cbn; [apply Permutation_refl|].
  destruct (label_cmp x y); try apply Permutation_refl.
  eapply Permutation_trans; [apply perm_swap|]. now apply perm_skip.
Qed.
Lemma sort_perm l : Permutation l (sort_labels l).
Proof.
  induction l as [|x l IH]; cbn; [constructor|].
  eapply Permutation_trans; [apply perm_skip, IH|apply insert_perm].
Qed.

Lemma insert_sorted x l : StronglySorted key_lt l -> ~ In (l_key x) (map l_key l) ->
  StronglySorted key_lt (insert_label x l).
Proof.
  intros H. induction H as [|y l H IH Hy]; intros Hx; cbn; [repeat constructor|].
  unfold label_cmp. destruct (bytes_cmp (l_key x) (l_key y)) eqn:E.
  - apply bytes_cmp_eq in E. exfalso. apply Hx. left. now symmetry.
  - constructor; [constructor; assumption|]. constructor; [exact E|].
    eapply Forall_impl; [|exact Hy]. intros z Hz. unfold key_lt in *. eapply bytes_cmp_trans; eassumption.
  - constructor; [apply IH; intros Hi; apply Hx; now right|].
    eapply Permutation_Forall; [apply insert_perm|]. constructor; [|assumption].
    unfold key_lt. rewrite bytes_cmp_sym, E. reflexivity.
Qed.
Lemma sort_sorted l : keys_distinct l -> StronglySorted key_lt (sort_labels l).
Proof.
  unfold keys_distinct. induction l as [|x l IH]; cbn; intros H; [constructor|].
  inversion H as [|k ks H1 H2]; subst. apply insert_sorted; [now apply IH|].
  intros Hi. apply H1. eapply Permutation_in; [|exact Hi]. apply Permutation_map, Permutation_sym, sort_perm.
Qed.
Lemma sorted_perm_eq (a b : list label) : StronglySorted key_lt a -> StronglySorted key_lt b ->
  Permutation a b -> a = b.
Proof.
  intros Ha. revert b. induction Ha as [|x a Ha IH Hx]; intros b Hb P.
  - apply Permutation_nil in P. now subst.
  - destruct b as [|y b]; [apply Permutation_sym, Permutation_nil in P; discriminate|].
    inversion Hb as [|y' b' Hb' Hy]; subst.
    assert (x = y).
    { assert (Ix: In x (y :: b)) by (eapply Permutation_in; [exact P|now left]).
      assert (Iy: In y (x :: a)) by (eapply Permutation_in; [apply Permutation_sym, P|now left]).
      destruct Ix as [->|Ix]; [reflexivity|]. destruct Iy as [->|Iy]; [reflexivity|].
      rewrite Forall_forall in Hx, Hy. specialize (Hx _ Iy). specialize (Hy _ Ix).
      unfold key_lt in *. rewrite bytes_cmp_sym, Hx in Hy. discriminate. }
    subst y. f_equal. apply IH; [assumption|]. eapply Permutation_cons_inv; exact P.
Qed.
Lemma sort_perm_eq a b : keys_distinct a -> Permutation a b -> sort_labels a = sort_labels b.
Proof.
  intros Ha P. assert (Hb: keys_distinct b).
  { unfold keys_distinct in *. eapply Permutation_NoDup; [apply Permutation_map, P|assumption]. }
  apply sorted_perm_eq; [now apply sort_sorted..|].
  eapply Permutation_trans; [apply Permutation_sym, sort_perm|].
  eapply Permutation_trans; [exact P|apply sort_perm].
Qed.
Lemma sort_nil l : sort_labels l = [] <-> l = [].
Proof.
  split; [|intros ->; reflexivity]. intros E. pose proof (sort_perm l) as P. rewrite E in P.
  now apply Permutation_sym, Permutation_nil in P.
Qed.

(** ** pairs *)
Lemma find_char_none c s : find_char c s = None <-> ~ In c s.
Proof.
  induction s as [|x s IH]; cbn; [split; [auto|reflexivity]|].
  destruct (x =? c) eqn:E; [split; [discriminate|intros H; exfalso; apply H; left; lia]|].
  destruct (find_char c s); cbn.
  - split; [discriminate|]. intros H. exfalso. destruct IH as [_ IH]. discriminate IH. intros Hi; apply H; now right.
  - split; [|reflexivity]. intros _ [Hx|Hi]; [lia|]. destruct IH as [IH _]. now apply IH.
Qed.
Lemma find_char_app c a b : ~ In c a -> find_char c (a ++ c :: b) = Some (length a).
Proof.
  induction a as [|x a IH]; intros H; cbn [app find_char length].
  - now rewrite Z.eqb_refl.
  - destruct (x =? c) eqn:E; [exfalso; apply H; left; lia|]. rewrite IH; [reflexivity|].
    intros Hi; apply H; now right.
Qed.
Lemma find_char_some c s i : find_char c s = Some i -> ~ In c (firstn i s) /\ s = firstn i s ++ c :: skipn (S i) s.
Proof.
  revert i. induction s as [|x s IH]; intros i H; [discriminate|]. cbn [find_char] in H.
  destruct (x =? c) eqn:E.
  - injection H as <-. cbn. split; [auto|]. assert (x = c) by lia. congruence.
  - destruct (find_char c s) as [j|]; [|discriminate]. cbn in H. injection H as <-.
    destruct (IH j eq_refl) as [A B]. cbn [firstn skipn app]. split.
    + intros [Hx|Hi]; [lia|contradiction].
    + f_equal. exact B.
Qed.

Lemma decode_pair_encode l : ~ In equals (l_key l) -> decode_pair (encode_pair l) = Ok l.
Proof.
  intros H. unfold decode_pair, encode_pair. cbn [app]. rewrite find_char_app by assumption.
  rewrite firstn_app, Nat.sub_diag, firstn_O, app_nil_r, firstn_all.
  change (S (length (l_key l))) with (1 + length (l_key l))%nat.
  assert (E: skipn (1 + length (l_key l)) (l_key l ++ equals :: l_val l) = l_val l).
  { rewrite skipn_app. rewrite skipn_all2 by lia.
    replace (1 + length (l_key l) - length (l_key l))%nat with 1%nat by lia. reflexivity. }
  rewrite E. destruct l; reflexivity.
Qed.
Lemma decode_pair_inv p l : decode_pair p = Ok l -> p = encode_pair l /\ ~ In equals (l_key l).
Proof.
  unfold decode_pair. destruct (find_char equals p) as [i|] eqn:E; [|discriminate].
  intros H. injection H as <-. destruct (find_char_some _ _ _ E) as [A B].
  unfold encode_pair. cbn [l_key l_val app]. split; assumption.
Qed.

Lemma mapM_ok {A B} (f : A -> res B) l l' : mapM f l = Ok l' <-> Forall2 (fun a b => f a = Ok b) l l'.
Proof.
  revert l'. induction l as [|x l IH]; intros l'; cbn [mapM].
  - split; [intros H; injection H as <-; constructor|intros H; inversion H; reflexivity].
  - destruct (f x) eqn:E; cbn [rbind].
    + destruct (mapM f l) eqn:E2; cbn [rbind].
      * split.
        -- intros H; injection H as <-. constructor; [assumption|]. now apply IH.
        -- intros H; inversion H; subst. assert (a = y) by congruence. subst.
           match goal with X : Forall2 _ _ _ |- _ => apply IH in X end. congruence.
      * split; [discriminate|]. intros H; inversion H; subst.
        match goal with X : Forall2 _ _ _ |- _ => apply IH in X end. congruence.
      * split; [discriminate|]. intros H; inversion H; subst.
        match goal with X : Forall2 _ _ _ |- _ => apply IH in X end. congruence.
    + split; [discriminate|]. intros H; inversion H; subst. congruence.
    + split; [discriminate|]. intros H; inversion H; subst. congruence.
Qed.

Lemma cons_ne {A} (x : A) l : x :: l <> [].
Proof. congruence. Qed.
Lemma Forall2_len {A B} (R : A -> B -> Prop) l l' : Forall2 R l l' -> length l = length l'.
Proof. induction 1; cbn; congruence. Qed.

Lemma lab_ok_pair l : lab_ok l <-> ~ In comma (encode_pair l) /\ ~ In equals (l_key l).
Proof.
  unfold lab_ok, encode_pair. rewrite !in_app_iff. cbn [In]. unfold equals, comma.
  intuition lia.
Qed.

Lemma encode_nonempty ls : ls <> [] -> join comma (map encode_pair (sort_labels ls)) <> [].
Proof.
  intros H. destruct (sort_labels ls) as [|x l] eqn:E; [apply (proj1 (sort_nil ls)) in E; congruence|].
  destruct l; cbn; unfold encode_pair; destruct (l_key x); discriminate.
Qed.

(** C14 *)
Theorem decode_encode_iff ls : forall k,
  decode_labels (encode_labels ls k) k = Ok (sort_labels ls) <-> ls <> [] /\ Forall lab_ok ls.
Proof.
  intros k. rewrite encode_labels_join.
  assert (D: decode_labels ((if k then s2b "L" else []) ++ join comma (map encode_pair (sort_labels ls))) k
    = mapM decode_pair (split_on comma (join comma (map encode_pair (sort_labels ls))))).
  { destruct k; reflexivity. }
  rewrite D. clear D.
  assert (PF: forall P : label -> Prop, Forall P ls <-> Forall P (sort_labels ls)).
  { intros P. split; apply Permutation_Forall; [apply sort_perm|apply Permutation_sym, sort_perm]. }
  rewrite (PF lab_ok).
  assert (PN: ls <> [] <-> sort_labels ls <> []) by (rewrite sort_nil; tauto). rewrite PN. clear PN PF.
  generalize (sort_labels ls). intros l. rewrite mapM_ok. split.
  - intros H. assert (Hne: l <> []).
    { intros ->. cbn in H. inversion H. }
    split; [assumption|].
    assert (L: length (split_on comma (join comma (map encode_pair l))) = length l) by (eapply Forall2_len; exact H).
    rewrite split_on_length in L.
    assert (C: Forall (fun s => ~ In comma s) (map encode_pair l)).
    { apply join_occ; [destruct l; cbn; congruence|]. rewrite map_length. lia. }
    rewrite split_on_join in H by (try assumption; destruct l; cbn; congruence).
    clear Hne L. induction l as [|x l IH]; [constructor|]. cbn [map] in H, C.
    inversion H as [|a b la lb H1 H2]; subst. inversion C as [|a la C1 C2]; subst. constructor; [|now apply IH].
    apply lab_ok_pair. split; [assumption|]. now apply decode_pair_inv in H1.
  - intros [Hne H]. rewrite split_on_join.
    + clear Hne. induction H as [|x l Hx H IH]; cbn [map]; constructor; [|assumption].
      apply decode_pair_encode. now apply lab_ok_pair in Hx.
    + destruct l; cbn; congruence.
    + clear Hne. induction H as [|x l Hx H IH]; cbn [map]; constructor; [|assumption].
      now apply lab_ok_pair in Hx.
Qed.

(** ** keys of the index *)
Lemma encode_labels_inj a b : Forall lab_ok a -> Forall lab_ok b ->
  encode_labels a true = encode_labels b true -> sort_labels a = sort_labels b.
Proof.
  intros Ha Hb E. rewrite !encode_labels_join in E. apply app_inv_head in E.
  destruct a as [|x a]; destruct b as [|y b].
  - reflexivity.
  - exfalso. symmetry in E. apply (encode_nonempty (y :: b)); [congruence|exact E].
  - exfalso. apply (encode_nonempty (x :: a)); [congruence|exact E].
  - pose proof (proj2 (decode_encode_iff (x :: a) false) (conj (cons_ne _ _) Ha)) as A.
    pose proof (proj2 (decode_encode_iff (y :: b) false) (conj (cons_ne _ _) Hb)) as B.
    rewrite encode_labels_join in A, B. cbn [app] in A, B. rewrite E in A. congruence.
Qed.

Lemma encode_label_inj a b : lab_ok a -> lab_ok b -> encode_label a = encode_label b -> a = b.
Proof.
  intros Ha Hb E. unfold encode_label in E. apply app_inv_head in E.
  apply lab_ok_pair in Ha as [_ Ha]. apply lab_ok_pair in Hb as [_ Hb].
  apply decode_pair_encode in Ha, Hb. congruence.
Qed.

Lemma key_L_LR ls l : set_ok ls -> lab_ok l -> encode_labels ls true <> encode_label l.
Proof.
  intros (H1 & H2 & H3) Hl E. rewrite encode_labels_join in E. unfold encode_label in E.
  change (s2b "LR") with (s2b "L" ++ [82]) in E. rewrite <- app_assoc in E. apply app_inv_head in E.
  destruct ls as [|x ls]; [discriminate|].
  pose proof (proj2 (decode_encode_iff (x :: ls) false) (conj (cons_ne _ _) H1)) as D.
  rewrite encode_labels_join in D. cbn [app] in D.
  assert (E': join comma (map encode_pair (sort_labels (x :: ls))) = encode_pair (mkLabel (82 :: l_key l) (l_val l))).
  { rewrite E. reflexivity. }
  rewrite E' in D. unfold decode_labels in D. cbn [rbind] in D.
  assert (Hl': lab_ok (mkLabel (82 :: l_key l) (l_val l))).
  { destruct Hl as (A & B & C). unfold lab_ok, comma, equals in *. cbn [l_key l_val].
    split; [|split]; [|assumption|]; intros [Hx|Hx]; try lia; contradiction. }
  apply lab_ok_pair in Hl' as [N1 N2].
  rewrite split_on_none in D by assumption. cbn [mapM] in D.
  rewrite decode_pair_encode in D by assumption. cbn [rbind] in D.
  assert (S: sort_labels (x :: ls) = [mkLabel (82 :: l_key l) (l_val l)]) by congruence.
  pose proof (sort_perm (x :: ls)) as P. rewrite S in P. apply Permutation_sym, Permutation_length_1_inv in P.
  apply (H3 _ P). reflexivity.
Qed.

Lemma key_I_L id ls : encode_time_series_id id <> encode_labels ls true.
Proof. rewrite encode_labels_join. unfold encode_time_series_id. cbn. congruence. Qed.
Lemma key_I_LR id l : encode_time_series_id id <> encode_label l.
Proof. unfold encode_time_series_id, encode_label. cbn. congruence. Qed.
Lemma key_I_inj a b : id_ok a -> id_ok b -> encode_time_series_id a = encode_time_series_id b -> a = b.
Proof. unfold encode_time_series_id. intros Ha Hb E. apply app_inv_head in E. now apply to_dec_inj. Qed.

(** ** equality of labels and sets *)
Lemma label_eqb_spec a b : label_eqb a b = true <-> a = b.
Proof.
  destruct a as [k v], b as [k' v']. unfold label_eqb. cbn. rewrite andb_true_iff, !bytes_eqb_spec.
  split; [intros [-> ->]; reflexivity|intros H; injection H; auto].
Qed.
Lemma label_eq_dec (a b : label) : {a = b} + {a <> b}.
Proof. decide equality; apply bytes_eq_dec. Qed.
Lemma has_In ls l : has ls l = true <-> In l ls.
Proof.
  unfold has. rewrite existsb_exists. split.
  - intros (x & Hx & E). apply label_eqb_spec in E. now subst.
  - intros H. exists l. split; [assumption|]. now apply label_eqb_spec.
Qed.
Lemma distinct_NoDup ls : keys_distinct ls -> NoDup ls.
Proof. apply NoDup_map_inv. Qed.

Lemma same_setb_spec a b : keys_distinct a -> keys_distinct b ->
  (same_setb a b = true <-> Permutation a b).
Proof.
  intros Ha Hb. apply distinct_NoDup in Ha, Hb. unfold same_setb.
  rewrite andb_true_iff, Nat.eqb_eq, forallb_forall. split.
  - intros [L I]. apply NoDup_Permutation_bis; [assumption|lia|].
    intros x Hx. apply has_In. now apply I.
  - intros P. split; [now apply Permutation_length|]. intros x Hx. apply has_In. eapply Permutation_in; eassumption.
Qed.
Lemma sort_eq_perm a b : sort_labels a = sort_labels b -> Permutation a b.
Proof.
  intros E. eapply Permutation_trans; [apply sort_perm|]. rewrite E. apply Permutation_sym, sort_perm.
Qed.
