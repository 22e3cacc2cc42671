(* Consequences of ReadsConc for the answers of concurrent queries. *)
From Coq Require Import ZifyBool ZifyNat Permutation Sorted.
From Verif Require Import Rust Prog Gorilla GorillaSpec Storage StorageSpec StorageProofs Compactor Labels Indexer IndexSpec
  LabelProofs IntersectProofs IndexProofs IndexHist Chunk ChunkSpec ChunkProofs ChunkFacts ConcSpec Conc CrashProofs
  ReadsSpec ReadsMay ReadsCrash ReadsConc.
Ltac Zify.zify_post_hook ::= Z.div_mod_to_equations.

Lemma prefix_filter {A} (f : A -> bool) a b : NoDup b -> prefix a b -> (forall x, In x b -> (f x = true <-> In x a)) -> a = filter f b.
Proof.
  intros N (c & ->) H. rewrite filter_app.
  assert (filter f a = a) as ->.
  { assert (X: forall x, In x a -> f x = true) by (intros x Hx; apply H; [apply in_app_iff; now left|assumption]). clear -X.
    induction a as [|x a IH]; [reflexivity|]. cbn [filter]. rewrite (X x) by now left. f_equal. apply IH. intros y Hy. apply X. now right. }
  assert (filter f c = []) as ->; [|now rewrite app_nil_r].
  assert (X: forall x, In x c -> f x = false).
  { intros x Hx. destruct (f x) eqn:E; [|reflexivity]. exfalso. apply H in E; [|apply in_app_iff; now right].
    clear -N E Hx. induction a as [|y a IH]; [contradiction|]. cbn [app] in N. inversion N as [|z zs N1 N2]; subst.
    destruct E as [->|E]; [apply N1; apply in_app_iff; now right|now apply IH]. }
  clear -X. induction c as [|x c IH]; [reflexivity|]. cbn [filter]. rewrite (X x) by now left. apply IH. intros y Hy. apply X. now right.
Qed.

Lemma reqs_cat ops a b : reqs_of ops (a ++ b) = reqs_of ops a ++ reqs_of ops b.
Proof. induction a as [|i a IH]; [reflexivity|]. cbn [app reqs_of]. now rewrite IH, app_assoc. Qed.
Lemma reqs_len ops order : (length (reqs_of ops order) <= length order)%nat.
Proof. induction order as [|i a IH]; [cbn; lia|]. cbn [reqs_of length]. rewrite app_length. destruct (nth_error ops i) as [[?|]|]; cbn [length]; lia. Qed.

Section Run.
  Variables (ch : chunk) (bs : bsearch) (h : list ireq) (ops : list cop) (s1 s2 : list nat) (w : cworld).
  Hypothesis (H : Forall ireq_ok h) (Hops : Forall cop_ok ops) (L : Z.of_nat (length h + length ops) < 2 ^ 64) (Ew : after ch h = Some w).
  Notation ts1 := (threads ch bs ops s1 w).
  Notation ts2 := (threads ch bs ops (s1 ++ s2) w).
  Notation order := (begun ch bs ops (s1 ++ s2) w).
  Notation done := (acked ch bs ops s1 s2 w).
  Notation A0 := (content_of ch (h ++ reqs_of ops done)).
  Notation A1 := (content_of ch (h ++ reqs_of ops order)).

  Lemma acked_done : exists d, done = d /\ 
    prefix d order /\ NoDup order /\
    (forall i, In i d <-> exists r, nth_error ops i = Some (Ins r) /\ exists a, nth_error ts1 i = Some (Ret a)) /\
    (forall i, In i order -> exists r, nth_error ops i = Some (Ins r) /\ nth_error ts2 i <> Some (cop_prog ch bs (Ins r))) /\
    (forall i r a, nth_error ops i = Some (Ins r) -> nth_error ts2 i = Some (Ret a) -> a = Inserted (insert_result ch r)) /\
    ((forall i, In i order -> exists a, nth_error ts2 i = Some (Ret a)) ->
       crep ch (snd (interleave (chandler ch) (s1 ++ s2) (map (cop_prog ch bs) ops) w)) (content_of ch (h ++ reqs_of ops order))) /\
    forall j o q s e a, nth_error ops j = Some (Ask o q s e) -> ~ In j s1 -> nth_error ts2 j = Some (Ret a) ->
      exists M, seen (content_of ch (h ++ reqs_of ops d)) A1 q M /\
        a = Queried (answer_from ch (stored_read (c_storage ch) bs s e) M s e).
  Proof.
    destruct (reads_between ch bs h ops s1 s2 w H Hops L Ew) as (d & P & N & D & B & R).
    exists d. split; [|exact (conj P (conj N (conj D (conj B R))))].
    unfold acked. symmetry. apply prefix_filter; [assumption|assumption|]. intros i Hi. unfold threads. destruct (B i Hi) as (r & Er & _). split.
    - intros E. apply D. exists r. split; [assumption|]. destruct (nth_error (fst _) i) as [[a|]|]; try discriminate. eauto.
    - intros Hd. apply D in Hd as (_ & _ & a & Ea). unfold threads in *. now rewrite Ea.
  Qed.

  Theorem acked_exact i : In i done <-> exists r, nth_error ops i = Some (Ins r) /\ exists a, nth_error ts1 i = Some (Ret a).
  Proof. destruct acked_done as (d & -> & _ & _ & D & _). apply D. Qed.
  Theorem begun_order : prefix done order /\ NoDup order /\
    forall i, In i order -> exists r, nth_error ops i = Some (Ins r) /\ nth_error ts2 i <> Some (cop_prog ch bs (Ins r)).
  Proof. destruct acked_done as (d & -> & P & N & _ & B & _). auto. Qed.
  Theorem insert_results i r a : nth_error ops i = Some (Ins r) -> nth_error ts2 i = Some (Ret a) -> a = Inserted (insert_result ch r).
  Proof. destruct acked_done as (d & _ & _ & _ & _ & _ & R & _). apply R. Qed.
  Theorem query_between j o q s e a : nth_error ops j = Some (Ask o q s e) -> ~ In j s1 -> nth_error ts2 j = Some (Ret a) ->
    exists M, seen A0 A1 q M /\ a = Queried (answer_from ch (stored_read (c_storage ch) bs s e) M s e).
  Proof. destruct acked_done as (d & -> & _ & _ & _ & _ & _ & _ & Q). apply Q. Qed.

  Lemma order_ok : Forall ireq_ok (h ++ reqs_of ops order).
  Proof.
    apply Forall_app. split; [assumption|]. generalize order. intros l. induction l as [|i l IH]; [constructor|].
    cbn [reqs_of]. apply Forall_app. split; [|assumption]. destruct (nth_error ops i) as [[r|]|] eqn:E; constructor; [|constructor].
    rewrite Forall_forall in Hops. apply (Hops _ (nth_error_In _ _ E)).
  Qed.
  Lemma order_length : Z.of_nat (length A1) < 2 ^ 64.
  Proof.
    pose proof (content_length ch (h ++ reqs_of ops order)) as C. rewrite app_length in C. pose proof (reqs_len ops order) as C2.
    destruct begun_order as (_ & N & B). assert (length order <= length ops)%nat; [|lia].
    rewrite <- (seq_length (length ops) 0). apply NoDup_incl_length; [assumption|].
    intros i Hi. apply in_seq. destruct (B i Hi) as (r & E & _). assert (i < length ops)%nat by (apply nth_error_Some; congruence). lia.
  Qed.
  Lemma grown_run : grown A0 A1.
  Proof.
    destruct begun_order as ((c & E) & _). rewrite E. rewrite reqs_cat, app_assoc. unfold content_of at 2. rewrite fold_left_app. apply grown_fold.
  Qed.

  (* when every insert begun has returned, a query answers for their content *)
  Theorem after_all o q s e : (forall i, In i order -> exists a, nth_error ts2 i = Some (Ret a)) -> Forall lab_ok q ->
    let w2 := snd (interleave (chandler ch) (s1 ++ s2) (map (cop_prog ch bs) ops) w) in
    crun ch (chunk_query ch bs o q s e) w2 = Some (answer_from ch (stored_read (c_storage ch) bs s e) (matching A1 q) s e, w2).
  Proof.
    intros Hall Hq. cbv zeta. destruct acked_done as (d & _ & _ & _ & _ & _ & _ & F & _). specialize (F Hall).
    rewrite (query_run ch bs o _ A1) by (assumption || apply order_length). unfold answer_from.
    destruct (_ || _); [reflexivity|]. do 2 f_equal. apply collect_ext.
    intros x Hx. apply matching_pts in Hx as (_ & _ & Hin & _). symmetry. apply stored_reader.
    - pose proof (content_pts ch _ order_ok) as F2. rewrite Forall_forall in F2. now apply F2.
    - intros i Ei. pose proof (tikv_content_increasing ch i (h ++ reqs_of ops order) Ei) as F2. unfold all_increasing in F2. rewrite Forall_forall in F2. now apply F2.
  Qed.

  (** ** increasing series *)
  Lemma prefix_increasing a b : prefix a b -> increasing b -> increasing a.
  Proof.
    intros (c & ->). induction a as [|x l IH]; intros F; [exact I|]. cbn [app increasing] in *. destruct F as [F1 F2]. apply Forall_app in F1. split; [tauto|now apply IH].
  Qed.
  Lemma seen_points q M id ls pts : seen A0 A1 q M -> In (id, (ls, pts)) M ->
    Forall tp_ok pts /\ (all_increasing A1 -> increasing pts) /\ (forall i, c_storage ch = TiKvStorage i -> increasing pts) /\
    exists pts1, In (ls, pts1) A1 /\ prefix pts pts1.
  Proof.
    intros Se Hx. destruct (se_real _ _ _ _ Se _ _ _ Hx) as (pts1 & Hn & P). apply numbered_In in Hn as (i & Hn & _). cbn [snd] in Hn. apply nth_error_In in Hn.
    assert (K: forall X, In X [0] -> all_increasing A1 -> increasing pts).
    { intros _ _ F. unfold all_increasing in F. rewrite Forall_forall in F. eapply prefix_increasing; [exact P|]. exact (F _ Hn). }
    split; [|split; [|split]].
    - pose proof (content_pts ch _ order_ok) as F. rewrite Forall_forall in F. destruct (F _ Hn) as [_ F']. cbn [snd] in F'.
      destruct P as (c & ->). now apply Forall_app in F'.
    - apply (K 0). now left.
    - intros i' Ei. apply (K 0); [now left|]. now apply (tikv_content_increasing ch i').
    - eauto.
  Qed.
  Theorem query_between_spec j o q s e a : bs_contract bs -> all_increasing A1 -> s <= e ->
    nth_error ops j = Some (Ask o q s e) -> ~ In j s1 -> nth_error ts2 j = Some (Ret a) ->
    exists M, seen A0 A1 q M /\ a = Queried (answer_from ch (fun pts => read_spec pts s e) M s e).
  Proof.
    intros Hb Hi Hse Ej Nj Ta. destruct (query_between j o q s e a Ej Nj Ta) as (M & Se & ->). exists M. split; [assumption|]. f_equal.
    unfold answer_from. destruct (_ || _); [reflexivity|]. apply collect_ext. intros [id [ls pts]] Hx. cbn [snd].
    destruct (seen_points q M id ls pts Se Hx) as (P1 & P2 & P3 & _). rewrite stored_reader by assumption. apply reader_spec; auto.
  Qed.

  (** ** what is in an answer *)
  Lemma collect_In rd M l : collect rd M = Ok l -> forall x, In x l ->
    exists id ls pts, In (id, (ls, pts)) M /\ rd pts = Ok (s_points x) /\ s_meta x = sort_labels ls /\ s_id x = id.
  Proof.
    revert l. induction M as [|[id [ls pts]] M IH]; intros l E x Hx; cbn [collect] in E; [injection E as <-; contradiction|].
    destruct (rd pts) as [d|er|] eqn:Ed; try discriminate. cbn [rbind] in E. destruct (collect rd M) as [rest|er|] eqn:Er; try discriminate. cbn [rbind] in E.
    assert (K: In x rest -> exists id0 ls0 pts0, In (id0, (ls0, pts0)) ((id, (ls, pts)) :: M) /\ rd pts0 = Ok (s_points x) /\ s_meta x = sort_labels ls0 /\ s_id x = id0).
    { intros Hr. destruct (IH _ eq_refl x Hr) as (i & l0 & p0 & H1 & H2). exists i, l0, p0. split; [now right|assumption]. }
    destruct d as [|y d]; injection E as <-; [now apply K|]. destruct Hx as [<-|Hx]; [|now apply K].
    exists id, ls, pts. split; [now left|]. auto.
  Qed.
  Lemma collect_has rd M l : collect rd M = Ok l -> forall id ls pts, In (id, (ls, pts)) M ->
    exists d, rd pts = Ok d /\ (d <> [] -> In (mkSeries id (sort_labels ls) d) l).
  Proof.
    revert l. induction M as [|[id' [ls' pts']] M IH]; intros l E id ls pts Hx; cbn [collect] in E; [contradiction|].
    destruct (rd pts') as [d|er|] eqn:Ed; try discriminate. cbn [rbind] in E. destruct (collect rd M) as [rest|er|] eqn:Er; try discriminate. cbn [rbind] in E.
    destruct Hx as [Hx|Hx].
    - injection Hx as -> -> ->. exists d. split; [assumption|]. intros Nd. destruct d; [congruence|]. injection E as <-. now left.
    - destruct (IH _ eq_refl _ _ _ Hx) as (d' & H1 & H2). exists d'. split; [assumption|]. intros Nd. specialize (H2 Nd).
      destruct d; injection E as <-; [assumption|now right].
  Qed.

  (* nothing is invented *)
  Theorem query_sound j o q s e l : nth_error ops j = Some (Ask o q s e) -> ~ In j s1 ->
    nth_error ts2 j = Some (Ret (Queried (Ok l))) -> forall x, In x l ->
    (exists lb, In lb q /\ In lb (s_meta x)) /\
    forall p, In p (s_points x) -> in_window ch (tp_ts p) /\
      exists ls, same_set ls (s_meta x) /\
        (In (ls, p) h \/ exists i, nth_error ops i = Some (Ins (ls, p)) /\ In i order).
  Proof.
    intros Ej Nj Ta x Hx. destruct (query_between j o q s e _ Ej Nj Ta) as (M & Se & Ea). injection Ea as Ea.
    unfold answer_from in Ea. destruct (_ || _); [discriminate|]. symmetry in Ea.
    destruct (collect_In _ _ _ Ea x Hx) as (id & ls & pts & HM & Hr & Hm & _). rewrite Hm.
    destruct (seen_points q M id ls pts Se HM) as (P1 & _ & P3 & pts1 & Hin & (c & Ep)). split.
    - destruct (se_some _ _ _ _ Se _ _ _ HM) as (lb & Hl & Hh). exists lb. split; [assumption|].
      apply has_In in Hh. eapply Permutation_in; [apply sort_perm|assumption].
    - intros p Hp. rewrite stored_reader in Hr by assumption. apply (reader_sub _ _ _ _ _ Hr) in Hp.
      destruct (content_sound ch _ order_ok ls pts1 Hin) as [_ Sn]. destruct (Sn p) as (ls' & B1 & B2 & B3).
      { rewrite Ep. apply in_app_iff. now left. }
      split; [assumption|]. exists ls'. split; [eapply Permutation_trans; [exact B2|apply sort_perm]|].
      apply in_app_iff in B1 as [B1|B1]; [now left|right]. revert B1. generalize order. intros od. induction od as [|i od IH]; intros B1; [contradiction|].
      cbn [reqs_of] in B1. apply in_app_iff in B1 as [B1|B1].
      + exists i. destruct (nth_error ops i) as [[r|]|] eqn:E; try contradiction. destruct B1 as [->|[]]. split; [reflexivity|now left].
      + destruct (IH B1) as (k & K1 & K2). exists k. split; [assumption|now right].
  Qed.

  (* nothing acknowledged is missed *)
  Theorem query_complete j o q s e l : bs_contract bs -> all_increasing A1 -> s <= e ->
    nth_error ops j = Some (Ask o q s e) -> ~ In j s1 -> nth_error ts2 j = Some (Ret (Queried (Ok l))) ->
    forall ls pts p, In (ls, pts) A0 -> matches A1 q ls = true -> In p pts -> s <= tp_ts p <= e ->
    exists x, In x l /\ same_set ls (s_meta x) /\ In p (s_points x).
  Proof.
    intros Hb Hi Hse Ej Nj Ta ls pts0 p Hin Hm Hp Hpe. destruct (query_between_spec j o q s e _ Hb Hi Hse Ej Nj Ta) as (M & Se & Ea). injection Ea as Ea.
    unfold answer_from in Ea. destruct (_ || _); [discriminate|]. symmetry in Ea.
    apply In_nth_error in Hin as (i & Hn). pose proof (numbered_nth 1 _ _ _ Hn) as Hnum.
    destruct (se_all _ _ _ _ Se _ _ _ Hnum Hm) as (pts & HM). pose proof (se_points _ _ _ _ Se _ _ _ _ HM Hnum) as (c & Ep).
    destruct (collect_has _ _ _ Ea _ _ _ HM) as (d & Hd & Hx).
    assert (Hpd: In p d).
    { unfold read_spec in Hd. destruct pts as [|f pts]; [discriminate|]. destruct (_ || _); [discriminate|]. injection Hd as <-.
      change (In p (within s e (f :: pts))). unfold within. apply filter_In. split; [rewrite Ep; apply in_app_iff; now left|lia]. }
    eexists. split; [apply Hx; intros ->; contradiction|]. cbn [s_meta s_points]. split; [apply sort_perm|assumption].
  Qed.

  Theorem query_no_panic j o q s e : bs_contract bs -> all_increasing A1 -> s <= e -> nth_error ops j = Some (Ask o q s e) -> ~ In j s1 ->
    nth_error ts2 j <> Some (Ret (Queried Panic)).
  Proof.
    intros Hb Hi Hse Ej Nj Ta. destruct (query_between_spec j o q s e _ Hb Hi Hse Ej Nj Ta) as (M & _ & Ea). injection Ea as Ea.
    unfold answer_from in Ea. destruct (_ || _); [discriminate|]. revert Ea. clear. induction M as [|[id [ls pts]] M IH]; cbn [collect]; [discriminate|].
    unfold read_spec at 1. destruct pts as [|f pts]; cbn [rbind]; [discriminate|]. destruct (_ || _); cbn [rbind]; [discriminate|].
    destruct (collect _ M) as [r|er|]; cbn [rbind]; [destruct (within _ _ _); discriminate|discriminate|]. intros _. now apply IH.
  Qed.
End Run.

(** ** a snapshot *)
Lemma asc_pairs {A} (X Y : list (Z * A)) : ascending (map fst X) -> ascending (map fst Y) -> (forall x, In x X <-> In x Y) -> X = Y.
Proof.
  revert Y. induction X as [|x X IH]; intros Y HX HY E.
  - destruct Y as [|y Y]; [reflexivity|]. exfalso. apply (E y). now left.
  - destruct Y as [|y Y]; [exfalso; apply (E x); now left|]. cbn [map] in *. apply asc_inv in HX as [X1 X2]. apply asc_inv in HY as [Y1 Y2].
    rewrite Forall_forall in X2, Y2.
    assert (x = y) as ->.
    { pose proof (proj1 (E x) (or_introl eq_refl)) as [Ex|Ex]; [now subst|]. pose proof (proj2 (E y) (or_introl eq_refl)) as [Ey|Ey]; [now subst|].
      exfalso. apply (in_map fst) in Ex, Ey. specialize (X2 _ Ey). specialize (Y2 _ Ex). lia. }
    f_equal. apply IH; [assumption|assumption|]. intros z. split; intros Hz.
    + pose proof (proj1 (E z) (or_intror Hz)) as [Ez|Ez]; [|assumption]. subst z. exfalso. apply (in_map fst) in Hz. specialize (X2 _ Hz). lia.
    + pose proof (proj2 (E z) (or_intror Hz)) as [Ez|Ez]; [|assumption]. subst z. exfalso. apply (in_map fst) in Hz. specialize (Y2 _ Hz). lia.
Qed.

(* the point lists a query looked at, in place of the first ones *)
Definition seen_pts (M : list (Z * (list label * list tp))) (x : Z * (list label * list tp)) : list label * list tp :=
  (fst (snd x), match find (fun y => fst y =? fst x) M with Some y => snd (snd y) | None => snd (snd x) end).
Definition snapshot (A0 : content) M : content := map (seen_pts M) (numbered 1 A0).

Lemma numbered_map n A (f : Z * (list label * list tp) -> list label * list tp) :
  numbered n (map f (numbered n A)) = map (fun x => (fst x, f x)) (numbered n A).
Proof. revert n. induction A as [|a A IH]; intros n; [reflexivity|]. cbn [numbered map fst]. f_equal. apply IH. Qed.

Lemma seen_snapshot A0 A1 q M : grown A0 A1 -> seen A0 A1 q M ->
  (forall i x l, nth_error A1 i = Some x -> (length A0 <= i)%nat -> In l q -> has (fst x) l = false) ->
  exists B, map fst B = map fst A0 /\ grown A0 B /\ grown B A1 /\ matching B q = M.
Proof.
  intros G Se New. set (B := snapshot A0 M).
  assert (Asc: forall A, ascending (map fst (numbered 1 A))).
  { intros A. pose proof (regs_asc A) as K. unfold regs in K. now rewrite map_map in K. }
  assert (Uq: forall A id x y, In (id, x) (numbered 1 A) -> In (id, y) (numbered 1 A) -> x = y).
  { intros A id x y H1 H2. apply numbered_In in H1 as (i & H1 & E1). apply numbered_In in H2 as (j & H2 & E2). cbn [fst snd] in *. assert (i = j) by lia. subst. congruence. }
  assert (UM: forall id x y, In (id, x) M -> In (id, y) M -> x = y).
  { intros id x y H1 H2. pose proof (se_order _ _ _ _ Se) as O. apply asc_NoDup in O. clear -O H1 H2. induction M as [|m M IH]; [contradiction|].
    cbn [map] in O. inversion O as [|k ks N1 N2]; subst. destruct H1 as [->|H1]; destruct H2 as [E|H2].
    - congruence.
    - exfalso. apply N1. apply (in_map fst) in H2. exact H2.
    - exfalso. subst m. apply N1. apply (in_map fst) in H1. exact H1.
    - now apply IH. }
  assert (Fd: forall id x, In (id, x) M -> find (fun y => fst y =? id) M = Some (id, x)).
  { intros id x Hx. destruct (find (fun y => fst y =? id) M) as [[id' y]|] eqn:E.
    - apply find_some in E as [E1 E2]. cbn [fst] in E2. assert (id' = id) as -> by lia. f_equal. f_equal. eapply UM; eassumption.
    - exfalso. pose proof (find_none _ _ E _ Hx) as K. cbn [fst] in K. lia. }
  (* the series looked at are among the first ones *)
  assert (Old: forall id ls pts, In (id, (ls, pts)) M -> exists pts0, In (id, (ls, pts0)) (numbered 1 A0)).
  { intros id ls pts HM. destruct (se_real _ _ _ _ Se _ _ _ HM) as (pts1 & Hn & _). apply numbered_In in Hn as (i & Hn & Ei). cbn [fst snd] in *.
    destruct (Nat.lt_ge_cases i (length A0)) as [Li|Li].
    - destruct (nth_error A0 i) as [[ls0 pts0]|] eqn:E0; [|apply nth_error_None in E0; lia]. destruct (G _ _ _ E0) as (p & E1 & _).
      assert (ls0 = ls) as -> by congruence. exists pts0. rewrite Ei. now apply numbered_nth.
    - exfalso. destruct (se_some _ _ _ _ Se _ _ _ HM) as (l & Hl & Hh). pose proof (New _ _ _ Hn Li Hl) as K. cbn [fst] in K. congruence. }
  assert (Lab: map fst B = map fst A0).
  { unfold B, snapshot, seen_pts. rewrite map_map. cbn [fst]. rewrite <- (map_map (fun x : Z * (list label * list tp) => snd x) fst). f_equal.
    clear. generalize 1. induction A0 as [|a A IH]; intros n; [reflexivity|]. cbn [numbered map snd]. f_equal. apply IH. }
  assert (Occ: forall l, occurs B l = occurs A0 l).
  { intros l. rewrite <- !known_regs. now rewrite (regs_ext B A0). }
  assert (Occ1: forall l, In l q -> occurs A1 l = occurs A0 l).
  { intros l Hl. unfold occurs. destruct (existsb (fun e => has (fst e) l) A0) eqn:E0.
    - apply existsb_exists in E0 as ([ls pts] & Hin & Hh). apply In_nth_error in Hin as (i & Hi). destruct (G _ _ _ Hi) as (p & Hp & _).
      apply existsb_exists. exists (ls, p). split; [eapply nth_error_In; exact Hp|assumption].
    - destruct (existsb (fun e => has (fst e) l) A1) eqn:E1; [|reflexivity]. exfalso. apply existsb_exists in E1 as ([ls pts] & Hin & Hh).
      apply In_nth_error in Hin as (i & Hi). destruct (Nat.lt_ge_cases i (length A0)) as [Li|Li].
      + destruct (nth_error A0 i) as [[ls0 pts0]|] eqn:E2; [|apply nth_error_None in E2; lia]. destruct (G _ _ _ E2) as (p & Hp & _).
        assert (ls0 = ls) as -> by congruence. apply nth_error_In in E2.
        assert (existsb (fun e => has (fst e) l) A0 = true) by (apply existsb_exists; exists (ls, pts0); auto). congruence.
      + pose proof (New _ _ _ Hi Li Hl) as K. cbn [fst] in *. congruence. }
  assert (Mt: forall ls, matches A1 q ls = matches B q ls).
  { intros ls. unfold matches. assert (existsb (occurs A1) q = existsb (occurs B) q) as ->.
    { clear -Occ Occ1. induction q as [|l q IH]; [reflexivity|]. cbn [existsb]. rewrite Occ1 by now left. rewrite Occ. f_equal. apply IH. intros l' Hl'. apply Occ1. now right. }
    f_equal. clear -Occ Occ1. induction q as [|l q IH]; [reflexivity|]. cbn [forallb]. rewrite Occ1 by now left. rewrite Occ. f_equal. apply IH. intros l' Hl'. apply Occ1. now right. }
  exists B. split; [assumption|]. split; [|split].
  - intros i ls pts Hi. unfold B, snapshot. assert (Hn: nth_error (numbered 1 A0) i = Some (1 + Z.of_nat i, (ls, pts))).
    { clear -Hi. revert Hi. generalize 1. revert i. induction A0 as [|a A IH]; intros [|i] n Hi; try discriminate; cbn [numbered nth_error] in *.
      - injection Hi as ->. f_equal. f_equal. lia.
      - rewrite (IH i (n + 1) Hi). f_equal. f_equal. lia. }
    rewrite (map_nth_error _ _ _ Hn). unfold seen_pts. cbn [fst snd]. eexists. split; [reflexivity|].
    destruct (find _ M) as [[id [ls' pts']]|] eqn:F; [|apply prefix_refl]. apply find_some in F as [F1 F2]. cbn [fst snd] in *.
    assert (id = 1 + Z.of_nat i) as -> by lia. destruct (Old _ _ _ F1) as (pts0 & H0). pose proof (numbered_nth 1 _ _ _ Hi) as H1.
    pose proof (Uq _ _ _ _ H0 H1) as E. injection E as -> ->. eapply (se_points _ _ _ _ Se); eassumption.
  - intros i ls pts Hi. unfold B, snapshot in Hi. rewrite nth_error_map in Hi.
    destruct (nth_error (numbered 1 A0) i) as [[id [ls0 pts0]]|] eqn:Hn; [|discriminate]. cbn [option_map] in Hi. unfold seen_pts in Hi. cbn [fst snd] in Hi.
    assert (Hn0: nth_error A0 i = Some (ls0, pts0) /\ id = 1 + Z.of_nat i).
    { clear -Hn. revert Hn. generalize 1. revert i. induction A0 as [|a A IH]; intros [|i] n Hi; try discriminate; cbn [numbered nth_error] in *.
      - injection Hi as <- ->. split; [reflexivity|lia].
      - destruct (IH i (n + 1) Hi) as [H1 H2]. split; [assumption|lia]. }
    destruct Hn0 as [Hn0 Hid]. destruct (G _ _ _ Hn0) as (p1 & H1 & P1). injection Hi as <- <-. exists p1. split; [assumption|].
    destruct (find _ M) as [[id' [ls' pts']]|] eqn:F; [|assumption]. apply find_some in F as [F1 F2]. cbn [fst snd] in *.
    assert (id' = id) as -> by lia. destruct (se_real _ _ _ _ Se _ _ _ F1) as (p2 & H2 & P2). pose proof (numbered_nth 1 _ _ _ H1) as H3. rewrite <- Hid in H3.
    pose proof (Uq _ _ _ _ H2 H3) as E. injection E as _ ->. assumption.
  - apply asc_pairs; [| apply (se_order _ _ _ _ Se)|].
    { unfold matching. pose proof (Asc B) as K. revert K. generalize (numbered 1 B). intros N. induction N as [|x N IH]; intros K; [constructor|].
      cbn [map] in K. apply asc_inv in K as [K1 K2]. cbn [filter]. destruct (matches B q _); [|now apply IH]. cbn [map]. constructor; [now apply IH|].
      rewrite Forall_forall in *. intros y Hy. apply K2. apply in_map_iff in Hy as (z & <- & Hz). apply filter_In in Hz as [Hz _]. now apply (in_map fst) in Hz. }
    intros [id [ls pts]]. unfold matching. rewrite filter_In. cbn [fst snd]. unfold B at 1, snapshot. rewrite numbered_map, in_map_iff. split.
    + intros ((x & Ex & Hx) & Hm). destruct x as [id0 [ls0 pts0]]. unfold seen_pts in Ex. cbn [fst snd] in Ex. injection Ex as -> -> Ep.
      rewrite <- Mt in Hm. destruct (se_all _ _ _ _ Se _ _ _ Hx Hm) as (p & HM). rewrite (Fd _ _ HM) in Ep. cbn [snd] in Ep. now subst.
    + intros HM. destruct (Old _ _ _ HM) as (pts0 & H0). split.
      * exists (id, (ls, pts0)). split; [|assumption]. unfold seen_pts. cbn [fst snd]. now rewrite (Fd _ _ HM).
      * unfold matches. apply andb_true_iff. destruct (se_some _ _ _ _ Se _ _ _ HM) as (l & Hl & Hh). split.
        -- apply existsb_exists. exists l. split; [assumption|]. rewrite Occ. unfold occurs. apply existsb_exists. exists (ls, pts0). split; [|assumption].
           apply numbered_In in H0 as (i & H0 & _). eapply nth_error_In. exact H0.
        -- apply forallb_forall. intros l' Hl'. rewrite Occ. destruct (occurs A0 l') eqn:O; [|reflexivity]. cbn. eapply (se_every _ _ _ _ Se); eassumption.
Qed.

Theorem query_snapshot ch bs h ops s1 s2 w j o q s e a : Forall ireq_ok h -> Forall cop_ok ops -> Z.of_nat (length h + length ops) < 2 ^ 64 ->
  after ch h = Some w -> bs_contract bs ->
  let A0 := content_of ch (h ++ reqs_of ops (acked ch bs ops s1 s2 w)) in
  let A1 := content_of ch (h ++ reqs_of ops (begun ch bs ops (s1 ++ s2) w)) in
  all_increasing A1 -> s <= e ->
  (forall i x l, nth_error A1 i = Some x -> (length A0 <= i)%nat -> In l q -> has (fst x) l = false) ->
  nth_error ops j = Some (Ask o q s e) -> ~ In j s1 -> nth_error (threads ch bs ops (s1 ++ s2) w) j = Some (Ret a) ->
  exists B, map fst B = map fst A0 /\ grown A0 B /\ grown B A1 /\ a = Queried (query_spec ch B q s e).
Proof.
  intros H Hops L Ew Hb A0 A1 Hi Hse New Ej Nj Ta.
  destruct (query_between_spec ch bs h ops s1 s2 w H Hops L Ew j o q s e a Hb Hi Hse Ej Nj Ta) as (M & Se & ->).
  destruct (seen_snapshot A0 A1 q M) as (B & B1 & B2 & B3 & B4); [now apply grown_run|assumption|assumption|].
  exists B. split; [assumption|]. split; [assumption|]. split; [assumption|]. unfold query_spec, answer_from. now rewrite B4.
Qed.
