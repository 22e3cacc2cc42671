(* What a query of the database may answer when every read of a chunk sees something between two
   given contents. *)
From Coq Require Import ZifyBool ZifyNat Permutation Sorted.
From Verif Require Import Rust StringProofs Prog Gorilla GorillaSpec Storage StorageSpec StorageProofs Labels IndexSpec Indexer
  LabelProofs IndexProofs IndexHist Chunk ChunkSpec ChunkProofs ChunkFacts ConcSpec Conc Utils DirSpec DirProofs TiKvInit Db DbSpec MapProofs
  DbProofs DbHist DbFacts RangeSpec RangeProofs SwapSpec SwapProofs WritersSpec FaultsSpec ReadsSpec ReadsMay ReadsFacts SharedSpec SharedLog.

(** ** one visit *)
Definition found (s e : Z) (x : Z * (list label * list tp)) : list series :=
  match within s e (snd (snd x)) with [] => [] | p :: d => [mkSeries (fst x) (sort_labels (fst (snd x))) (p :: d)] end.
Lemma collect_touch s e M : (forall x, In x M -> increasing (snd (snd x))) ->
  if forallb (fun x => touchesb s e (snd (snd x))) M then collect (fun pts => read_spec pts s e) M = Ok (flat_map (found s e) M)
  else exists er, collect (fun pts => read_spec pts s e) M = Err er.
Proof.
  induction M as [|[id [ls pts]] M IH]; intros H; [reflexivity|]. cbn [forallb collect flat_map]. specialize (IH (fun x Hx => H x (or_intror Hx))).
  pose proof (H _ (or_introl eq_refl)) as Hi. cbn [snd] in Hi.
  assert (T: if touchesb s e pts then read_spec pts s e = Ok (within s e pts) else exists er, read_spec pts s e = Err er).
  { destruct pts as [|p l]; [cbn; eauto|]. destruct (read_spec_touch (p :: l) s e Hi) as [[T E]|[T (a & b & E)]]; [discriminate| |].
    - apply touchesb_spec in T. now rewrite T.
    - destruct (touchesb s e (p :: l)) eqn:Et; [|eauto]. apply touchesb_spec in Et. contradiction. }
  cbn [snd fst]. destruct (touchesb s e pts); cbn [andb].
  - rewrite T. cbn [rbind]. destruct (forallb _ M).
    + rewrite IH. cbn [rbind]. change (found s e (id, (ls, pts))) with (match within s e pts with [] => [] | p :: d => [mkSeries id (sort_labels ls) (p :: d)] end).
      destruct (within s e pts); reflexivity.
    + destruct IH as (er & ->). cbn [rbind]. eauto.
  - destruct T as (er & ->). cbn [rbind]. eauto.
Qed.
Lemma found_pf s e M m : NoDup (map (fun x => sort_labels (fst (snd x))) M) ->
  pf m (flat_map (found s e) M) = match find (fun x => labs_eqb (sort_labels (fst (snd x))) m) M with Some x => within s e (snd (snd x)) | None => [] end.
Proof.
  assert (I0: forall M x, In x (flat_map (found s e) M) -> In (s_meta x) (map (fun x => sort_labels (fst (snd x))) M)).
  { clear. intros M x Hx. apply in_flat_map in Hx as (y & Hy & Hx). unfold found in Hx. destruct (within s e _); [contradiction|]. destruct Hx as [<-|[]]. cbn [s_meta].
    apply (in_map (fun x : Z * (list label * list tp) => sort_labels (fst (snd x)))). exact Hy. }
  induction M as [|y M IH]; intros N; [reflexivity|]. cbn [map] in N. inversion N as [|z zs N1 N2]; subst. cbn [flat_map find].
  destruct (labs_eqb (sort_labels (fst (snd y))) m) eqn:E.
  - apply labs_eqb_spec in E. unfold found at 1. destruct (within s e (snd (snd y))) as [|p d] eqn:W.
    + cbn [app]. apply pf_none. intros Hx. apply in_map_iff in Hx as (x & Ex & Hx). apply I0 in Hx. apply N1. rewrite Ex in Hx. now rewrite E.
    + cbn [app]. unfold pf. cbn [find s_meta]. rewrite E, labs_eqb_refl. reflexivity.
  - rewrite <- (IH N2). unfold found at 1. destruct (within s e (snd (snd y))) as [|p d]; [reflexivity|]. cbn [app]. unfold pf. cbn [find s_meta]. now rewrite E.
Qed.
Lemma found_NoDup s e M : NoDup (map (fun x => sort_labels (fst (snd x))) M) -> NoDup (map s_meta (flat_map (found s e) M)).
Proof.
  induction M as [|y M IH]; intros N; [constructor|]. cbn [map] in N. inversion N as [|z zs N1 N2]; subst. cbn [flat_map]. unfold found at 1. destruct (within s e (snd (snd y))) as [|p d]; [auto|].
  cbn [app map s_meta]. constructor; [|auto]. intros Hx. apply in_map_iff in Hx as (x & Ex & Hx). apply in_flat_map in Hx as (y' & Hy & Hx). unfold found in Hx.
  destruct (within s e (snd (snd y'))); [contradiction|]. destruct Hx as [<-|[]]. cbn [s_meta] in Ex. apply N1. rewrite <- Ex. apply (in_map (fun x : Z * (list label * list tp) => sort_labels (fst (snd x)))). exact Hy.
Qed.
Lemma view_calm bs ch c M s e : bs_contract bs -> s <= e -> c_start ch = c_start c -> c_end ch = c_end c -> (forall x, In x M -> increasing (snd (snd x))) ->
  NoDup (map (fun x => sort_labels (fst (snd x))) M) ->
  let r := answer_from ch (reader bs s e) M s e in
  r <> Panic /\ NoDup (map s_meta (okl r)) /\ Forall (fun x => s_points x <> []) (okl r) /\ (forall m, pf m (okl r) = glimpse (c, M) s e m) /\
  (forall x, In x (okl r) -> exists y, In y M /\ s_meta x = sort_labels (fst (snd y))).
Proof.
  intros Hb Hse E1 E2 Hi N. cbv zeta.
  assert (EQ: answer_from ch (reader bs s e) M s e = answer_from c (fun pts => read_spec pts s e) M s e).
  { unfold answer_from. rewrite E1, E2. destruct (_ || _); [reflexivity|]. apply collect_ext. intros x Hx. apply reader_spec; auto. }
  rewrite EQ. pose proof (collect_touch s e M Hi) as C. unfold answer_from, glimpse. cbn [fst snd].
  destruct ((e <? c_start c) || (c_end c <? s)) eqn:O.
  { replace ((c_start c <=? e) && (s <=? c_end c)) with false by lia. cbn [andb okl]. split; [discriminate|]. split; [constructor|]. split; [constructor|]. split; [reflexivity|]. intros x []. }
  replace ((c_start c <=? e) && (s <=? c_end c)) with true by lia. cbn [andb].
  destruct (forallb _ M).
  - rewrite C. cbn [okl]. split; [discriminate|]. split; [now apply found_NoDup|]. split; [|split; [intros m; now apply found_pf|]].
    + apply Forall_forall. intros x Hx. apply in_flat_map in Hx as (y & _ & Hx). unfold found in Hx. destruct (within s e _); [contradiction|]. destruct Hx as [<-|[]]. discriminate.
    + intros x Hx. apply in_flat_map in Hx as (y & Hy & Hx). exists y. split; [exact Hy|]. unfold found in Hx. destruct (within s e _); [contradiction|]. destruct Hx as [<-|[]]. reflexivity.
  - destruct C as (er & ->). cbn [okl]. split; [discriminate|]. split; [constructor|]. split; [constructor|]. split; [reflexivity|]. intros x [].
Qed.

Lemma glimpse_back v s e m : e < s -> glimpse v s e m = [].
Proof.
  intros He. unfold glimpse. destruct (_ && _); [|reflexivity]. destruct (find _ _) as [x|]; [|reflexivity]. unfold within. induction (snd (snd x)) as [|p l IH]; [reflexivity|].
  cbn [filter]. replace ((s <=? tp_ts p) && (tp_ts p <=? e)) with false by lia. exact IH.
Qed.
Lemma view_okl bs ch c M s e : bs_contract bs -> c_start ch = c_start c -> c_end ch = c_end c -> (forall x, In x M -> increasing (snd (snd x))) ->
  NoDup (map (fun x => sort_labels (fst (snd x))) M) ->
  let r := answer_from ch (reader bs s e) M s e in
  (r = Panic <-> upset (c, M) s e) /\ NoDup (map s_meta (okl r)) /\ Forall (fun x => s_points x <> []) (okl r) /\ (forall m, pf m (okl r) = glimpse (c, M) s e m) /\
  (forall x, In x (okl r) -> exists y, In y M /\ s_meta x = sort_labels (fst (snd y))).
Proof.
  intros Hb E1 E2 Hi N. cbv zeta. destruct (Z.le_gt_cases s e) as [L|L].
  { destruct (view_calm bs ch c M s e Hb L E1 E2 Hi N) as (V1 & V2). split; [|exact V2]. split; [contradiction|]. intros (X & _). lia. }
  assert (X: (answer_from ch (reader bs s e) M s e = Panic <-> upset (c, M) s e) /\ okl (answer_from ch (reader bs s e) M s e) = []).
  { unfold answer_from, upset. cbn [fst snd]. rewrite E1, E2. destruct ((e <? c_start c) || (c_end c <? s)) eqn:O.
    - split; [|reflexivity]. split; [discriminate|]. intros (_ & X & _). lia.
    - destruct (collect_back bs s e M Hb L Hi) as [C1 C2]. split; [|exact C2]. rewrite C1. unfold opens. split; [intros H; split; [lia|split; [lia|exact H]]|intros (_ & _ & H); exact H]. }
  destruct X as [X1 X2]. rewrite X2. split; [exact X1|]. split; [constructor|]. split; [constructor|]. split; [|intros x []]. intros m. now rewrite glimpse_back.
Qed.

(** ** what is seen in a chunk *)
Lemma numbered_asc A : ascending (map fst (numbered 1 A)).
Proof. pose proof (regs_asc A) as K. unfold regs in K. now rewrite map_map in K. Qed.
Lemma asc_keep f (l : list (Z * (list label * list tp))) : ascending (map fst l) -> ascending (map fst (filter f l)).
Proof.
  unfold ascending. induction l as [|x l IH]; intros H; [exact H|]. cbn [map filter] in *. inversion H as [|a b H1 H2]; subst. destruct (f x); [|auto]. cbn [map].
  constructor; [auto|]. rewrite Forall_forall in *. intros y Hy. apply H2. apply in_map_iff in Hy as (z & <- & Hz). apply filter_In in Hz as [Hz _]. now apply in_map.
Qed.
Lemma grown_numbered A B id ls pts : grown A B -> In (id, (ls, pts)) (numbered 1 A) -> exists pts', In (id, (ls, pts')) (numbered 1 B) /\ prefix pts pts'.
Proof.
  intros G H. apply numbered_In in H as (i & H & E). cbn [fst snd] in *. destruct (G _ _ _ H) as (p & Hp & Hx). exists p. split; [|exact Hx]. rewrite E. now apply numbered_nth.
Qed.
Lemma occurs_grown A B l : grown A B -> occurs A l = true -> occurs B l = true.
Proof.
  intros G H. unfold occurs in *. apply existsb_exists in H as ([ls pts] & Hin & Hh). apply In_nth_error in Hin as (i & Hi). destruct (G _ _ _ Hi) as (p & Hp & _).
  apply existsb_exists. exists (ls, p). split; [eapply nth_error_In; exact Hp|exact Hh].
Qed.
Lemma numbered_uniq A id x y : In (id, x) (numbered 1 A) -> In (id, y) (numbered 1 A) -> x = y.
Proof. intros H1 H2. apply numbered_In in H1 as (i & H1 & E1). apply numbered_In in H2 as (j & H2 & E2). cbn [fst snd] in *. assert (i = j) by lia. subst. congruence. Qed.
Lemma seen_all A B q : grown A B -> seen A B q (matching B q).
Proof.
  intros G. unfold matching. constructor.
  - apply asc_keep, numbered_asc.
  - intros id ls pts H. apply filter_In in H as [H _]. exists pts. split; [exact H|apply prefix_refl].
  - intros id ls pts pts0 H H0. apply filter_In in H as [H _]. destruct (grown_numbered _ _ _ _ _ G H0) as (p & Hp & Hx).
    pose proof (numbered_uniq _ _ _ _ Hp H) as E. now injection E as ->.
  - intros id ls pts H. apply filter_In in H as [_ H]. cbn [fst snd] in H. unfold matches in H. apply andb_true_iff in H as [H1 H2]. apply existsb_exists in H1 as (l & Hl & Ho).
    rewrite forallb_forall in H2. specialize (H2 l Hl). rewrite Ho in H2. exists l. auto.
  - intros id ls pts l H Hl Ho. apply filter_In in H as [_ H]. cbn [fst snd] in H. unfold matches in H. apply andb_true_iff in H as [H1 H2].
    rewrite forallb_forall in H2. specialize (H2 l Hl). rewrite (occurs_grown _ _ _ G Ho) in H2. exact H2.
  - intros id ls pts0 H Hm. destruct (grown_numbered _ _ _ _ _ G H) as (p & Hp & Hx). exists p. apply filter_In. split; [exact Hp|exact Hm].
Qed.
Lemma seen_increasing A B q M : all_increasing B -> seen A B q M -> forall x, In x M -> increasing (snd (snd x)).
Proof.
  intros Hi Se [id [ls pts]] Hx. destruct (se_real _ _ _ _ Se _ _ _ Hx) as (p & Hn & P). apply numbered_In in Hn as (i & Hn & _). cbn [snd] in *. apply nth_error_In in Hn.
  unfold all_increasing in Hi. rewrite Forall_forall in Hi. eapply prefix_increasing; [exact P|]. exact (Hi _ Hn).
Qed.
Lemma seen_NoDup A B q M : wfc B -> seen A B q M -> NoDup (map (fun x => sort_labels (fst (snd x))) M).
Proof.
  intros W Se. pose proof (se_order _ _ _ _ Se) as O. apply asc_NoDup in O.
  assert (K: forall x y, In x M -> In y M -> sort_labels (fst (snd x)) = sort_labels (fst (snd y)) -> fst x = fst y).
  { intros [id [ls pts]] [id' [ls' pts']] Hx Hy E. cbn [fst snd] in *. destruct (se_real _ _ _ _ Se _ _ _ Hx) as (p & Hn & _). destruct (se_real _ _ _ _ Se _ _ _ Hy) as (p' & Hn' & _).
    apply numbered_In in Hn as (i & Hn & Ei). apply numbered_In in Hn' as (j & Hn' & Ej). cbn [fst snd] in *.
    assert (i = j); [|lia]. apply (wf_distinct _ W i j _ _ Hn Hn'). cbn [fst]. now apply sort_eq_perm. }
  clear Se. induction M as [|x M IH]; [constructor|]. cbn [map] in *. inversion O as [|z zs N1 N2]; subst. constructor.
  - intros Hx. apply in_map_iff in Hx as (y & Ey & Hy). apply N1. rewrite (K x y); [apply in_map; exact Hy|now left|now right|congruence].
  - apply IH; [exact N2|]. intros y z Hy Hz. apply K; now right.
Qed.

(** ** the whole query *)
Section MAY.
  (* the chunks, what they held at first and in the end *)
  Variables (chs : list chunk) (l0 l1 : list part).

  Fixpoint dmay {A} (p : prog dcmd A) (lo : nat) (a : A) : Prop :=
    match p with
    | Ret b => a = b
    | @Do _ _ X c k =>
        match c in dcmd X return (X -> prog dcmd A) -> Prop with
        | @DC Y j c => fun k => exists ch c1 x, nth_error chs j = Some ch /\ nth_error l1 j = Some c1 /\ GC ch (content_at l0 j) (snd c1) Y c x /\ dmay (k x) lo a
        | DCurRead => fun k => exists i ch, (lo <= i < length l1)%nat /\ nth_error chs i = Some ch /\ dmay (k (false, (i, ch))) i a
        | DCurUnread => fun k => dmay (k tt) lo a
        | DSecRead => fun k => exists n cs, (lo <= n <= length l1)%nat /\ Forall2 (fun i x => fst x = i /\ nth_error chs i = Some (snd x)) (seq 0 n) cs /\
            dmay (k (false, cs)) lo a
        | DSecUnread => fun k => dmay (k tt) lo a
        | _ => fun _ => False
        end k
    end.
  Lemma dmay_DC {A B} j ch c1 (q : prog ccmd A) (f : A -> prog dcmd B) lo b : nth_error chs j = Some ch -> nth_error l1 j = Some c1 ->
    dmay (bind (lift (fun X c => @DC X j c) q) f) lo b -> exists a, ReadsMay.may (GC ch (content_at l0 j) (snd c1)) q a /\ dmay (f a) lo b.
  Proof.
    intros N1 N2. induction q as [x|X c k IH]; cbn [lift bind dmay ReadsMay.may]; [eauto|].
    intros (ch' & c1' & x & M1 & M2 & G & H). assert (ch' = ch) as -> by congruence. assert (c1' = c1) as -> by congruence.
    apply IH in H as (a & H1 & H2). eauto.
  Qed.

  Hypothesis (HB : below l0 l1) (HP : Forall part_ok l1).
  Hypothesis (HC : forall j ch c, nth_error chs j = Some ch -> nth_error l1 j = Some c -> like ch (fst c)).
  Variables (hs : hasher) (bs : bsearch) (o : timing) (q : list label) (s e : Z).
  Hypothesis (Hh : hasher_ok hs) (Hb : bs_contract bs) (Hq : Forall lab_ok q) (Hnp : unmixed_sets hs l1 q).

  Definition visited (j : nat) (v : view) : Prop := exists A, nth_error l1 j = Some (fst v, A) /\ seen (content_at l0 j) A q (snd v).
  Definition U (m : list label) : Prop := exists c x, In c l1 /\ In x (snd c) /\ wanted q (fst x) /\ m = sort_labels (fst x).
  Lemma below_at j c A : nth_error l1 j = Some (c, A) -> grown (content_at l0 j) A.
  Proof. intros N. pose proof (below_content l0 l1 j HB) as G. unfold content_at in G at 2. now rewrite N in G. Qed.
  Lemma visit j ch c1 r : nth_error chs j = Some ch -> nth_error l1 j = Some c1 ->
    ReadsMay.may (GC ch (content_at l0 j) (snd c1)) (chunk_query ch bs o q s e) r ->
    exists v, visited j v /\ (r = Panic <-> upset v s e) /\ wfa U (okl r) /\ forall m, pf m (okl r) = glimpse v s e m.
  Proof.
    intros N1 N2 M. destruct c1 as [c A]. cbn [snd] in M. pose proof (below_at _ _ _ N2) as G.
    rewrite Forall_forall in HP. pose proof (HP _ (nth_error_In _ _ N2)) as [W Hi L]. cbn [snd] in W, Hi, L.
    destruct (query_may ch bs _ _ G L (wf_sets _ W) o q s e r Hq M) as (Mv & Se & Er). exists (c, Mv).
    split; [exists A; cbn [fst snd]; auto|]. destruct (HC _ _ _ N1 N2) as (K1 & K2 & K3). cbn [fst] in K1, K2, K3.
    destruct (view_okl bs ch c Mv s e Hb K2 K3 (seen_increasing _ _ _ _ Hi Se) (seen_NoDup _ _ _ _ W Se)) as (V1 & V2 & V3 & V4 & V5).
    rewrite <- Er in *. split; [exact V1|]. split; [|exact V4]. constructor; [exact V2| |exact V3].
    apply Forall_forall. intros x Hx. destruct (V5 x Hx) as ([id [ls pts]] & Hy & ->). cbn [fst snd].
    destruct (se_real _ _ _ _ Se _ _ _ Hy) as (pts1 & Hn & _). apply numbered_In in Hn as (i & Hn & _). cbn [snd] in Hn.
    exists (c, A), (ls, pts1). split; [eapply nth_error_In; exact N2|]. split; [eapply nth_error_In; exact Hn|]. split; [|reflexivity]. exact (se_some _ _ _ _ Se _ _ _ Hy).
  Qed.
  (* a chunk out of the range *)
  Lemma unvisited j ch c1 : nth_error chs j = Some ch -> nth_error l1 j = Some c1 -> is_with_range ch s e = false ->
    exists v, visited j v /\ ~ upset v s e /\ forall m, glimpse v s e m = [].
  Proof.
    intros N1 N2 O. destruct c1 as [c A]. pose proof (below_at _ _ _ N2) as G. exists (c, matching A q). split; [exists A; split; [exact N2|now apply seen_all]|].
    destruct (HC _ _ _ N1 N2) as (K1 & K2 & K3). cbn [fst] in K2, K3. unfold is_with_range, is_duration_overlap in O.
    split; [intros (_ & X & _); cbn [fst] in X; lia|]. intros m. unfold glimpse. cbn [fst].
    replace ((c_start c <=? e) && (s <=? c_end c)) with false by lia. reflexivity.
  Qed.

  Lemma dmay_assoc {A B C} (p : prog dcmd A) (f : A -> prog dcmd B) (g : B -> prog dcmd C) : forall lo a,
    dmay (bind (bind p f) g) lo a -> dmay (bind p (fun x => bind (f x) g)) lo a.
  Proof.
    induction p as [x|X c k IH]; intros lo a; [auto|]. destruct c; cbn [bind dmay]; try contradiction; try apply IH.
    - intros (ch & c1 & x & H1 & H2 & H3 & H4). exists ch, c1, x. auto.
    - intros (i & ch & H1 & H2 & H3). exists i, ch. auto.
    - intros (n & cs & H1 & H2 & H3). exists n, cs. auto.
  Qed.
  Lemma any_visits js : Forall (fun j => j < length l1)%nat js -> exists vs, Forall2 visited js vs.
  Proof.
    induction 1 as [|j js Lj H (vs & IH)]; [exists []; constructor|]. destruct (nth_error l1 j) as [[c A]|] eqn:N1; [|apply nth_error_None in N1; lia].
    exists ((c, matching A q) :: vs). constructor; [|exact IH]. exists A. split; [exact N1|]. apply seen_all. exact (below_at _ _ _ N1).
  Qed.
  Lemma secs_may {B} js cs : Forall2 (fun i x => (i < length l1)%nat /\ fst x = i /\ nth_error chs i = Some (snd x)) js cs ->
    forall m lo (f : res hmap -> prog dcmd B) b, wfm U m -> dmay (bind (query_secondaries hs bs o q s e cs m) f) lo b ->
    exists vs, Forall2 visited js vs /\
      ((exists xs, (forall v, In v vs -> ~ upset v s e) /\ Forall (wfa U) xs /\ Forall2 (fun v x => forall l, pf l x = glimpse v s e l) vs xs /\ dmay (f (merges hs m xs)) lo b) \/
       ((exists v, In v vs /\ upset v s e) /\ dmay (f Panic) lo b)).
  Proof.
    induction 1 as [|j [i ch] js cs (Lj & Ej & Nj) H IH]; intros m lo f b Wm D.
    - exists []. cbn [query_secondaries bind] in D. split; [constructor|]. left. exists []. split; [intros v []|]. split; [constructor|]. split; [constructor|exact D].
    - cbn [fst snd] in *. subst i. cbn [query_secondaries] in D. destruct (nth_error l1 j) as [c1|] eqn:N1; [|apply nth_error_None in N1; lia].
      assert (MORE: forall v x m2, visited j v -> ~ upset v s e -> wfa U x -> (forall l, pf l x = glimpse v s e l) -> wfm U m2 -> (forall xs, merges hs m2 xs = merges hs m (x :: xs)) ->
        dmay (bind (query_secondaries hs bs o q s e cs m2) f) lo b -> exists vs, Forall2 visited (j :: js) vs /\
        ((exists xs, (forall v, In v vs -> ~ upset v s e) /\ Forall (wfa U) xs /\ Forall2 (fun v x => forall l, pf l x = glimpse v s e l) vs xs /\ dmay (f (merges hs m xs)) lo b) \/
         ((exists v, In v vs /\ upset v s e) /\ dmay (f Panic) lo b))).
      { intros v x m2 Vv Nv Wx Gx Wm2 Em D2. destruct (IH m2 lo f b Wm2 D2) as (vs & F1 & [(xs & F0 & F2 & F3 & F4)|((u & Hu & F0) & F4)]).
        - exists (v :: vs). split; [now constructor|]. left. exists (x :: xs). split; [intros u [<-|Hu]; [exact Nv|exact (F0 u Hu)]|]. split; [now constructor|]. split; [now constructor|]. now rewrite <- Em.
        - exists (v :: vs). split; [now constructor|]. right. split; [exists u; split; [now right|exact F0]|exact F4]. }
      destruct (is_with_range ch s e) eqn:O.
      + apply dmay_assoc in D. destruct (dmay_DC j ch c1 _ _ _ _ Nj N1 D) as (r & Mr & D2). destruct (visit j ch c1 r Nj N1 Mr) as (v & Vv & NP & Wr & Gr).
        destruct r as [l|er|].
        * cbn [okl] in *. destruct (merge_append U hs Hnp Hh l m Wm Wr) as (m2 & Em & Wm2 & _). rewrite Em in D2.
          apply (MORE v l m2 Vv); try assumption; [rewrite <- NP; discriminate|]. intros xs. cbn [merges]. now rewrite Em.
        * apply (MORE v [] m Vv); try assumption; [rewrite <- NP; discriminate|reflexivity].
        * cbn [bind] in D2. destruct (any_visits js) as (vs & F1); [clear - H; induction H as [|? ? ? ? (K & _) H IH]; constructor; auto|].
          exists (v :: vs). split; [now constructor|]. right. split; [exists v; split; [now left|now apply NP]|exact D2].
      + destruct (unvisited j ch c1 Nj N1 O) as (v & Vv & Nv & Gv). apply (MORE v [] m Vv Nv); [constructor; constructor|intros l; now rewrite Gv|exact Wm|reflexivity|exact D].
  Qed.

  Lemma query_dmay {B} (f : res (list (list label * list tp)) -> prog dcmd B) b :
    dmay (bind (db_query hs bs o q s e) f) (pred (length l0)) b ->
    exists r lo, query_outcome l0 l1 q s e r /\ dmay (f r) lo b.
  Proof.
    intros D. unfold db_query, qbind in D. apply dmay_assoc in D. unfold with_current in D. apply dmay_assoc in D.
    cbn [call bind dmay] in D. destruct D as (i & ch & Li & Ni & D).
    apply dmay_assoc, dmay_assoc in D. destruct (nth_error l1 i) as [c1|] eqn:N1; [|apply nth_error_None in N1; lia].
    destruct (dmay_DC i ch c1 _ _ _ _ Ni N1 D) as (r0 & M0 & D1). clear D. destruct (visit i ch c1 r0 Ni N1 M0) as (v0 & V0 & NP & W0 & G0).
    cbn [bind dmay call] in D1.
    assert (C: r0 = Panic \/ r0 <> Panic) by (destruct r0; auto; right; discriminate). destruct C as [-> |NP0].
    { cbn [bind dmay] in D1. destruct (any_visits (seq 0 i)) as (vs & F1); [apply Forall_forall; intros j Hj; apply in_seq in Hj; lia|].
      exists Panic, i. split; [|exact D1]. right. split; [reflexivity|]. exists (vs ++ [v0]), v0. split; [|split; [apply in_app_iff; right; now left|now apply NP]].
      exists i, i. split; [lia|]. split; [lia|]. split; [lia|]. apply Forall2_app; [exact F1|]. constructor; [exact V0|constructor]. }
    assert (E0: (match r0 with Ok l => merge (hm_insert hs) [] l | Err _ => Ok [] | Panic => Panic end) = merge (hm_insert hs) [] (okl r0)) by (destruct r0; [reflexivity..|congruence]).
    rewrite E0 in D1. assert (We: wfm U []) by (constructor; constructor).
    destruct (merge_insert U hs Hnp Hh (okl r0) [] We W0) as (m1 & E1 & W1 & _); [intros x Hx []|]. rewrite E1 in D1.
    cbn [bind dmay call] in D1. destruct D1 as (k & cs & Lk & Fk & D2).
    apply dmay_assoc in D2.
    assert (Fr: Forall2 (fun i x => (i < length l1)%nat /\ fst x = i /\ nth_error chs i = Some (snd x)) (rev (seq 0 k)) (rev cs)).
    { apply Forall2_rev. revert Fk. apply Forall2_impl_in. intros a x Ha _ H. apply in_seq in Ha. split; [lia|exact H]. }
    assert (VS: forall vs, Forall2 visited (rev (seq 0 k)) vs -> visits l0 l1 q (rev vs ++ [v0])).
    { intros vs F1. exists k, i. split; [lia|]. split; [lia|]. split; [lia|].
      apply Forall2_app; [|constructor; [exact V0|constructor]]. apply Forall2_rev in F1. now rewrite rev_involutive in F1. }
    destruct (secs_may _ _ Fr m1 i _ b W1 D2) as (vs & F1 & [(xs & F0 & F2 & F3 & F4)|((v & Hv & Uv) & F4)]).
    - cbn [bind dmay call] in F4. destruct (assembled_spec U hs Hnp Hh (okl r0) xs W0 F2) as (r & Er & Nr & _ & Mr).
      unfold assembled in Er. rewrite E1 in Er. cbn [rbind] in Er. rewrite Er in F4. exists (Ok r), i. split; [|exact F4]. left. exists r. split; [reflexivity|].
      exists (rev vs ++ [v0]). split; [exact (VS vs F1)|]. split.
      { intros v Hv. apply in_app_or in Hv as [Hv|[<-|[]]]; [apply F0; now apply in_rev|]. rewrite <- NP. exact NP0. }
      split; [exact Nr|]. intros m pts. rewrite Mr.
      replace (concat (map (pf m) (rev (okl r0 :: xs)))) with (concat (map (fun v => glimpse v s e m) (rev vs ++ [v0]))); [reflexivity|].
      f_equal. cbn [rev]. rewrite !map_app. cbn [map]. rewrite G0. f_equal. rewrite !map_rev. f_equal. clear - F3. induction F3 as [|v x vs xs H F3 IH]; [reflexivity|]. cbn [map]. now rewrite H, IH.
    - cbn [bind dmay call rbind] in F4. exists Panic, i. split; [|exact F4]. right. split; [reflexivity|]. exists (rev vs ++ [v0]), v.
      split; [exact (VS vs F1)|]. split; [apply in_app_iff; left; now apply in_rev in Hv|exact Uv].
  Qed.
End MAY.
