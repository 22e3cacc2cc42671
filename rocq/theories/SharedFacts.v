(* Consequences of what a query may see while the database works. *)
From Coq Require Import ZifyBool ZifyNat Permutation Sorted.
From Verif Require Import Rust StringProofs Prog Gorilla GorillaSpec Storage StorageSpec StorageProofs Labels IndexSpec Indexer
  LabelProofs IndexProofs Chunk ChunkSpec ChunkProofs ChunkFacts ConcSpec Conc Utils DirSpec DirProofs TiKvInit Db DbSpec MapProofs
  DbProofs DbHist DbFacts RangeSpec RangeProofs FaultsSpec FaultsProofs FaultsMain SwapSpec SwapProofs SwapConc SwapMain WritersSpec WritersProofs WritersConc WritersMain
  ReadsSpec ReadsMay ReadsCrash ReadsConc ReadsFacts SharedSpec SharedLog SharedConc SharedMay SharedMain.

(** ** everything returned is there *)
Theorem between_sound l0 l1 q s e r m pts p : between l0 l1 q s e r -> In (m, pts) r -> In p pts ->
  s <= tp_ts p <= e /\ exists c x, In c l1 /\ In x (snd c) /\ sort_labels (fst x) = m /\ wanted q (fst x) /\ In p (snd x).
Proof.
  intros (vs & (k & i & _ & _ & _ & F) & _ & _ & M) Hr Hp. apply M in Hr as [_ ->]. apply in_concat in Hp as (g & Hg & Hp). apply in_map_iff in Hg as (v & <- & Hv).
  assert (X: exists j A, nth_error l1 j = Some (fst v, A) /\ seen (content_at l0 j) A q (snd v)).
  { clear - F Hv. induction F as [|j u js vs (A & H) F IH]; [contradiction|]. destruct Hv as [->|Hv]; [eauto|auto]. }
  destruct X as (j & A & Nj & Se). unfold glimpse in Hp. destruct (_ && _); [|contradiction]. destruct (find _ (snd v)) as [[id [ls ps]]|] eqn:Fd; [|contradiction].
  apply find_some in Fd as [H1 H2]. apply labs_eqb_spec in H2. cbn [fst snd] in *. unfold within in Hp. apply filter_In in Hp as [Hp Hse]. split; [lia|].
  destruct (se_real _ _ _ _ Se _ _ _ H1) as (p1 & Hn & (rest & Hpre)). apply numbered_In in Hn as (n & Hn & _). cbn [snd] in Hn.
  exists (fst v, A), (ls, p1). split; [eapply nth_error_In; exact Nj|]. cbn [fst snd]. split; [eapply nth_error_In; exact Hn|]. split; [exact H2|]. split; [exact (se_some _ _ _ _ Se _ _ _ H1)|].
  rewrite Hpre. apply in_app_iff. now left.
Qed.

(** ** without new searched series the answer is that of a content in between *)
Lemma has_not q ls l : ~ wanted q ls -> In l q -> has ls l = false.
Proof. intros H Hl. destruct (has ls l) eqn:E; [|reflexivity]. exfalso. apply H. exists l. auto. Qed.
Lemma find_matching A q m f : (forall x, f x = labs_eqb (sort_labels (fst (snd x))) m) ->
  option_map snd (find f (matching A q)) = find (fun x => labs_eqb (sort_labels (fst x)) m && matches A q (fst x)) A.
Proof.
  intros Hf. unfold matching. assert (G: forall (g : list label -> bool) n B, option_map snd (find f (filter (fun x => g (fst (snd x))) (numbered n B))) =
    find (fun x => labs_eqb (sort_labels (fst x)) m && g (fst x)) B).
  { intros g n B. revert n. induction B as [|x B IH]; intros n; [reflexivity|]. cbn [numbered filter find snd]. destruct (g (fst x)) eqn:Eg.
    - cbn [find]. rewrite Hf. cbn [snd]. destruct (labs_eqb (sort_labels (fst x)) m); [reflexivity|]. cbn [andb]. apply IH.
    - rewrite andb_false_r. apply IH. }
  apply (G (matches A q)).
Qed.
Lemma forallb_matching A q s e : forallb (fun x => touchesb s e (snd (snd x))) (matching A q) = forallb (fun x => negb (matches A q (fst x)) || touchesb s e (snd x)) A.
Proof.
  unfold matching. assert (G: forall (g : list label -> bool) n B, forallb (fun x => touchesb s e (snd (snd x))) (filter (fun x => g (fst (snd x))) (numbered n B)) =
    forallb (fun x => negb (g (fst x)) || touchesb s e (snd x)) B).
  { intros g n B. revert n. induction B as [|x B IH]; intros n; [reflexivity|]. cbn [numbered filter forallb snd]. destruct (g (fst x)); cbn [forallb snd negb orb]; [|apply IH]. now rewrite IH. }
  apply (G (matches A q)).
Qed.
Lemma glimpse_piece c B q s e m : glimpse (c, matching B q) s e m = piece (c, B) q s e m.
Proof.
  unfold glimpse, piece, answers. cbn [fst snd]. rewrite forallb_matching. destruct (_ && _); [|reflexivity].
  rewrite <- (find_matching B q m (fun x => labs_eqb (sort_labels (fst (snd x))) m)) by reflexivity. destruct (find _ (matching B q)) as [x|]; reflexivity.
Qed.
Theorem between_snapshot l0 l1 q s e r : grew l0 l1 -> settled l0 l1 q -> between l0 l1 q s e r ->
  exists k i l, (length l0 <= S i)%nat /\ (i <= k <= length l1)%nat /\ (i < length l1)%nat /\
    Forall2 (fun j c => exists A, nth_error l1 j = Some (fst c, A) /\ grown (content_at l0 j) (snd c) /\ grown (snd c) A) (seq 0 k ++ [i]) l /\
    db_answer l q s e r.
Proof.
  intros G New (vs & (k & i & L1 & L2 & L3 & F) & _ & N & M). exists k, i.
  assert (X: exists l, Forall2 (fun j c => exists A, nth_error l1 j = Some (fst c, A) /\ grown (content_at l0 j) (snd c) /\ grown (snd c) A) (seq 0 k ++ [i]) l /\
    forall m, map (fun v => glimpse v s e m) vs = map (fun c => piece c q s e m) l).
  { clear - F G New. induction F as [|j v js vs (A & Nj & Se) F IH]; [exists []; split; [constructor|reflexivity]|]. destruct IH as (l & F' & E).
    pose proof (below_content l0 l1 j G) as Gj. unfold content_at in Gj at 2. rewrite Nj in Gj. cbn [snd] in Gj.
    destruct (seen_snapshot _ _ _ _ Gj Se) as (B & _ & B1 & B2 & B3).
    { intros n x lb Hn Ln Hl. apply (has_not q); [exact (New j _ _ n x Nj Hn Ln)|exact Hl]. }
    exists ((fst v, B) :: l). split; [constructor; [exists A; cbn [fst snd]; auto|exact F']|]. intros m. cbn [map]. f_equal; [|apply E].
    destruct v as [c Mv]. cbn [fst snd] in *. rewrite <- B3. apply glimpse_piece. }
  destruct X as (l & F' & E). exists l. split; [exact L1|]. split; [exact L2|]. split; [exact L3|]. split; [exact F'|]. split; [exact N|].
  intros m pts. rewrite M, E. reflexivity.
Qed.

(** ** what was there is found *)
Lemma touches_more s e a b : prefix a b -> touches s e a -> touches s e b.
Proof. intros (c & ->) [(p & H1 & H2) (p' & H3 & H4)]. split; [exists p|exists p']; (split; [apply in_app_iff; now left|assumption]). Qed.
Lemma visits_at k i j : (j <= i)%nat -> (i <= k)%nat -> In j (seq 0 k ++ [i]).
Proof. intros H1 H2. apply in_app_iff. destruct (Nat.lt_ge_cases j k); [left; apply in_seq; lia|right; left; lia]. Qed.
Theorem between_complete l0 l1 q s e r j c A0 A1 ls pts p : grew l0 l1 -> sets_once l1 -> between l0 l1 q s e r ->
  nth_error l0 j = Some (c, A0) -> nth_error l1 j = Some (c, A1) -> c_start c <= e -> s <= c_end c ->
  (forall i x, nth_error A1 i = Some x -> (length A0 <= i)%nat -> ~ wanted q (fst x)) ->
  (forall x, In x A0 -> matches A0 q (fst x) = true -> touches s e (snd x)) ->
  In (ls, pts) A0 -> matches A0 q ls = true -> In p pts -> s <= tp_ts p <= e ->
  exists ps, In (sort_labels ls, ps) r /\ In p ps.
Proof.
  intros G Once (vs & (k & i & L1 & L2 & L3 & F) & _ & N & M) N0 N1 O1 O2 New Tch Hls Hm Hp Hse.
  assert (Lj: (j < length l0)%nat) by (apply nth_error_Some; congruence).
  assert (X: exists v A, In v vs /\ nth_error l1 j = Some (fst v, A) /\ seen (content_at l0 j) A q (snd v)).
  { pose proof (visits_at k i j ltac:(lia) ltac:(lia)) as Hj. clear - F Hj. induction F as [|j' v js vs (A & H) F IH]; [contradiction|].
    destruct Hj as [->|Hj]; [exists v, A; split; [now left|exact H]|]. destruct (IH Hj) as (v' & A' & H1 & H2). exists v', A'. split; [now right|exact H2]. }
  destruct X as (v & A & Hv & Nj & Se). rewrite N1 in Nj. injection Nj as Ec <-. unfold content_at in Se. rewrite N0 in Se. cbn [snd] in Se.
  destruct (G _ _ _ N0) as (A1' & N1' & Gj). assert (A1' = A1) as -> by congruence.
  destruct (seen_snapshot _ _ _ _ Gj Se) as (B & BL & B1 & B2 & B3).
  { intros n x lb Hn Ln Hl. apply (has_not q); [exact (New n x Hn Ln)|exact Hl]. }
  assert (OCC: forall l, occurs B l = occurs A0 l).
  { intros l. rewrite <- !known_regs. now rewrite (regs_ext B A0). }
  assert (MT: forall ls, matches B q ls = matches A0 q ls).
  { intros ls'. unfold matches. f_equal; [clear - OCC|clear - OCC]; (induction q as [|l q IH]; [reflexivity|]); cbn [existsb forallb]; now rewrite OCC, IH. }
  (* every series looked at reaches the range *)
  assert (TB: forallb (fun x => touchesb s e (snd (snd x))) (snd v) = true).
  { rewrite <- B3. rewrite forallb_matching. apply forallb_forall. intros x Hx. rewrite MT. destruct (matches A0 q (fst x)) eqn:Ex; [|reflexivity]. cbn [negb orb]. apply touchesb_spec.
    apply In_nth_error in Hx as (n & Hn). assert (Ln: (n < length A0)%nat) by (rewrite <- (map_length fst), <- BL, map_length; apply nth_error_Some; congruence).
    destruct (nth_error A0 n) as [[ls0 p0]|] eqn:E0; [|apply nth_error_None in E0; lia]. destruct (B1 _ _ _ E0) as (p1 & E1 & Hpre). assert (x = (ls0, p1)) as -> by congruence. cbn [fst snd] in *.
    eapply touches_more; [exact Hpre|]. apply (Tch (ls0, p0)); [eapply nth_error_In; exact E0|exact Ex]. }
  apply In_nth_error in Hls as (n & Hn). destruct (B1 _ _ _ Hn) as (p1 & HB & Hpre). destruct (B2 _ _ _ HB) as (p2 & HA & _).
  assert (GL: In p (glimpse v s e (sort_labels ls))).
  { assert (glimpse v s e (sort_labels ls) = piece (c, B) q s e (sort_labels ls)) as ->.
    { rewrite <- glimpse_piece, B3. destruct v. cbn [fst] in Ec. now subst. }
    unfold piece, answers. cbn [fst snd]. rewrite <- forallb_matching, B3, TB. replace ((c_start c <=? e) && (s <=? c_end c) && true) with true by lia.
    assert (ND: NoDup (map (fun x => sort_labels (fst x)) B)).
    { rewrite <- (map_map fst sort_labels). rewrite BL. pose proof (Once _ (nth_error_In _ _ N1)) as O. cbn [snd] in O. rewrite <- (map_map fst sort_labels) in O.
      assert (map fst A0 = firstn (length A0) (map fst A1)) as ->.
      { clear - Gj. revert A1 Gj. induction A0 as [|[l p] A0 IH]; intros A1 Gj; [reflexivity|]. destruct (Gj 0%nat _ _ eq_refl) as (p' & E & _). destruct A1 as [|x A1]; [discriminate|]. cbn [nth_error] in E. injection E as ->.
        cbn [map length firstn fst]. f_equal. apply IH. intros i ls pts Hi. exact (Gj (S i) _ _ Hi). }
      rewrite <- firstn_map. clear - O. revert O. generalize (map sort_labels (map fst A1)) as L. generalize (length A0) as n. induction n as [|n IH]; intros [|x L] O; try constructor.
      - inversion O; subst. intros Hx. apply H1. rewrite <- (firstn_skipn n L). apply in_app_iff. now left.
      - inversion O; subst. now apply IH. }
    destruct (find _ B) as [y|] eqn:Fd.
    - apply find_some in Fd as [Y1 Y2]. apply andb_true_iff in Y2 as [Y2 _]. apply labs_eqb_spec in Y2.
      assert (y = (ls, p1)) as ->.
      { apply In_nth_error in Y1 as (n' & Y1). assert (n' = n) as ->; [|congruence].
        apply (proj1 (NoDup_nth_error (map (fun x => sort_labels (fst x)) B)) ND); [rewrite map_length; apply nth_error_Some; congruence|].
        rewrite !nth_error_map, Y1, HB. cbn [option_map fst]. now rewrite Y2. }
      unfold within. cbn [snd]. apply filter_In. split; [destruct Hpre as (x & ->); apply in_app_iff; now left|lia].
    - exfalso. pose proof (find_none _ _ Fd _ (nth_error_In _ _ HB)) as K. cbn [fst] in K. rewrite MT, Hm, labs_eqb_refl in K. discriminate. }
  exists (concat (map (fun v => glimpse v s e (sort_labels ls)) vs)).
  assert (HI: In p (concat (map (fun v => glimpse v s e (sort_labels ls)) vs))) by (apply in_concat; exists (glimpse v s e (sort_labels ls)); split; [apply in_map_iff; exists v; auto|exact GL]).
  split; [|exact HI]. apply M. split; [|reflexivity]. intros Z. rewrite Z in HI. contradiction.
Qed.

(** ** with nothing written meanwhile the answer is the exact one, or that with the newest chunk read twice *)
Lemma grown_eq A B : grown A B -> grown B A -> A = B.
Proof.
  revert B. induction A as [|[l p] A IH]; intros [|[l' p'] B] H1 H2; [reflexivity| | |].
  - destruct (H2 0%nat _ _ eq_refl) as (x & E & _). discriminate.
  - destruct (H1 0%nat _ _ eq_refl) as (x & E & _). discriminate.
  - destruct (H1 0%nat _ _ eq_refl) as (x & E & (a & Ea)). destruct (H2 0%nat _ _ eq_refl) as (y & E' & (b & Eb)). cbn [nth_error] in *. injection E as -> ->. injection E' as <-.
    assert (a = []) as ->. { destruct a; [reflexivity|]. apply (f_equal (@length tp)) in Ea. apply (f_equal (@length tp)) in Eb. rewrite app_length in *. cbn [length] in *. lia. }
    rewrite app_nil_r in Ea. subst x. f_equal. apply IH; intros i ls pts Hi; [exact (H1 (S i) _ _ Hi)|exact (H2 (S i) _ _ Hi)].
Qed.
Theorem between_same l q s e r : between l l q s e r -> db_answer l q s e r \/ db_answer (twice_last l) q s e r.
Proof.
  intros H. destruct (between_snapshot l l q s e r) as (k & i & l' & L1 & L2 & L3 & F & DA).
  { intros j c A Hj. exists A. split; [exact Hj|apply grown_refl]. }
  { intros j c A n x Hj Hn Ln. unfold content_at in Ln. rewrite Hj in Ln. cbn [snd] in Ln. assert (n < length A)%nat by (apply nth_error_Some; congruence). lia. }
  { exact H. }
  assert (S i = length l) by lia.
  assert (EL: map (nth_error l) (seq 0 k ++ [i]) = map Some l').
  { clear - F. induction F as [|j c js l' (A & Nj & G1 & G2) F IH]; [reflexivity|]. cbn [map]. rewrite IH. f_equal. rewrite Nj. unfold content_at in G1. rewrite Nj in G1. cbn [snd] in G1.
    rewrite (grown_eq _ _ G1 G2). now destruct c. }
  assert (SQ: forall n, (n <= length l)%nat -> map (nth_error l) (seq 0 n) = map Some (firstn n l)).
  { clear. intros n. revert l. induction n as [|n IH]; intros l L; [reflexivity|]. destruct l as [|x l]; [cbn in L; lia|]. cbn [seq map nth_error firstn]. f_equal. rewrite <- seq_shift, map_map. apply IH. cbn in L. lia. }
  assert (INJ: forall a b : list part, map Some a = map Some b -> a = b).
  { clear. induction a as [|x a IH]; intros [|y b] E; try discriminate; [reflexivity|]. cbn [map] in E. injection E as -> E. f_equal. auto. }
  destruct (nth_error l i) as [last|] eqn:Nl; [|apply nth_error_None in Nl; lia].
  assert (EE: l' = firstn k l ++ [last]).
  { apply INJ. etransitivity; [symmetry; exact EL|]. rewrite !map_app, SQ by lia. cbn [map]. now rewrite Nl. }
  assert (ES: l = firstn i l ++ [last]).
  { apply INJ. rewrite map_app, <- SQ by lia. cbn [map]. rewrite <- Nl. change ([nth_error l i]) with (map (nth_error l) [i]). rewrite <- map_app.
    replace (seq 0 i ++ [i]) with (seq 0 (length l)) by (rewrite <- H0, seq_S; reflexivity). rewrite SQ by lia. now rewrite firstn_all. }
  assert (k = i \/ k = S i) as [-> | ->] by lia.
  - left. rewrite ES, <- EE. exact DA.
  - right. rewrite H0, firstn_all in EE. replace (twice_last l) with l'; [exact DA|]. rewrite EE. rewrite ES at 2. rewrite twice_app. now rewrite <- ES.
Qed.

(** ** which queries break down *)
Lemma outcome_calm l0 l1 q s e o : s <= e -> query_outcome l0 l1 q s e o -> exists r, o = Ok r /\ between l0 l1 q s e r.
Proof. intros L [H|[_ (vs & v & _ & _ & (X & _))]]; [exact H|lia]. Qed.
Lemma numbered_split n A b id x a : numbered n A = b ++ (id, x) :: a -> exists A1 A2, A = A1 ++ x :: A2 /\ b = numbered n A1 /\ exists m, a = numbered m A2.
Proof.
  revert n b. induction A as [|y A IH]; intros n b E; [destruct b; discriminate|]. cbn [numbered] in E. destruct b as [|z b]; cbn [app] in E.
  - exists [], A. assert (x = y /\ a = numbered (n + 1) A) as [-> ->] by (split; congruence). split; [reflexivity|]. split; [reflexivity|eauto].
  - assert (z = (n, y) /\ numbered (n + 1) A = b ++ (id, x) :: a) as [-> E'] by (split; congruence). destruct (IH _ _ E') as (A1 & A2 & -> & -> & m & ->).
    exists (y :: A1), A2. split; [reflexivity|]. split; [reflexivity|eauto].
Qed.
Lemma numbered_cat n a b : exists m, numbered n (a ++ b) = numbered n a ++ numbered m b.
Proof.
  revert n. induction a as [|x a IH]; intros n; [exists n; reflexivity|]. destruct (IH (n + 1)) as (m & E). exists m. cbn [app numbered]. now rewrite E.
Qed.
Lemma filter_cut {T} (f : T -> bool) l : forall b x a, filter f l = b ++ x :: a -> exists l1 l2, l = l1 ++ x :: l2 /\ filter f l1 = b /\ f x = true.
Proof.
  induction l as [|y l IH]; intros b x a E; [destruct b; discriminate|]. cbn [filter] in E. destruct (f y) eqn:Ey.
  - destruct b as [|z b]; cbn [app] in E.
    + assert (y = x) as -> by congruence. exists [], l. auto.
    + assert (y = z /\ filter f l = b ++ x :: a) as [-> E'] by (split; congruence). destruct (IH _ _ _ E') as (l1 & l2 & -> & <- & Fx). exists (z :: l1), l2. cbn [app filter]. rewrite Ey. auto.
  - destruct (IH _ _ _ E) as (l1 & l2 & -> & <- & Fx). exists (y :: l1), l2. cbn [app filter]. rewrite Ey. auto.
Qed.
Lemma numbered_has n a x : In x (numbered n a) -> In (snd x) a.
Proof. revert n. induction a as [|y a IH]; intros n; [intros []|]. intros [<-|H]; [now left|right; eauto]. Qed.
Lemma upset_matching c A q s e : upset (c, matching A q) s e <-> crashes (c, A) q s e.
Proof.
  unfold upset, crashes. cbn [fst snd]. split; intros (H1 & H2 & H3); (split; [exact H1|]); (split; [exact H2|]).
  - destruct H3 as (b & id & ls & pts & a & E & E1 & E2). unfold matching in E. destruct (filter_cut _ _ _ _ _ E) as (l1 & l2 & El & Eb & Fx). cbn [snd fst] in Fx.
    destruct (numbered_split _ _ _ _ _ _ El) as (A1 & A2 & -> & -> & _). exists A1, ls, pts, A2. split; [reflexivity|]. split; [|split; [exact Fx|exact E2]].
    intros ls' pts' Hin M. apply In_nth_error in Hin as (i & Hin). apply (E1 (1 + Z.of_nat i) ls' pts'). rewrite <- Eb. apply filter_In. split; [now apply numbered_nth|exact M].
  - destruct H3 as (b & ls & pts & a & E & E1 & E2 & E3). destruct (numbered_cat 1 b ((ls, pts) :: a)) as (m & Em). unfold matching. exists (filter (fun x => matches A q (fst (snd x))) (numbered 1 b)), m, ls, pts, (filter (fun x => matches A q (fst (snd x))) (numbered (m + 1) a)).
    assert (EN: numbered 1 A = numbered 1 b ++ numbered m ((ls, pts) :: a)) by (rewrite E; exact Em).
    split; [rewrite EN, filter_app; cbn [numbered filter fst snd]; now rewrite E2|]. split; [|exact E3].
    intros id' ls' pts' Hin. apply filter_In in Hin as [Hin M]. apply numbered_has in Hin. exact (E1 ls' pts' Hin M).
Qed.
(* if meanwhile nothing is written but new, empty chunks *)
Lemma visits_crash l0 E q s e vs : Forall (fun c : part => snd c = []) E -> visits l0 (l0 ++ E) q vs ->
  (exists v, In v vs /\ upset v s e) <-> exists c, In c l0 /\ crashes c q s e.
Proof.
  intros HE (k & i & L1 & L2 & L3 & F).
  assert (V: forall j v A, nth_error (l0 ++ E) j = Some (fst v, A) -> seen (content_at l0 j) A q (snd v) -> (upset v s e <-> crashes (fst v, A) q s e)).
  { intros j v A Nj Se. assert (EA: content_at l0 j = A).
    { unfold content_at. destruct (Nat.lt_ge_cases j (length l0)) as [L|L].
      - rewrite nth_error_app1 in Nj by exact L. now rewrite Nj.
      - destruct (nth_error l0 j) as [x|] eqn:Nx; [assert (j < length l0)%nat by (apply nth_error_Some; congruence); lia|]. rewrite nth_error_app2 in Nj by exact L. apply nth_error_In in Nj.
        rewrite Forall_forall in HE. specialize (HE _ Nj). now cbn [snd] in HE. }
    rewrite EA in Se. destruct (seen_snapshot A A q (snd v) (grown_refl A) Se) as (B & _ & B1 & B2 & B3).
    { intros n x lb Hn Ln. assert (n < length A)%nat by (apply nth_error_Some; congruence). lia. }
    assert (B = A) as -> by (symmetry; now apply grown_eq). rewrite <- upset_matching, B3. now destruct v. }
  split.
  - intros (v & Hv & Uv). assert (X: exists j A, nth_error (l0 ++ E) j = Some (fst v, A) /\ seen (content_at l0 j) A q (snd v)).
    { clear - F Hv. induction F as [|j u js vs (A & H) F IH]; [contradiction|]. destruct Hv as [->|Hv]; [eauto|auto]. }
    destruct X as (j & A & Nj & Se). apply (V j v A Nj Se) in Uv. exists (fst v, A). split; [|exact Uv]. apply nth_error_In, in_app_or in Nj as [Nj|Nj]; [exact Nj|].
    rewrite Forall_forall in HE. specialize (HE _ Nj). cbn [snd] in HE. subst A. destruct Uv as (_ & _ & b & ls & pts & a & X & _). cbn [snd] in X. destruct b; discriminate.
  - intros ([c A] & Hc & Cr). apply In_nth_error in Hc as (j & Nj). assert (Lj: (j < length l0)%nat) by (apply nth_error_Some; congruence).
    assert (X: exists v A', In v vs /\ nth_error (l0 ++ E) j = Some (fst v, A') /\ seen (content_at l0 j) A' q (snd v)).
    { pose proof (visits_at k i j ltac:(lia) ltac:(lia)) as Hj. clear - F Hj. induction F as [|j' v js vs (A & H) F IH]; [contradiction|].
      destruct Hj as [->|Hj]; [exists v, A; split; [now left|exact H]|]. destruct (IH Hj) as (v' & A' & H1 & H2). exists v', A'. split; [now right|exact H2]. }
    destruct X as (v & A' & Hv & Nv & Se). exists v. split; [exact Hv|]. apply (V j v A' Nv Se). rewrite nth_error_app1 in Nv by exact Lj.
    assert ((fst v, A') = (c, A)) as -> by congruence. exact Cr.
Qed.
Lemma outcome_empty l0 E q s e o : Forall (fun c : part => snd c = []) E -> query_outcome l0 (l0 ++ E) q s e o ->
  ((exists c, In c l0 /\ crashes c q s e) /\ o = Panic) \/
  (~ (exists c, In c l0 /\ crashes c q s e) /\ exists r, o = Ok r /\ between l0 (l0 ++ E) q s e r).
Proof.
  intros HE [(r & -> & B)|[-> (vs & v & V & Hv & Uv)]].
  - right. split; [|eauto]. destruct B as (vs & V & N & _). rewrite <- (visits_crash l0 E q s e vs HE V). intros (v & Hv & Uv). exact (N v Hv Uv).
  - left. split; [|reflexivity]. rewrite <- (visits_crash l0 E q s e vs HE V). eauto.
Qed.
Theorem outcome_same l q s e o : query_outcome l l q s e o ->
  ((exists c, In c l /\ crashes c q s e) /\ o = Panic) \/
  (~ (exists c, In c l /\ crashes c q s e) /\ exists r, o = Ok r /\ (db_answer l q s e r \/ db_answer (twice_last l) q s e r)).
Proof.
  intros H. destruct (outcome_empty l [] q s e o) as [X|[X (r & -> & B)]]; [constructor|now rewrite app_nil_r|now left|]. rewrite app_nil_r in B. right. split; [exact X|]. exists r. split; [reflexivity|]. now apply between_same.
Qed.

Theorem broke_down_series l0 l1 q s e : broke_down l0 l1 q s e ->
  e < s /\ exists c x, In c l1 /\ In x (snd c) /\ wanted q (fst x) /\ touches s e (snd x) /\ gap s e (snd x).
Proof.
  intros (vs & v & (k & i & _ & _ & _ & F) & Hv & (He & _ & b & id & ls & pts & a & E & _ & T & G)). split; [exact He|].
  assert (X: exists j A, nth_error l1 j = Some (fst v, A) /\ seen (content_at l0 j) A q (snd v)).
  { clear - F Hv. induction F as [|j u js vs (A & H) F IH]; [contradiction|]. destruct Hv as [->|Hv]; [eauto|auto]. }
  destruct X as (j & A & Nj & Se). assert (Hin: In (id, (ls, pts)) (snd v)) by (rewrite E; apply in_app_iff; right; now left).
  destruct (se_real _ _ _ _ Se _ _ _ Hin) as (p1 & Hn & Hpre). apply numbered_In in Hn as (n & Hn & _). cbn [snd] in Hn.
  exists (fst v, A), (ls, p1). split; [eapply nth_error_In; exact Nj|]. cbn [fst snd]. split; [eapply nth_error_In; exact Hn|]. split; [exact (se_some _ _ _ _ Se _ _ _ Hin)|].
  split; [eapply touches_more; eassumption|]. destruct G as (p & Hp & Hg). exists p. split; [|exact Hg]. destruct Hpre as (r & ->). apply in_app_iff. now left.
Qed.

(** ** clients with series of their own *)
Lemma own_timely cf t0 ops starts cs log : own_series ops cs -> work_ok cf t0 ops starts cs -> log_of starts cs log -> timely (written (ops ++ map e_op log)).
Proof.
  intros (O1 & O2 & O3) (_ & W2 & _) [L1 L2 L3] ls. 
  pose (g := fun r : ireq => same_setb (fst r) ls). change (increasing (map snd (filter g (written (ops ++ map e_op log))))). rewrite written_cat, filter_app, map_app.
  assert (TW: forall i c, nth_error cs i = Some c -> exists r, points_of c = written (map fst (of_thread (S i) log)) ++ r).
  { intros i c Hc. destruct (L2 i c Hc) as (es & rs & HS). apply session_written in HS. rewrite map_app, written_cat in HS. exists (written (map fst es)). now rewrite HS. }
  destruct L1 as (er & rr & L1). apply rotations_swaps in L1 as (sx & L1). rewrite map_app in L1.
  assert (T0: forall e, In e log -> e_who e = 0%nat -> written [e_op e] = []).
  { intros e He Ew. pose proof (of_thread_in e log He) as Ho. rewrite Ew in Ho. apply (in_map fst) in Ho. cbn [fst] in Ho.
    assert (In (e_op e) (map OpSwap starts)) as X by (rewrite L1; apply in_app_iff; left; apply in_app_iff; now left). apply in_map_iff in X as (s & <- & _). reflexivity. }
  assert (HP: forall e r, In e log -> In r (written [e_op e]) -> exists i c, e_who e = S i /\ nth_error cs i = Some c /\ In r (points_of c)).
  { intros e r He Hr. destruct (e_who e) as [|i] eqn:Ew; [rewrite (T0 e He Ew) in Hr; contradiction|]. rewrite Forall_forall in L3. pose proof (L3 e He) as Le.
    destruct (nth_error cs i) as [c|] eqn:Ec; [|apply nth_error_None in Ec; lia]. exists i, c. split; [reflexivity|]. split; [exact Ec|]. destruct (TW i c Ec) as (rest & ->). apply in_app_iff. left.
    pose proof (of_thread_in e log He) as Ho. rewrite Ew in Ho. apply (in_map fst) in Ho. cbn [fst] in Ho. apply in_split in Ho as (a & b & ->). change (e_op e :: b) with ([e_op e] ++ b).
    rewrite !written_cat. apply in_app_iff. right. apply in_app_iff. now left. }
  assert (WI: forall r, In r (written (map e_op log)) -> exists e, In e log /\ In r (written [e_op e])).
  { clear. intros r Hr. induction log as [|e log IH]; [contradiction|]. cbn [map] in Hr. change (e_op e :: map e_op log) with ([e_op e] ++ map e_op log) in Hr. rewrite written_cat in Hr.
    apply in_app_or in Hr as [Hr|Hr]; [exists e; split; [now left|exact Hr]|]. destruct (IH Hr) as (x & H1 & H2). exists x. split; [now right|exact H2]. }
  destruct (filter g (written (map e_op log))) as [|r0 rr0] eqn:Ef; [cbn [map]; rewrite app_nil_r; apply O1|]. rewrite <- Ef.
  assert (H0: In r0 (written (map e_op log)) /\ g r0 = true) by (apply filter_In; rewrite Ef; now left). destruct H0 as [H0 G0].
  destruct (WI _ H0) as (e0 & He0 & Hr0). destruct (HP _ _ He0 Hr0) as (i & c & Ei & Ec & Hc).
  assert (OK: forall j c' r, nth_error cs j = Some c' -> In r (points_of c') -> set_ok (fst r)).
  { intros j c' r Hj Hr. rewrite Forall_forall in W2. pose proof (W2 _ (nth_error_In _ _ Hj)) as Fc. rewrite Forall_forall in Fc. apply (Fc _ Hr). }
  assert (ONLY: forall e r, In e log -> In r (written [e_op e]) -> g r = true -> e_who e = S i).
  { intros e r He Hr Gr. destruct (HP _ _ He Hr) as (j & c' & Ej & Ec' & Hc'). rewrite Ej. destruct (Nat.eq_dec i j) as [->|Nij]; [reflexivity|exfalso].
    apply (O3 i j c c' r0 r Nij Ec Ec' Hc Hc'). eapply Permutation_trans; [|apply Permutation_sym]; apply same_setb_perm; [exact (OK _ _ _ Ec Hc)|exact G0|exact (OK _ _ _ Ec' Hc')|exact Gr]. }
  assert (EQ: filter g (written (map e_op log)) = filter g (written (map fst (of_thread (S i) log)))).
  { clear - ONLY. induction log as [|e log IH]; [reflexivity|]. cbn [map]. change (e_op e :: map e_op log) with ([e_op e] ++ map e_op log). rewrite written_cat, filter_app.
    rewrite IH by (intros x r Hx; apply ONLY; now right). unfold of_thread. cbn [filter]. destruct (Nat.eqb_spec (e_who e) (S i)) as [E|E].
    - cbn [map fst]. symmetry. etransitivity; [exact (f_equal (filter g) (written_cat [e_op e] _))|apply filter_app].
    - destruct (filter g (written [e_op e])) as [|r rr] eqn:Fr; [reflexivity|exfalso]. apply E. apply (ONLY e r); [now left| |]; apply (filter_In g r (written [e_op e])); rewrite Fr; now left. }
  rewrite EQ. destruct (TW i c Ec) as (rest & Et). rewrite Forall_forall in O2. pose proof (O2 c (nth_error_In _ _ Ec) ls) as T. change (increasing (map snd (filter g (written ops ++ points_of c)))) in T. rewrite Et, !filter_app, !map_app in T.
  eapply prefix_increasing; [|exact T]. rewrite app_assoc. eexists. reflexivity.
Qed.

(** ** the theorem *)
Lemma part_once l : Forall part_ok l -> sets_once l.
Proof.
  intros F c Hc. rewrite Forall_forall in F. pose proof (F c Hc) as K. pose proof (po_wf _ K) as W. apply NoDup_nth_error. intros i j Li E. rewrite map_length in Li. rewrite !nth_error_map in E.
  destruct (nth_error (snd c) i) as [x|] eqn:Ei; [|apply nth_error_None in Ei; lia]. destruct (nth_error (snd c) j) as [y|] eqn:Ej; [|discriminate]. cbn [option_map] in E.
  apply (wf_distinct _ W i j x y Ei Ej). apply sort_eq_perm. congruence.
Qed.
Local Notation vok cf := (WritersConc.vok (good cf) fok).
Theorem shared_work_from cf (old : list part) t0 ops rs0 starts cs qs w00 w sched :
  fstate cf w00 (old ++ [(the_chunk cf t0, [])]) t0 -> vok cf w00 -> Forall part_ok old -> ops_ok cf t0 ops -> db_after_from cf ops w00 = Some (rs0, w) -> work_ok cf t0 ops starts cs ->
  let at_ n := interleave dhandler (firstn n sched) (WritersSpec.threads cf starts cs qs) w in
  let chunks_of log := old ++ chunks_after cf t0 ops rs0 log in
  exists E, length E = length sched /\
    (forall n i a, nth_error sched n = Some i -> nth_error (fst (at_ n)) i = Some (Ret a) -> nth_error E n = Some []) /\
    (forall n, explains cf starts cs w (at_ n) (logged (firstn n sched) E)) /\
    forall k a n1 n2 rs, let j := S (length cs + k) in
      nth_error qs k = Some [a] -> asks a -> ~ In j (firstn n1 sched) -> nth_error (fst (at_ n2)) j = Some (Ret (Answered rs)) ->
      let before := logged (firstn n1 sched) E in let upto := logged (firstn n2 sched) E in
      unmixed_sets (k_hs a) (chunks_of upto) (k_labels a) -> timely (written (ops ++ map e_op upto)) \/ cf_st cf = TiKvDry ->
      exists acked pend r, rs = [r] /\ done_of before acked pend /\
        (forall e, pend = Some e -> exists p, nth_error (fst (at_ n1)) (e_who e) = Some p /\ ~ finished p) /\
        grew (chunks_of acked) (chunks_of upto) /\ sets_once (chunks_of upto) /\
        query_outcome (chunks_of acked) (chunks_of upto) (k_labels a) (k_from a) (k_to a) r.
Proof.
  intros Hstart Hvok Hold Hops Hafter Hwork at_ chunks_of.
  destruct (inv_interleave cf Rok (good cf) fok (good_plain cf) (rok_insert cf) (good_new cf) w (rot_goal starts) (roles_of cs qs) sched [] [] _ w (start_inv cf w00 w t0 ops rs0 starts cs qs Hvok Hops Hafter Hwork)) as (E & T & LE & _ & E2 & HI).
  exists E. split; [exact LE|]. split; [exact E2|]. split.
  - intros n. pose proof (HI n) as Iv. cbn [app] in Iv. fold (at_ n) in Iv. pose proof (inv_log_of _ _ _ _ _ _ _ _ _ Iv) as [L1 L2 L3].
    assert (IR := fun a => inv_rot_ret _ _ _ _ _ _ _ _ _ a Iv). assert (IC := fun i c a => inv_cli_ret _ _ _ _ _ _ _ _ _ i c a Iv). split; [|split; [exact L3|split]].
    + assert (FI := inv_finished _ _ _ _ _ _ _ _ _ _ _ Iv). destruct Iv as [p0 ps kinds v fl ph A B].
      exists v. split; [exact B|]. intros FA. destruct (FI FA) as (B' & _). unfold one_by_one in B, B'. congruence.
    + destruct (fst (at_ n)) as [|[a|X c k] ts] eqn:Ets.
      * destruct L1 as (es & rs & L1). exists es, rs. split; [exact L1|]. intros a. discriminate.
      * destruct (IR a eq_refl) as (rs & -> & HR). exists [], rs. rewrite app_nil_r. split; [exact HR|]. intros a' Ea. split; [reflexivity|]. cbn [nth_error] in Ea. congruence.
      * destruct L1 as (es & rs & L1). exists es, rs. split; [exact L1|]. intros a. discriminate.
    + intros i c Hc. destruct (nth_error (fst (at_ n)) (S i)) as [[a|X cc k]|] eqn:Ei.
      * destruct (IC i c a Hc Ei) as (rs & -> & HR). exists [], rs. rewrite app_nil_r. split; [exact HR|]. intros a' Ea. split; [reflexivity|congruence].
      * destruct (L2 i c Hc) as (es & rs & L2'). exists es, rs. split; [exact L2'|]. intros a. discriminate.
      * destruct (L2 i c Hc) as (es & rs & L2'). exists es, rs. split; [exact L2'|]. intros a. discriminate.
  - intros k a n1 n2 rs j Nk Ha Hj Nj before upto Hnp Htm.
    destruct (query_between cf old w00 w t0 ops rs0 starts cs qs Hstart Hops Hafter Hwork sched E T HI k a n1 n2 rs Nk Ha Hj Nj Hnp Hold Htm) as (acked & pend & r & R1 & R2 & R3 & R4 & R5).
    exists acked, pend, r. split; [exact R1|]. split; [exact R2|]. split; [exact R3|]. split; [exact R4|]. split; [|exact R5].
    apply part_once. exact (chunks_ok cf old w00 w t0 ops rs0 starts cs qs Hstart Hops Hafter Hwork sched E T HI n2 Hold Htm).
Qed.
Lemma start_empty cf f ops w00 : let t0 := f_clock f (f_ticks f) in env_weak f -> empty_dir f -> db_open cf f = Some (Ok tt, w00) -> ops_ok cf t0 ops ->
  fstate cf w00 ([] ++ [(the_chunk cf t0, [])]) t0 /\ vok cf w00.
Proof.
  intros t0 He Hd Hopen (Hb & _ & Hsz & Hend & _). split; [exact (open_any cf f w00 He Hd Hb Hsz Hend Hopen)|]. apply (open_vok cf f); [|exact Hopen]. intros n. apply He.
Qed.
Theorem shared_work cf f ops rs0 starts cs qs w00 w sched : let t0 := f_clock f (f_ticks f) in
  env_weak f -> empty_dir f -> db_open cf f = Some (Ok tt, w00) -> ops_ok cf t0 ops -> db_after_from cf ops w00 = Some (rs0, w) -> work_ok cf t0 ops starts cs ->
  let at_ n := interleave dhandler (firstn n sched) (WritersSpec.threads cf starts cs qs) w in
  let chunks_of := chunks_after cf t0 ops rs0 in
  exists E, length E = length sched /\
    (forall n i a, nth_error sched n = Some i -> nth_error (fst (at_ n)) i = Some (Ret a) -> nth_error E n = Some []) /\
    (forall n, explains cf starts cs w (at_ n) (logged (firstn n sched) E)) /\
    forall k a n1 n2 rs, let j := S (length cs + k) in
      nth_error qs k = Some [a] -> asks a -> ~ In j (firstn n1 sched) -> nth_error (fst (at_ n2)) j = Some (Ret (Answered rs)) ->
      let before := logged (firstn n1 sched) E in let upto := logged (firstn n2 sched) E in
      unmixed_sets (k_hs a) (chunks_of upto) (k_labels a) -> timely (written (ops ++ map e_op upto)) \/ cf_st cf = TiKvDry ->
      exists acked pend r, rs = [r] /\ done_of before acked pend /\
        (forall e, pend = Some e -> exists p, nth_error (fst (at_ n1)) (e_who e) = Some p /\ ~ finished p) /\
        grew (chunks_of acked) (chunks_of upto) /\ sets_once (chunks_of upto) /\
        query_outcome (chunks_of acked) (chunks_of upto) (k_labels a) (k_from a) (k_to a) r.
Proof.
  intros t0 He Hd Hopen Hops Hafter Hwork at_ chunks_of. destruct (start_empty cf f ops w00 He Hd Hopen Hops) as [Hs Hv].
  exact (shared_work_from cf [] t0 ops rs0 starts cs qs w00 w sched Hs Hv (Forall_nil _) Hops Hafter Hwork).
Qed.
Lemma explains_log cf starts cs w now log : explains cf starts cs w now log -> log_of starts cs log.
Proof.
  intros (_ & H1 & (es & rs & H2 & _) & H3). constructor; [eauto| |exact H1]. intros i c Hc. destruct (H3 i c Hc) as (es' & rs' & H4 & _). eauto.
Qed.
Theorem own_timely_log cf t0 ops starts cs w now log : own_series ops cs -> work_ok cf t0 ops starts cs -> explains cf starts cs w now log ->
  timely (written (ops ++ map e_op log)).
Proof. intros H1 H2 H3. eapply own_timely; [exact H1|exact H2|]. eapply explains_log. exact H3. Qed.
