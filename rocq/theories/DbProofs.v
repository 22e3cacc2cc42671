(* Proofs about the database: a query answers what the contents of the chunks answer. *)
From Coq Require Import ZifyBool ZifyNat Permutation.
From Verif Require Import Rust StringProofs Prog Gorilla GorillaSpec Storage StorageSpec StorageProofs Labels IndexSpec Indexer
  LabelProofs IndexProofs Chunk ChunkSpec ChunkProofs ChunkFacts Conc Utils DirSpec DirProofs TiKvInit Db DbSpec MapProofs.

(** ** running parts of the database alone *)
Lemma run_DC {A} i (p : prog ccmd A) : forall w d, nth_error (d_heap w) i = Some d ->
  run dhandler (lift (fun X c => @DC X i c) p) w =
  match run (chandler (dc_chunk d)) p (dc_world d) with
  | Some (x, w') => Some (x, set_heap w (upd (d_heap w) i (mkDc (dc_chunk d) w' (dc_name d))))
  | None => None
  end.
Proof.
  induction p as [a|X c k IH]; intros w d H.
  - cbn [lift run]. f_equal. f_equal. assert (mkDc (dc_chunk d) (dc_world d) (dc_name d) = d) as -> by now destruct d.
    rewrite upd_self by assumption. now destruct w.
  - cbn [lift run]. unfold dhandler at 1. rewrite H. destruct (chandler (dc_chunk d) X c (dc_world d)) as [[x w']|]; [|reflexivity].
    assert (Hi: (i < length (d_heap w))%nat) by (apply nth_error_Some; congruence).
    rewrite (IH x _ (mkDc (dc_chunk d) w' (dc_name d))).
    + cbn [dc_chunk dc_world dc_name]. destruct (run (chandler (dc_chunk d)) (k x) w') as [[y w2]|]; [|reflexivity].
      unfold set_heap. cbn [d_heap d_cur d_sec d_curl d_secl d_fs]. f_equal. f_equal. f_equal.
      unfold upd. rewrite firstn_app, firstn_firstn, firstn_length, Nat.min_id.
      replace (i - Nat.min i (length (d_heap w)))%nat with 0%nat by lia. cbn [firstn]. rewrite app_nil_r. f_equal.
      rewrite skipn_app, skipn_all2 by (rewrite firstn_length; lia). rewrite firstn_length.
      replace (i - Nat.min i (length (d_heap w)))%nat with 0%nat by lia. cbn [app skipn].
      destruct (skipn i (d_heap w)); reflexivity.
    + cbn [set_heap d_heap]. rewrite nth_upd by assumption. now rewrite Nat.eqb_refl.
Qed.
Lemma run_DF {A} (p : prog fcmd A) : forall w,
  run dhandler (lift (@DF) p) w =
  match run fhandler p (d_fs w) with Some (x, f) => Some (x, set_fs w f) | None => None end.
Proof.
  induction p as [a|X c k IH]; intros w.
  - cbn [lift run]. now destruct w.
  - cbn [lift run]. unfold dhandler at 1. destruct (fhandler X c (d_fs w)) as [[x f]|]; [|reflexivity].
    rewrite IH. cbn [set_fs d_fs]. destruct (run fhandler (k x) f) as [[y g]|]; reflexivity.
Qed.

(** ** one chunk's answer *)
(* same window and store *)
Definition like (a b : chunk) : Prop := c_storage a = c_storage b /\ c_start a = c_start b /\ c_end a = c_end b.

Definition ans (bs : bsearch) (q : list label) (s e : Z) (c : part) : res (list series) :=
  if (e <? c_start (fst c)) || (c_end (fst c) <? s) then Err (OutOfRangeErr (c_start (fst c)) (c_end (fst c)))
  else collect (reader bs s e) (matching (snd c) q).
Definition okl {A} (r : res (list A)) : list A := match r with Ok l => l | _ => [] end.

Record part_ok (c : part) : Prop := mkPok {
  po_wf : wfc (snd c); po_inc : all_increasing (snd c); po_len : Z.of_nat (length (snd c)) < 2 ^ 64 }.

Lemma ans_query bs q s e c : bs_contract bs -> all_increasing (snd c) -> s <= e ->
  ans bs q s e c = query_spec (fst c) (snd c) q s e.
Proof.
  intros Hb Hi Hse. unfold ans, query_spec. destruct (_ || _); [reflexivity|]. apply collect_ext. intros x Hx.
  apply reader_spec; [assumption| |assumption]. apply matching_pts in Hx as (_ & _ & Hx & _).
  unfold all_increasing in Hi. rewrite Forall_forall in Hi. exact (Hi _ Hx).
Qed.

Lemma wf_sorted_nodup A : wfc A -> NoDup (map (fun x => sort_labels (fst x)) A).
Proof.
  intros [_ _ W]. apply NoDup_nth_error. intros i j Hi E. rewrite map_length in Hi. rewrite !nth_error_map in E.
  destruct (nth_error A i) as [a|] eqn:Ea; [|apply nth_error_None in Ea; lia].
  destruct (nth_error A j) as [b|] eqn:Eb; [|discriminate]. cbn in E. apply (W i j a b Ea Eb).
  apply sort_eq_perm. congruence.
Qed.

Lemma collect_metas rd m r : collect rd m = Ok r -> NoDup (map (fun x => sort_labels (fst (snd x))) m) -> NoDup (map s_meta r).
Proof.
  revert r. induction m as [|[id [ls pts]] m IH]; intros r E N; cbn [collect] in E.
  - assert (r = []) by congruence. subst. constructor.
  - destruct (rd pts) as [d|er|]; cbn [rbind] in E; try discriminate.
    destruct (collect rd m) as [rest|er|] eqn:C; cbn [rbind] in E; try discriminate.
    cbn [map] in N. inversion N as [|x xs N1 N2]; subst. specialize (IH rest eq_refl N2).
    destruct d as [|p d]; [assert (r = rest) as -> by congruence; assumption|].
    assert (r = mkSeries id (sort_labels ls) (p :: d) :: rest) as -> by congruence. cbn [map s_meta]. constructor; [|assumption].
    intros K. apply in_map_iff in K as (x & Ex & Hx). apply (collect_In _ _ _ C) in Hx as (id' & ls' & pts' & d' & H1 & _ & _ & ->).
    cbn [s_meta] in Ex. apply N1. cbn [fst snd]. rewrite <- Ex. apply in_map_iff. exists (id', (ls', pts')). split; [reflexivity|assumption].
Qed.
Lemma matching_sorted A q : wfc A -> NoDup (map (fun x => sort_labels (fst (snd x))) (matching A q)).
Proof.
  intros W. pose proof (wf_sorted_nodup A W) as N. unfold matching.
  assert (N': NoDup (map (fun x : Z * (list label * list tp) => sort_labels (fst (snd x))) (numbered 1 A))).
  { assert (G: forall n, map (fun x : Z * (list label * list tp) => sort_labels (fst (snd x))) (numbered n A) = map (fun x => sort_labels (fst x)) A).
    { clear. induction A as [|a A IH]; intros n; [reflexivity|]. cbn [numbered map fst snd]. now rewrite IH. }
    rewrite G. exact N. }
  generalize (fun e : Z * (list label * list tp) => matches A q (fst (snd e))). intros f. revert N'.
  generalize (numbered 1 A). induction l as [|x l IH]; intros N'; [constructor|]. cbn [map] in N'. inversion N' as [|y ys N1 N2]; subst.
  cbn [filter]. destruct (f x); [|auto]. cbn [map]. constructor; [|auto]. intros K. apply N1.
  apply in_map_iff in K as (y & Ey & Hy). apply filter_In in Hy as [Hy _]. rewrite <- Ey. apply in_map_iff. exists y. auto.
Qed.

Lemma touchesb_spec s e pts : touchesb s e pts = true <-> touches s e pts.
Proof.
  unfold touchesb, touches. rewrite andb_true_iff, !existsb_exists.
  split; intros [(p & H1 & H2) (p' & H3 & H4)]; split; [exists p|exists p'|exists p|exists p']; split; auto; lia.
Qed.
Lemma answers_spec c q s e : answers c q s e = true <->
  (c_start (fst c) <= e /\ s <= c_end (fst c)) /\
  forall ls pts, In (ls, pts) (snd c) -> matches (snd c) q ls = true -> touches s e pts.
Proof.
  unfold answers. rewrite !andb_true_iff, forallb_forall. split.
  - intros [[H1 H2] H3]. split; [lia|]. intros ls pts Hin M. specialize (H3 _ Hin). cbn [fst snd] in H3. rewrite M in H3.
    now apply touchesb_spec.
  - intros [[H1 H2] H3]. split; [lia|]. intros [ls pts] Hin. cbn [fst snd]. destruct (matches (snd c) q ls) eqn:M; [|reflexivity].
    cbn. apply touchesb_spec. eauto.
Qed.

(* what the database gets from one chunk *)
Lemma okl_spec c q s e : part_ok c -> s <= e ->
  let l := okl (query_spec (fst c) (snd c) q s e) in
  query_spec (fst c) (snd c) q s e <> Panic /\
  NoDup (map s_meta l) /\ Forall (fun x => s_points x <> []) l /\ (forall m, pf m l = piece c q s e m).
Proof.
  intros [W Hi L] Hse. destruct c as [ch A]. cbn [fst snd] in *. cbv zeta.
  assert (HM: forall x, In x (matching A q) -> increasing (snd (snd x))).
  { intros x Hx. apply matching_pts in Hx as (_ & _ & Hx & _). unfold all_increasing in Hi. rewrite Forall_forall in Hi.
    exact (Hi _ Hx). }
  destruct (collect_any s e (matching A q) HM) as [C1 C2].
  destruct (answers (ch, A) q s e) eqn:EA.
  - apply answers_spec in EA. cbn [fst snd] in EA. destruct EA as [[O1 O2] T].
    assert (T': forall x, In x (matching A q) -> touches s e (snd (snd x))).
    { intros [id [ls pts]] Hx. apply matching_pts in Hx as (_ & _ & H1 & H2). cbn [fst snd] in *. eauto. }
    destruct (C1 T') as (r & Er). unfold query_spec. replace ((e <? c_start ch) || (c_end ch <? s)) with false by lia.
    rewrite Er. cbn [okl].
    pose proof (collect_metas _ _ _ Er (matching_sorted A q W)) as N.
    pose proof (collect_In _ _ _ Er) as CI.
    split; [discriminate|]. split; [exact N|]. split.
    { rewrite Forall_forall. intros x Hx. apply CI in Hx as (id & ls & pts & d & _ & _ & H & ->). exact H. }
    intros m. unfold piece. rewrite (proj2 (answers_spec (ch, A) q s e)) by (cbn [fst snd]; auto). cbn [snd].
    assert (In1: forall ls pts, In (ls, pts) A -> matches A q ls = true -> within s e pts <> [] ->
              exists id, In (mkSeries id (sort_labels ls) (within s e pts)) r).
    { intros ls pts H1 H2 H3. destruct (matching_has A q ls pts H1 H2) as (id & Hid). exists id. apply CI.
      exists id, ls, pts, (within s e pts). split; [exact Hid|]. split; [|auto].
      pose proof (HM _ Hid) as I1. cbn [snd] in I1. assert (I2: pts <> []) by (intros ->; apply H3; reflexivity). destruct (read_spec_touch pts s e I1 I2) as [[_ E]|[E _]]; [exact E|].
      exfalso. apply E. exact (T _ _ H1 H2). }
    assert (Out: forall x, In x r -> exists ls pts, In (ls, pts) A /\ matches A q ls = true /\
              s_meta x = sort_labels ls /\ s_points x = within s e pts /\ s_points x <> []).
    { intros x Hx. apply CI in Hx as (id & ls & pts & d & H1 & H2 & H3 & ->). apply matching_pts in H1 as (_ & _ & H4 & H5).
      cbn [fst snd] in *. exists ls, pts. apply read_spec_range in H2. repeat split; auto. }
    assert (Uq: forall a b, In a A -> In b A -> sort_labels (fst a) = sort_labels (fst b) -> a = b).
    { intros a b Ha Hb E. apply In_nth_error in Ha as (i & Ha). apply In_nth_error in Hb as (j & Hb).
      assert (i = j) by (apply (wf_distinct _ W i j a b Ha Hb); apply sort_eq_perm; exact E). congruence. }
    destruct (find _ A) as [[ls pts]|] eqn:F.
    + apply find_some in F as [F1 F2]. apply andb_true_iff in F2 as [F2 F3]. cbn [fst snd] in *. apply labs_eqb_spec in F2.
      unfold pf. destruct (find (fun x => labs_eqb (s_meta x) m) r) as [x|] eqn:G.
      * apply find_some in G as [G1 G2]. apply labs_eqb_spec in G2. destruct (Out x G1) as (ls' & pts' & K1 & K2 & K3 & K4 & K5).
        assert (E: (ls', pts') = (ls, pts)) by (apply Uq; [assumption|assumption|cbn [fst]; congruence]).
        rewrite K4. congruence.
      * destruct (within s e pts) as [|p d] eqn:D; [reflexivity|]. exfalso.
        destruct (In1 ls pts F1 F3) as (id & Hid); [congruence|]. apply (find_none _ _ G) in Hid. cbn [s_meta] in Hid.
        rewrite F2, labs_eqb_refl in Hid. discriminate.
    + unfold pf. destruct (find (fun x => labs_eqb (s_meta x) m) r) as [x|] eqn:G; [|reflexivity]. exfalso.
      apply find_some in G as [G1 G2]. apply labs_eqb_spec in G2. destruct (Out x G1) as (ls' & pts' & K1 & K2 & K3 & K4 & K5).
      apply (find_none _ _ F) in K1. cbn [fst snd] in K1. rewrite K2, andb_true_r, <- K3, G2, labs_eqb_refl in K1. discriminate.
  - assert (E: okl (query_spec ch A q s e) = [] /\ query_spec ch A q s e <> Panic).
    { unfold query_spec. destruct ((e <? c_start ch) || (c_end ch <? s)) eqn:O; [split; [reflexivity|discriminate]|].
      destruct C2 as (er & ->); [|split; [reflexivity|discriminate]]. intros T.
      assert (answers (ch, A) q s e = true); [|congruence]. apply answers_spec. cbn [fst snd]. split; [lia|].
      intros ls pts H1 H2. destruct (matching_has A q ls pts H1 H2) as (id & Hid). exact (T _ Hid). }
    destruct E as [E1 E2]. rewrite E1. split; [exact E2|]. split; [constructor|]. split; [constructor|].
    intros m. unfold piece. rewrite EA. reflexivity.
Qed.

(** ** the query program *)
Definition hrel (h : list dchunk) (l : list part) : Prop :=
  Forall2 (fun d c => like (dc_chunk d) (fst c) /\ crd (dc_chunk d) (dc_world d) (snd c)) h l.

Lemma hrel_nth h l : hrel h l -> forall i c, nth_error l i = Some c ->
  exists d, nth_error h i = Some d /\ like (dc_chunk d) (fst c) /\ crd (dc_chunk d) (dc_world d) (snd c).
Proof.
  induction 1 as [|d c h l [H1 H2] H IH]; intros [|i] x E; try discriminate.
  - injection E as ->. exists d. auto.
  - exact (IH i x E).
Qed.
Lemma hrel_len h l : hrel h l -> length h = length l.
Proof. induction 1; cbn; congruence. Qed.

(* chunks whose store may hold more series than they have *)
Definition hrelq (h : list dchunk) (l : list part) : Prop :=
  Forall2 (fun d c => like (dc_chunk d) (fst c) /\ crq (dc_chunk d) (dc_world d) (snd c)) h l.
Lemma hrelq_nth h l : hrelq h l -> forall i c, nth_error l i = Some c ->
  exists d, nth_error h i = Some d /\ like (dc_chunk d) (fst c) /\ crq (dc_chunk d) (dc_world d) (snd c).
Proof.
  induction 1 as [|d c h l [H1 H2] H IH]; intros [|i] x E; try discriminate.
  - injection E as ->. exists d. auto.
  - exact (IH i x E).
Qed.
Lemma hrelq_len h l : hrelq h l -> length h = length l.
Proof. induction 1; cbn; congruence. Qed.
Lemma hrel_hrelq h l : hrel h l -> Forall (fun c : part => Z.of_nat (length (snd c)) < 2 ^ 64) l -> hrelq h l.
Proof.
  induction 1 as [|d c h l [H1 H2] H IH]; intros F; [constructor|]. inversion F as [|? ? F1 F2]; subst. constructor; [|now apply IH]. split; [assumption|].
  now apply crd_crq.
Qed.

Lemma chunk_ans w bs o q s e i d c : nth_error (d_heap w) i = Some d -> like (dc_chunk d) (fst c) ->
  crq (dc_chunk d) (dc_world d) (snd c) -> Z.of_nat (length (snd c)) < 2 ^ 64 -> Forall lab_ok q ->
  run dhandler (lift (fun X c => @DC X i c) (chunk_query (dc_chunk d) bs o q s e)) w = Some (ans bs q s e c, w).
Proof.
  intros N (L1 & L2 & L3) R Hl Hq. rewrite (run_DC i _ w d N).
  pose proof (query_crq _ bs o _ _ q s e R Hl Hq) as E. unfold crun in E. rewrite E.
  unfold ans. rewrite L2, L3. f_equal. f_equal.
  assert (mkDc (dc_chunk d) (dc_world d) (dc_name d) = d) as -> by now destruct d.
  rewrite upd_self by assumption. now destruct w.
Qed.

Lemma sec_run hs bs o q s e w : Forall lab_ok q -> forall (items : list (nat * part)) m,
  Forall (fun it => ans bs q s e (snd it) <> Panic /\ Z.of_nat (length (snd (snd it))) < 2 ^ 64 /\
    exists d, nth_error (d_heap w) (fst it) = Some d /\ like (dc_chunk d) (fst (snd it)) /\
      crq (dc_chunk d) (dc_world d) (snd (snd it))) items ->
  forall cs, Forall2 (fun it x => fst x = fst it /\ nth_error (d_heap w) (fst it) <> None /\
     (forall d, nth_error (d_heap w) (fst it) = Some d -> snd x = dc_chunk d)) items cs ->
  run dhandler (query_secondaries hs bs o q s e cs m) w =
  Some (merges hs m (map (fun it => okl (ans bs q s e (snd it))) items), w).
Proof.
  intros Hq items. induction items as [|[i c] items IH]; intros m H cs F.
  - inversion F; subst. reflexivity.
  - inversion F as [|it [i' ch] its cs' (F1 & F2 & F3) F4]; subst. inversion H as [|x xs (H1 & H2 & d & H3 & H4 & H5) H6]; subst.
    cbn [fst snd] in *. subst i'. rewrite (F3 d H3) in *. cbn [query_secondaries map snd merges].
    unfold is_with_range, is_duration_overlap. destruct H4 as (L1 & L2 & L3) eqn:HL. rewrite L2, L3.
    destruct ((e <? c_start (fst c)) || (c_end (fst c) <? s)) eqn:O; cbn [negb].
    + rewrite (IH _ H6 _ F4). unfold ans at 2. rewrite O. reflexivity.
    + rewrite run_bind. rewrite (chunk_ans w bs o q s e i d c H3 H4 H5 H2 Hq).
      destruct (ans bs q s e c) as [l|er|] eqn:EA; [|rewrite (IH _ H6 _ F4); reflexivity|congruence].
      cbn [okl]. destruct (merge (hm_append hs) m l) as [m'|er|]; cbn [rbind]; [now rewrite (IH _ H6 _ F4)|reflexivity..].
Qed.

(* a database with nobody using it *)
Record quiet (w : dworld) (l : list part) : Prop := mkQuiet {
  q_heap : hrel (d_heap w) l;
  q_cur : S (d_cur w) = length l;
  q_sec : d_sec w = seq 0 (d_cur w);
  q_curl : d_curl w = free_lock;
  q_secl : d_secl w = free_lock }.

Record quietq (w : dworld) (l : list part) : Prop := mkQuietq {
  qq_heap : hrelq (d_heap w) l;
  qq_cur : S (d_cur w) = length l;
  qq_sec : d_sec w = seq 0 (d_cur w);
  qq_curl : d_curl w = free_lock;
  qq_secl : d_secl w = free_lock }.
Lemma quiet_quietq w l : quiet w l -> Forall (fun c : part => Z.of_nat (length (snd c)) < 2 ^ 64) l -> quietq w l.
Proof. intros [H1 H2 H3 H4 H5] F. constructor; try assumption. now apply hrel_hrelq. Qed.

Lemma lookups_ok h is : Forall (fun i => i < length h)%nat is ->
  exists cs, lookups h is = Some cs /\
    Forall2 (fun i x => fst x = i /\ nth_error h i <> None /\ (forall d, nth_error h i = Some d -> snd x = dc_chunk d)) is cs.
Proof.
  induction 1 as [|i is Hi H IH]; [exists []; split; [reflexivity|constructor]|]. destruct IH as (cs & E & F).
  destruct (nth_error h i) as [d|] eqn:N; [|apply nth_error_None in N; lia].
  exists ((i, dc_chunk d) :: cs). split; [cbn [lookups]; now rewrite N, E|]. constructor; [|assumption].
  cbn [fst snd]. rewrite N. split; [reflexivity|]. split; [discriminate|]. congruence.
Qed.
Lemma Forall2_rev {A B} (R : A -> B -> Prop) a b : Forall2 R a b -> Forall2 R (rev a) (rev b).
Proof.
  induction 1 as [|x y a b H1 H IH]; [constructor|]. cbn [rev]. apply Forall2_app; [assumption|]. constructor; [assumption|constructor].
Qed.
Lemma combine_fst {A B} (a : list A) : forall b : list B, length a = length b -> map fst (combine a b) = a.
Proof. induction a as [|x a IH]; intros [|y b] H; try discriminate; [reflexivity|]. cbn in *. now rewrite IH by congruence. Qed.
Lemma combine_snd {A B} (a : list A) : forall b : list B, length a = length b -> map snd (combine a b) = b.
Proof. induction a as [|x a IH]; intros [|y b] H; try discriminate; [reflexivity|]. cbn in *. now rewrite IH by congruence. Qed.
Lemma Forall2_map_l {A B C} (R : B -> C -> Prop) (f : A -> B) a c : Forall2 R (map f a) c <-> Forall2 (fun x y => R (f x) y) a c.
Proof.
  split.
  - revert c. induction a as [|x a IH]; intros c H; inversion H; subst; constructor; auto.
  - induction 1; constructor; auto.
Qed.

Definition set_readers (l : rw) (n : nat) : rw := mkRw n (rw_writer l) (rw_poisoned l).

Theorem query_quietq hs bs o q s e w l : quietq w l -> Forall (fun c => ans bs q s e c <> Panic /\ Z.of_nat (length (snd c)) < 2 ^ 64) l ->
  Forall lab_ok q ->
  exists l0 c, l = l0 ++ [c] /\
  drun (db_query hs bs o q s e) w = Some (assembled hs (okl (ans bs q s e c)) (map (fun c => okl (ans bs q s e c)) (rev l0)), w).
Proof.
  intros [Qh Qc Qs Q1 Q2] Hl Hq.
  destruct (@exists_last _ l) as (l0 & c & El); [intros ->; discriminate|]. exists l0, c. split; [assumption|].
  assert (Lc: d_cur w = length l0) by (rewrite El, app_length in Qc; cbn in Qc; lia).
  assert (Nc: nth_error l (d_cur w) = Some c) by (rewrite El, nth_error_app2 by lia; rewrite Lc, Nat.sub_diag; reflexivity).
  destruct (hrelq_nth _ _ Qh _ _ Nc) as (d & Nd & Hd1 & Hd2).
  assert (Hc: ans bs q s e c <> Panic /\ Z.of_nat (length (snd c)) < 2 ^ 64).
  { rewrite Forall_forall in Hl. apply Hl. rewrite El. apply in_app_iff. right. now left. }
  pose proof (hrelq_len _ _ Qh) as HL.
  unfold drun, db_query, with_current. rewrite run_qbind, run_bind. cbn [run call dhandler].
  rewrite Q1. cbn [rw_read free_lock rw_writer rw_readers rw_poisoned]. rewrite Nd. cbn [rw_poisoned].
  rewrite run_bind, run_bind.
  assert (Nd': nth_error (d_heap (set_curl w (mkRw 1 false false))) (d_cur w) = Some d) by exact Nd.
  rewrite (chunk_ans _ bs o q s e (d_cur w) d c Nd' Hd1 Hd2 (proj2 Hc) Hq). cbn [run call bind dhandler].
  assert (SW: set_curl (set_curl w (mkRw 1 false false)) (rw_unread (d_curl (set_curl w (mkRw 1 false false)))) = w).
  { destruct w. cbn in *. now subst. }
  rewrite SW.
  destruct (lookups_ok (d_heap w) (d_sec w)) as (cs & Ecs & Fcs).
  { rewrite Qs. rewrite Forall_forall. intros i Hi. apply in_seq in Hi. lia. }
  assert (LS: rw_read (d_secl w) = Some (mkRw 1 false false)) by (rewrite Q2; reflexivity).
  set (w2 := set_secl w (mkRw 1 false false)).
  set (items := combine (seq 0 (length l0)) l0).
  assert (SR: forall m, run dhandler (query_secondaries hs bs o q s e (rev cs) m) w2 =
     Some (merges hs m (map (fun it : nat * part => okl (ans bs q s e (snd it))) (rev items)), w2)).
  { intros m. apply sec_run; [assumption| |].
    - apply Forall_rev. rewrite Forall_forall. intros [i x] Hx. cbn [fst snd].
      assert (Nx: nth_error l i = Some x).
      { unfold items in Hx. apply In_nth_error in Hx as (j & Hj). assert (j < length l0)%nat.
        { assert (nth_error (combine (seq 0 (length l0)) l0) j <> None) as K by congruence.
          apply nth_error_Some in K. rewrite combine_length, seq_length in K. lia. }
        pose proof (f_equal (option_map fst) Hj) as J1. pose proof (f_equal (option_map snd) Hj) as J2. cbn [option_map fst snd] in J1, J2.
        rewrite <- nth_error_map, combine_fst in J1 by now rewrite seq_length.
        rewrite <- nth_error_map, combine_snd in J2 by now rewrite seq_length.
        assert (i = j).
        { pose proof (nth_error_nth (seq 0 (length l0)) j 0%nat J1) as J3. rewrite seq_nth in J3 by assumption. lia. }
        subst j. rewrite El, nth_error_app1 by assumption. exact J2. }
      rewrite Forall_forall in Hl. destruct (Hl x (nth_error_In _ _ Nx)) as [A1 A2].
      split; [assumption|]. split; [assumption|]. exact (hrelq_nth _ _ Qh _ _ Nx).
    - apply Forall2_rev. rewrite Qs in Fcs. rewrite Lc in Fcs.
      assert (map fst items = seq 0 (length l0)) as E by (apply combine_fst; now rewrite seq_length).
      rewrite <- E in Fcs. apply Forall2_map_l in Fcs. exact Fcs. }
  assert (Mi: map (fun it : nat * part => okl (ans bs q s e (snd it))) (rev items) = map (fun c => okl (ans bs q s e c)) (rev l0)).
  { rewrite <- (map_map snd (fun c => okl (ans bs q s e c))). rewrite map_rev. unfold items. now rewrite combine_snd by now rewrite seq_length. }
  assert (SW2: set_secl w2 (rw_unread (d_secl w2)) = w) by (unfold w2; destruct w; cbn in *; now subst).
  unfold assembled.
  assert (E0: (match ans bs q s e c with Ok l1 => merge (hm_insert hs) [] l1 | Err _ => Ok [] | Panic => Panic end)
              = merge (hm_insert hs) [] (okl (ans bs q s e c))).
  { destruct (ans bs q s e c); [reflexivity..|]. destruct Hc as [Hc _]. congruence. }
  rewrite E0. destruct (merge (hm_insert hs) [] (okl (ans bs q s e c))) as [m|er|]; cbn [rbind]; try reflexivity.
  cbn [run call bind dhandler]. rewrite LS, Ecs. cbn [rw_poisoned]. fold w2.
  rewrite run_bind, SR, Mi. cbn [run call bind dhandler]. rewrite SW2. reflexivity.
Qed.

Theorem query_answerq hs bs o q s e w l : quietq w l -> Forall part_ok l -> hasher_ok hs -> bs_contract bs ->
  Forall lab_ok q -> s <= e -> unmixed hs l q s e ->
  exists r, drun (db_query hs bs o q s e) w = Some (Ok r, w) /\ db_answer l q s e r.
Proof.
  intros Qw Hl Hh Hb Hq Hse Hp.
  assert (HA: forall c, In c l -> ans bs q s e c = query_spec (fst c) (snd c) q s e /\ part_ok c).
  { intros c Hc. rewrite Forall_forall in Hl. pose proof (Hl c Hc) as P. split; [|exact P].
    apply ans_query; [assumption|apply P|assumption]. }
  destruct (query_quietq hs bs o q s e w l Qw) as (l0 & c & El & E).
  { rewrite Forall_forall. intros c Hc. destruct (HA c Hc) as [E P]. split; [|apply P]. rewrite E.
    apply (okl_spec c q s e P Hse). }
  { assumption. }
  set (U := fun m => exists c, In c l /\ piece c q s e m <> []).
  assert (WA: forall c, In c l -> wfa U (okl (ans bs q s e c)) /\ forall m, pf m (okl (ans bs q s e c)) = piece c q s e m).
  { intros x Hx. destruct (HA x Hx) as [Ex P]. rewrite Ex. destruct (okl_spec x q s e P Hse) as (_ & N & F & G).
    split; [|exact G]. constructor; [exact N| |exact F]. rewrite Forall_forall in *. intros y Hy. exists x. split; [assumption|].
    rewrite <- G. unfold pf. destruct (find (fun z => labs_eqb (s_meta z) (s_meta y)) (okl (query_spec (fst x) (snd x) q s e))) as [z|] eqn:Z.
    - apply find_some in Z as [Z _]. now apply F.
    - apply (find_none _ _ Z) in Hy. now rewrite labs_eqb_refl in Hy. }
  destruct (assembled_spec U hs Hp Hh (okl (ans bs q s e c)) (map (fun c => okl (ans bs q s e c)) (rev l0))) as (r & Er & N & _ & M).
  { apply WA. rewrite El. apply in_app_iff. right. now left. }
  { rewrite Forall_forall. intros y Hy. apply in_map_iff in Hy as (z & <- & Hz). apply WA. rewrite El. apply in_app_iff. left.
    now apply in_rev. }
  exists r. rewrite E, Er. split; [reflexivity|]. split; [exact N|]. intros m pts. rewrite M.
  replace (concat (map (pf m) (rev (okl (ans bs q s e c) :: map (fun c => okl (ans bs q s e c)) (rev l0)))))
    with (concat (map (fun c => piece c q s e m) l)); [reflexivity|].
  f_equal. cbn [rev]. rewrite map_app, <- map_rev, rev_involutive, map_map. rewrite El, map_app. cbn [map]. f_equal.
  - apply map_ext_in. intros x Hx. symmetry. apply WA. rewrite El. apply in_app_iff. now left.
  - f_equal. symmetry. apply WA. rewrite El. apply in_app_iff. right. now left.
Qed.

Theorem query_quiet hs bs o q s e w l : quiet w l -> Forall (fun c => ans bs q s e c <> Panic /\ Z.of_nat (length (snd c)) < 2 ^ 64) l ->
  Forall lab_ok q ->
  exists l0 c, l = l0 ++ [c] /\
  drun (db_query hs bs o q s e) w = Some (assembled hs (okl (ans bs q s e c)) (map (fun c => okl (ans bs q s e c)) (rev l0)), w).
Proof.
  intros Q F. apply query_quietq; [|assumption]. apply quiet_quietq; [assumption|]. eapply Forall_impl; [|exact F]. intros c [_ H]. exact H.
Qed.
Theorem query_answer hs bs o q s e w l : quiet w l -> Forall part_ok l -> hasher_ok hs -> bs_contract bs ->
  Forall lab_ok q -> s <= e -> unmixed hs l q s e ->
  exists r, drun (db_query hs bs o q s e) w = Some (Ok r, w) /\ db_answer l q s e r.
Proof.
  intros Q F. apply query_answerq; [|assumption]. apply quiet_quietq; [assumption|]. eapply Forall_impl; [|exact F]. intros c [_ _ H]. exact H.
Qed.
