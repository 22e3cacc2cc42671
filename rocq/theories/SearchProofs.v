(* Proofs about the standard library's searches and about points written out of time order. *)
From Coq Require Import Permutation ZifyBool ZifyNat.
From Verif Require Import WireSpec.
From Verif Require Import Rust Prog Gorilla GorillaSpec Storage StorageSpec Search Labels IndexSpec Indexer Chunk ChunkSpec Utils DirSpec Db DbSpec Proto ProtoSpec
  Server ServerSpec SearchSpec.
From Verif Require Import LabelProofs IndexProofs ChunkProofs ChunkFacts MapProofs DbProofs DbHist DbFacts ReopenSpec ReopenProofs ServerProofs.
From Verif Require StorageProofs.

Lemma div2_bounds n : (1 < n)%nat -> (1 <= Nat.div2 n /\ Nat.div2 n < n /\ n - Nat.div2 n <= S (Nat.div2 n) /\ Nat.div2 n <= n - Nat.div2 n)%nat.
Proof. intros H. pose proof (Nat.div2_odd n). destruct (Nat.odd n); cbn in *; lia. Qed.

(** ** the older search *)
Lemma narrow_range l t fuel : forall base size, (1 <= size)%nat ->
  let b := narrow fuel l t base size in
  (base <= b < base + size)%nat /\ (b = base \/ ts_at l b <= t).
Proof.
  induction fuel as [|fuel IH]; intros base size Hs; cbn [narrow]; cbv zeta; [lia|].
  destruct (size <=? 1)%nat eqn:E; [lia|]. destruct (div2_bounds size) as (D1 & D2 & D3 & D4); [lia|].
  destruct (t <? ts_at l (base + Nat.div2 size)) eqn:C.
  - destruct (IH base (size - Nat.div2 size)%nat ltac:(lia)) as [A B]. split; [lia|exact B].
  - destruct (IH (base + Nat.div2 size)%nat (size - Nat.div2 size)%nat ltac:(lia)) as [A B]. split; [lia|].
    right. destruct B as [->|B]; [lia|exact B].
Qed.

(* in a sorted slice everything after the one found is later *)
Lemma narrow_sorted l t fuel : forall base size, (1 <= size)%nat -> (size <= S fuel)%nat -> (base + size <= length l)%nat ->
  sorted_ts l -> (forall j p, nth_error l j = Some p -> (base + size <= j)%nat -> t < tp_ts p) ->
  let b := narrow fuel l t base size in
  forall j p, nth_error l j = Some p -> (b < j)%nat -> t < tp_ts p.
Proof.
  assert (At: forall i p, nth_error l i = Some p -> ts_at l i = tp_ts p) by (intros i p E; unfold ts_at; now rewrite E).
  induction fuel as [|fuel IH]; intros base size Hs Hf Hl So Hi; cbn [narrow]; cbv zeta.
  - intros j p Hj Lj. apply (Hi j p Hj). lia.
  - destruct (size <=? 1)%nat eqn:E. { intros j p Hj Lj. apply (Hi j p Hj). lia. }
    destruct (div2_bounds size) as (D1 & D2 & D3 & D4); [lia|].
    destruct (nth_error l (base + Nat.div2 size)) as [pm|] eqn:Nm; [|apply nth_error_None in Nm; lia].
    destruct (t <? ts_at l (base + Nat.div2 size)) eqn:C.
    + apply IH; try lia; [assumption|]. intros j p Hj Lj. pose proof (So (base + Nat.div2 size)%nat j pm p) as So'.
      rewrite (At _ _ Nm) in C. specialize (So' ltac:(lia) Nm Hj). lia.
    + apply IH; try lia; [assumption|]. intros j p Hj Lj. apply (Hi j p Hj). lia.
Qed.

Theorem halving_search_contract : bs_contract halving_search.
Proof.
  intros l t So. unfold halving_search. destruct l as [|p0 l0].
  { split; [cbn; lia|]. split; intros j p E; destruct j; discriminate. }
  set (l := p0 :: l0) in *.
  destruct (narrow_range l t (length l) 0 (length l)) as [R1 R2]; [cbn; lia|].
  pose proof (narrow_sorted l t (length l) 0 (length l) ltac:(cbn; lia) ltac:(lia) ltac:(lia) So) as G. cbv zeta in G.
  specialize (G ltac:(intros j p E Lj; assert (nth_error l j <> None) as K by congruence; apply nth_error_Some in K; lia)).
  set (b := narrow (length l) l t 0 (length l)) in *. cbv zeta in R1, R2.
  destruct (nth_error l b) as [pb|] eqn:Nb; [|apply nth_error_None in Nb; lia].
  assert (Eb: ts_at l b = tp_ts pb) by (unfold ts_at; now rewrite Nb). rewrite Eb in *.
  destruct (tp_ts pb =? t) eqn:C1; [exists pb; split; [assumption|lia]|].
  destruct (tp_ts pb <? t) eqn:C2.
  - split; [lia|]. split; intros j p Ej Lj.
    + pose proof (So j b p pb ltac:(lia) Ej Nb). lia.
    + apply (G j p Ej). lia.
  - assert (b = 0%nat) as B0 by lia. split; [lia|]. split; intros j p Ej Lj; [lia|].
    destruct (Nat.eq_dec j b) as [->|Nj]; [assert (p = pb) by congruence; subst; lia|]. apply (G j p Ej). lia.
Qed.

(* positions as trim_time_series uses them *)
Definition from_pos (f : found) : nat := match f with Found i => i | Missing i => i end.
Definition to_pos (f : found) : nat := match f with Found i => S i | Missing i => i end.
(* what makes the slice legal, for any series *)
Definition tame (bs : bsearch) : Prop := forall l s e, l <> [] -> s <= e ->
  (from_pos (bs l s) <= to_pos (bs l e) <= length l)%nat /\ (ts_at l 0 <= e -> (1 <= to_pos (bs l e))%nat).

Lemma narrow_two l s e fuel : s <= e -> forall base size, (1 <= size)%nat ->
  let a := narrow fuel l s base size in let b := narrow fuel l e base size in
  a = b \/ (a < b)%nat.
Proof.
  intros Hse. induction fuel as [|fuel IH]; intros base size Hs; cbn [narrow]; cbv zeta; [now left|].
  destruct (size <=? 1)%nat eqn:E; [now left|]. destruct (div2_bounds size) as (D1 & D2 & D3 & D4); [lia|].
  set (mid := (base + Nat.div2 size)%nat).
  destruct (s <? ts_at l mid) eqn:C1, (e <? ts_at l mid) eqn:C2; try (apply IH; lia); [|lia].
  right. destruct (narrow_range l s fuel base (size - Nat.div2 size)) as [A1 A2]; [lia|].
  destruct (narrow_range l e fuel mid (size - Nat.div2 size)) as [B1 _]; [lia|]. cbv zeta in *.
  set (a := narrow fuel l s base (size - Nat.div2 size)) in *.
  assert (a <> mid) by (intros X; rewrite X in A2; unfold mid in *; destruct A2; lia). lia.
Qed.

Theorem halving_search_tame : tame halving_search.
Proof.
  intros l s e Hl Hse. unfold halving_search. destruct l as [|p0 l0]; [congruence|]. set (l := p0 :: l0) in *.
  assert (L: (1 <= length l)%nat) by (cbn; lia).
  destruct (narrow_range l s (length l) 0 (length l) L) as [A1 A2].
  destruct (narrow_range l e (length l) 0 (length l) L) as [B1 B2].
  destruct (narrow_two l s e (length l) Hse 0 (length l) L) as [T|T]; cbv zeta in *.
  - rewrite T in *. set (b := narrow (length l) l e 0 (length l)) in *.
    destruct (ts_at l b =? s) eqn:C1, (ts_at l b =? e) eqn:C2, (ts_at l b <? s) eqn:C3, (ts_at l b <? e) eqn:C4; cbn [from_pos to_pos];
      (split; [lia|]); intros H; try lia; destruct (Nat.eq_dec b 0) as [X|X]; try lia; rewrite X in *; lia.
  - set (a := narrow (length l) l s 0 (length l)) in *. set (b := narrow (length l) l e 0 (length l)) in *.
    assert (le (from_pos (if ts_at l a =? s then Found a else Missing (if ts_at l a <? s then S a else a))) (S a))
      by (destruct (ts_at l a =? s), (ts_at l a <? s); cbn [from_pos]; lia).
    assert (le b (to_pos (if ts_at l b =? e then Found b else Missing (if ts_at l b <? e then S b else b))) /\
            le (to_pos (if ts_at l b =? e then Found b else Missing (if ts_at l b <? e then S b else b))) (S b))
      by (destruct (ts_at l b =? e), (ts_at l b <? e); cbn [to_pos]; lia).
    split; lia.
Qed.

(** ** the newer search *)
Lemma bisect_range l t fuel : forall lo hi, (lo <= hi)%nat ->
  (lo <= from_pos (bisect fuel l t lo hi))%nat /\ (to_pos (bisect fuel l t lo hi) <= hi)%nat /\
  (from_pos (bisect fuel l t lo hi) <= to_pos (bisect fuel l t lo hi))%nat.
Proof.
  induction fuel as [|fuel IH]; intros lo hi H; cbn [bisect]; [cbn; lia|].
  destruct (lo <? hi)%nat eqn:E; [|cbn; lia].
  assert (D: (Nat.div2 (hi - lo) < hi - lo)%nat) by (apply Nat.lt_div2; lia).
  destruct (ts_at l (lo + Nat.div2 (hi - lo)) <? t).
  - destruct (IH (S (lo + Nat.div2 (hi - lo))) hi ltac:(lia)) as (A & B & C). lia.
  - destruct (t <? ts_at l (lo + Nat.div2 (hi - lo))).
    + destruct (IH lo (lo + Nat.div2 (hi - lo))%nat ltac:(lia)) as (A & B & C). lia.
    + cbn [from_pos to_pos]. lia.
Qed.

Lemma bisect_two l s e fuel : s <= e -> forall lo hi, (lo <= hi)%nat ->
  (from_pos (bisect fuel l s lo hi) <= to_pos (bisect fuel l e lo hi))%nat.
Proof.
  intros Hse. induction fuel as [|fuel IH]; intros lo hi H; cbn [bisect]; [cbn; lia|].
  destruct (lo <? hi)%nat eqn:E; [|cbn; lia].
  assert (D: (Nat.div2 (hi - lo) < hi - lo)%nat) by (apply Nat.lt_div2; lia).
  set (mid := (lo + Nat.div2 (hi - lo))%nat).
  pose proof (bisect_range l s fuel lo mid ltac:(unfold mid; lia)) as (S1 & S2 & S3).
  pose proof (bisect_range l s fuel (S mid) hi ltac:(unfold mid; lia)) as (T1 & T2 & T3).
  pose proof (bisect_range l e fuel (S mid) hi ltac:(unfold mid; lia)) as (U1 & U2 & U3).
  destruct (ts_at l mid <? s) eqn:C1, (ts_at l mid <? e) eqn:C2; try lia.
  - apply IH. unfold mid. lia.
  - destruct (s <? ts_at l mid); cbn [from_pos]; lia.
  - destruct (s <? ts_at l mid) eqn:C3, (e <? ts_at l mid) eqn:C4; cbn [from_pos to_pos]; try lia.
    apply IH. unfold mid. lia.
Qed.

Lemma bisect_first l t fuel : forall lo hi, (lo <= hi)%nat -> (hi - lo < fuel)%nat -> (0 < hi)%nat -> (0 < lo)%nat \/ ts_at l 0 <= t ->
  (1 <= to_pos (bisect fuel l t lo hi))%nat.
Proof.
  induction fuel as [|fuel IH]; intros lo hi H F P O; [lia|]. cbn [bisect].
  destruct (lo <? hi)%nat eqn:E; [|cbn; lia].
  assert (D: (Nat.div2 (hi - lo) < hi - lo)%nat) by (apply Nat.lt_div2; lia).
  set (mid := (lo + Nat.div2 (hi - lo))%nat) in *.
  destruct (ts_at l mid <? t) eqn:C1; [apply IH; unfold mid in *; lia|].
  destruct (t <? ts_at l mid) eqn:C2; [|cbn [to_pos]; lia].
  assert (mid <> 0%nat) by (intros X; rewrite X in *; unfold mid in X; lia).
  apply IH; unfold mid in *; lia.
Qed.

Theorem stopping_search_tame : tame stopping_search.
Proof.
  intros l s e Hl Hse. unfold stopping_search.
  assert (L: (1 <= length l)%nat) by (destruct l; [congruence|cbn; lia]).
  pose proof (bisect_range l e (S (length l)) 0 (length l) ltac:(lia)) as (A & B & C).
  split; [split; [apply bisect_two; [assumption|lia]|exact B]|].
  intros H. apply bisect_first; lia.
Qed.

Lemma bisect_sorted l t fuel : sorted_ts l -> forall lo hi, (lo <= hi <= length l)%nat -> (hi - lo < fuel)%nat ->
  (forall j p, nth_error l j = Some p -> (j < lo)%nat -> tp_ts p < t) ->
  (forall j p, nth_error l j = Some p -> (hi <= j)%nat -> t < tp_ts p) ->
  match bisect fuel l t lo hi with
  | Found i => exists p, nth_error l i = Some p /\ tp_ts p = t
  | Missing i => (i <= length l)%nat /\
      (forall j p, nth_error l j = Some p -> (j < i)%nat -> tp_ts p < t) /\
      (forall j p, nth_error l j = Some p -> (i <= j)%nat -> t < tp_ts p)
  end.
Proof.
  intros So. induction fuel as [|fuel IH]; intros lo hi H F P Q; [lia|]. cbn [bisect].
  destruct (lo <? hi)%nat eqn:E.
  2: { split; [lia|]. split; [assumption|]. intros j p Ej Lj. apply (Q j p Ej). lia. }
  assert (D: (Nat.div2 (hi - lo) < hi - lo)%nat) by (apply Nat.lt_div2; lia).
  set (mid := (lo + Nat.div2 (hi - lo))%nat) in *.
  destruct (nth_error l mid) as [pm|] eqn:Nm; [|apply nth_error_None in Nm; unfold mid in Nm; lia].
  assert (Em: ts_at l mid = tp_ts pm) by (unfold ts_at; now rewrite Nm). rewrite Em.
  destruct (tp_ts pm <? t) eqn:C1.
  - apply IH; try (unfold mid in *; lia); [|assumption]. intros j p Ej Lj. pose proof (So j mid p pm ltac:(lia) Ej Nm). lia.
  - destruct (t <? tp_ts pm) eqn:C2.
    + apply IH; try (unfold mid in *; lia); [assumption|]. intros j p Ej Lj. pose proof (So mid j pm p ltac:(lia) Nm Ej). lia.
    + exists pm. split; [assumption|lia].
Qed.
Theorem stopping_search_contract : bs_contract stopping_search.
Proof.
  intros l t So. unfold stopping_search. apply bisect_sorted; try lia; [assumption|].
  intros j p Ej Lj. assert (nth_error l j <> None) as K by congruence. apply nth_error_Some in K. lia.
Qed.

(** ** reading a series in any order *)
Lemma read_tame bs pts s e : tame bs -> pts <> [] -> s <= e ->
  (spans s e pts /\ exists x, read_tail bs pts s e = Ok x /\ stretch x pts) \/
  (~ spans s e pts /\ exists a b, read_tail bs pts s e = Err (OutOfRangeErr a b)).
Proof.
  intros Ht Hp Hse. destruct pts as [|f l]; [congruence|]. cbn [read_tail spans].
  destruct ((e <? tp_ts f) || (tp_ts (last (f :: l) f) <? s)) eqn:O; [right; split; [lia|eauto]|].
  left. split; [lia|]. destruct (Ht (f :: l) s e Hp Hse) as [[A B] C]. specialize (C ltac:(cbn; lia)).
  unfold trim_time_series, slice_incl.
  set (L := f :: l) in *. fold (from_pos (bs L s)).
  assert (E: match bs L e with Found i => Ok i | Missing 0 => Panic | Missing (S j) => Ok j end = Ok (pred (to_pos (bs L e)))).
  { destruct (bs L e) as [i|[|i]]; cbn [to_pos] in *; [reflexivity|lia|reflexivity]. }
  rewrite E. cbn [rbind]. replace (S (pred (to_pos (bs L e)))) with (to_pos (bs L e)) by lia.
  replace ((from_pos (bs L s) <=? to_pos (bs L e))%nat && (to_pos (bs L e) <=? length L)%nat) with true by lia.
  eexists. split; [reflexivity|]. exists (firstn (from_pos (bs L s)) L), (skipn (to_pos (bs L e) - from_pos (bs L s)) (skipn (from_pos (bs L s)) L)).
  now rewrite !firstn_skipn.
Qed.

Lemma reader_tame bs pts s e : tame bs -> s <= e ->
  (spans s e pts /\ exists x, reader bs s e pts = Ok x /\ stretch x pts) \/
  (~ spans s e pts /\ exists er, reader bs s e pts = Err er).
Proof.
  intros Ht Hse. unfold reader. destruct pts as [|f l]; [right; split; [exact (fun x => x)|eauto]|].
  destruct (read_tame bs (f :: l) s e Ht ltac:(discriminate) Hse) as [H|(H & a & b & E)]; [left; exact H|right; eauto].
Qed.

Lemma collect_dec rd m : (forall x, In x m -> (exists y, rd (snd (snd x)) = Ok y) \/ (exists er, rd (snd (snd x)) = Err er)) ->
  ((forall x, In x m -> exists y, rd (snd (snd x)) = Ok y) -> exists r, collect rd m = Ok r) /\
  (forall r, collect rd m = Ok r -> forall x, In x m -> exists y, rd (snd (snd x)) = Ok y) /\
  collect rd m <> Panic.
Proof.
  induction m as [|[id [ls pts]] m IH]; intros H.
  - split; [|split]; [cbn; eauto|intros r _ x []|discriminate].
  - destruct IH as (I1 & I2 & I3); [intros x Hx; apply H; now right|]. cbn [collect].
    destruct (H _ (or_introl eq_refl)) as [[y Hy]|[er Hy]]; cbn [snd] in Hy; rewrite Hy; cbn [rbind].
    + destruct (collect rd m) as [r|er|]; cbn [rbind]; [|split; [|split]|congruence].
      * split; [|split].
        -- intros _. destruct y; eauto.
        -- intros r0 _ x [<-|Hx]; [cbn [snd]; eauto|]. eapply I2; [reflexivity|assumption].
        -- destruct y; discriminate.
      * intros K. destruct I1 as (r & Er); [intros x Hx; apply K; now right|discriminate].
      * intros r E. discriminate.
      * discriminate.
    + split; [|split]; [|discriminate|discriminate]. intros K. destruct (K _ (or_introl eq_refl)) as (y & Ky). cbn [snd] in Ky. congruence.
Qed.

(* one chunk: never a panic, and what it contributes *)
Lemma chunk_any bs c q s e : tame bs -> bs_contract bs -> wfc (snd c) -> s <= e ->
  let l := okl (ans bs q s e c) in
  ans bs q s e c <> Panic /\ NoDup (map s_meta l) /\ Forall (fun x => s_points x <> []) l /\
  (forall x, In x l -> exists ls pts, In (ls, pts) (snd c) /\ s_meta x = sort_labels ls) /\
  (forall m, part_of c q s e m (pf m l)).
Proof.
  intros Ht Hb W Hse. destruct c as [ch A]. cbn [fst snd] in *. cbv zeta.
  assert (HR: forall x, In x (matching A q) -> (exists y, reader bs s e (snd (snd x)) = Ok y) \/ (exists er, reader bs s e (snd (snd x)) = Err er)).
  { intros [id [ls pts]] Hx. apply matching_pts in Hx as (_ & _ & Hx & _). cbn [fst snd] in *.
    destruct (reader_tame bs pts s e Ht Hse) as [(_ & y & E & _)|(_ & er & E)]; eauto. }
  destruct (collect_dec _ _ HR) as (C1 & C2 & C3).
  assert (AN: answers_any (ch, A) q s e <-> (exists r, ans bs q s e (ch, A) = Ok r)).
  { unfold ans, answers_any. cbn [fst snd]. split.
    - intros [[O1 O2] T]. replace ((e <? c_start ch) || (c_end ch <? s)) with false by lia. apply C1.
      intros [id [ls pts]] Hx. apply matching_pts in Hx as (_ & _ & H1 & H2). cbn [fst snd] in *.
      destruct (reader_tame bs pts s e Ht Hse) as [(_ & y & E & _)|(N & _)]; [eauto|]. exfalso. apply N. eauto.
    - intros (r & E). destruct ((e <? c_start ch) || (c_end ch <? s)) eqn:O; [discriminate|]. split; [lia|].
      intros ls pts H1 H2. destruct (matching_has A q ls pts H1 H2) as (id & Hid). destruct (C2 _ E _ Hid) as (y & Ey). cbn [snd] in Ey.
      destruct (reader_tame bs pts s e Ht Hse) as [(S1 & _)|(_ & er & X)]; [exact S1|congruence]. }
  split. { unfold ans. cbn [fst snd]. destruct (_ || _); [discriminate|assumption]. }
  destruct (ans bs q s e (ch, A)) as [r|er|] eqn:EA.
  2-3: cbn [okl map]; split; [constructor|]; split; [constructor|]; split; [intros x []|]; intros m; split;
       [intros K; exfalso; now apply K|intros K; apply AN in K as (r & K); discriminate].
  cbn [okl].
  assert (Er: collect (reader bs s e) (matching A q) = Ok r).
  { unfold ans in EA. cbn [fst snd] in EA. destruct (_ || _); [discriminate|assumption]. }
  pose proof (collect_metas _ _ _ Er (matching_sorted A q W)) as N. pose proof (collect_In _ _ _ Er) as CI.
  assert (Out: forall x, In x r -> exists ls pts, In (ls, pts) A /\ matches A q ls = true /\ s_meta x = sort_labels ls /\
            reader bs s e pts = Ok (s_points x) /\ s_points x <> []).
  { intros x Hx. apply CI in Hx as (id & ls & pts & d & H1 & H2 & H3 & ->). apply matching_pts in H1 as (_ & _ & H4 & H5).
    cbn [fst snd] in *. exists ls, pts. repeat split; auto. }
  split; [exact N|]. split. { rewrite Forall_forall. intros x Hx. apply Out in Hx as (? & ? & ? & ? & ? & ? & H). exact H. }
  split. { intros x Hx. apply Out in Hx as (ls & pts & H1 & _ & H2 & _). eauto. }
  assert (Uq: forall a b, In a A -> In b A -> sort_labels (fst a) = sort_labels (fst b) -> a = b).
  { intros a b Ha Hbb E. apply In_nth_error in Ha as (i & Ha). apply In_nth_error in Hbb as (j & Hbb).
    assert (i = j) by (apply (wf_distinct _ W i j a b Ha Hbb); apply sort_eq_perm; exact E). congruence. }
  assert (AA: answers_any (ch, A) q s e) by (apply AN; eauto).
  intros m. unfold part_of. cbn [fst snd]. unfold pf. destruct (find (fun x => labs_eqb (s_meta x) m) r) as [x|] eqn:G.
  - apply find_some in G as [G1 G2]. apply labs_eqb_spec in G2. destruct (Out x G1) as (ls & pts & K1 & K2 & K3 & K4 & K5). split.
    + intros _. split; [exact AA|]. exists ls, pts. split; [assumption|]. split; [congruence|]. split; [assumption|].
      destruct (reader_tame bs pts s e Ht Hse) as [(_ & y & E & St)|(_ & er & E)]; congruence.
    + intros _ ls' pts' H1 H2 H3 H4. assert (E: (ls', pts') = (ls, pts)) by (apply Uq; [assumption|assumption|cbn [fst]; congruence]).
      assert (pts' = pts) as -> by congruence. rewrite (reader_spec _ _ _ _ Hb H4 Hse) in K4. exact (read_spec_range _ _ _ _ K4).
  - split; [intros K; exfalso; now apply K|]. intros _ ls pts H1 H2 H3 H4.
    destruct (within s e pts) as [|p d] eqn:D; [reflexivity|]. exfalso.
    destruct (matching_has A q ls pts H1 H3) as (id & Hid).
    assert (X: In (mkSeries id (sort_labels ls) (within s e pts)) r).
    { apply CI. exists id, ls, pts, (within s e pts). split; [assumption|]. split; [|split; [congruence|reflexivity]].
      rewrite (reader_spec _ _ _ _ Hb H4 Hse). destruct (read_spec_touch pts s e H4 ltac:(intros ->; discriminate D)) as [[_ E]|[E _]]; [exact E|].
      exfalso. apply E. assert (Y: In p (within s e pts)) by (rewrite D; now left). apply filter_In in Y as [Y1 Y2].
      split; exists p; split; auto; lia. }
    apply (find_none _ _ G) in X. cbn [s_meta] in X. rewrite H2, labs_eqb_refl in X. discriminate.
Qed.

(** ** the database *)
Lemma sub_of {T} (a b : list T) : subseq a b -> sublist a b.
Proof. induction 1; constructor; assumption. Qed.
Lemma stretch_sub {T} (x l : list T) : stretch x l -> subseq x l.
Proof.
  intros (a & b & ->). change x with ([] ++ x) at 1. apply ss_app; [apply ss_any|]. rewrite <- (app_nil_r x) at 1. apply ss_app; [apply ss_refl|apply ss_any].
Qed.

(* contents in any order *)
Definition loose (c : part) : Prop := wfc (snd c) /\ Z.of_nat (length (snd c)) < 2 ^ 64.

Theorem quiet_any hs bs o q s e w l : tame bs -> bs_contract bs -> s <= e -> quiet w l -> Forall loose l ->
  hasher_ok hs -> Forall lab_ok q -> apart_in hs l ->
  exists r, drun (db_query hs bs o q s e) w = Some (Ok r, w) /\ answer_any l q s e r.
Proof.
  intros Ht Hb Hse Q PO Hh Hq Ha. rewrite Forall_forall in PO.
  destruct (query_quiet hs bs o q s e w l Q) as (l0 & c & El & Eq).
  { rewrite Forall_forall. intros c Hc. destruct (PO c Hc) as (W & L). split; [|exact L]. apply (chunk_any bs c q s e Ht Hb W Hse). }
  { assumption. }
  set (U := fun m => exists c ls pts, In c l /\ In (ls, pts) (snd c) /\ m = sort_labels ls).
  assert (WA: forall c, In c l -> wfa U (okl (ans bs q s e c))).
  { intros x Hx. destruct (PO x Hx) as (W & L). destruct (chunk_any bs x q s e Ht Hb W Hse) as (_ & N & F & G & P).
    constructor; [exact N| |exact F]. rewrite Forall_forall. intros y Hy. destruct (G y Hy) as (ls & pts & H1 & H2). exists x, ls, pts. auto. }
  destruct (assembled_spec U hs Ha Hh (okl (ans bs q s e c)) (map (fun c => okl (ans bs q s e c)) (rev l0))) as (r & Er & N & _ & M).
  { apply WA. rewrite El. apply in_app_iff. right. now left. }
  { rewrite Forall_forall. intros y Hy. apply in_map_iff in Hy as (z & <- & Hz). apply WA. rewrite El. apply in_app_iff. left.
    now apply in_rev. }
  exists r. rewrite Eq, Er. split; [reflexivity|]. split; [exact N|].
  intros m. exists (map (fun c => pf m (okl (ans bs q s e c))) l). split.
  - assert (G: forall k, (forall c, In c k -> In c l) -> Forall2 (fun c x => part_of c q s e m x) k (map (fun c => pf m (okl (ans bs q s e c))) k)); [|now apply G].
    induction k as [|x k IH]; intros Hk; constructor; [|apply IH; intros c' Hc'; apply Hk; now right].
    destruct (PO x (Hk x (or_introl eq_refl))) as (W & _). apply (chunk_any bs x q s e Ht Hb W Hse).
  - intros pts. rewrite M. replace (concat (map (pf m) (rev (okl (ans bs q s e c) :: map (fun c => okl (ans bs q s e c)) (rev l0)))))
      with (concat (map (fun c => pf m (okl (ans bs q s e c))) l)); [reflexivity|].
    f_equal. cbn [rev]. rewrite map_app, <- map_rev, rev_involutive, map_map. rewrite El, map_app. reflexivity.
Qed.

(** ** answers hold only what was written *)
Lemma part_sub ch h q s e m x : Forall ireq_ok h -> part_of (ch, content_of ch h) q s e m x -> subseq x (of_set m h).
Proof.
  intros H [P1 _]. destruct x as [|p x]; [apply ss_any|].
  destruct P1 as (_ & ls & pts & H1 & H2 & _ & H3); [discriminate|]. cbn [snd] in H1. subst m.
  rewrite of_set_sort; [|apply (content_sound ch h H ls pts H1)|assumption].
  eapply ss_trans; [apply stretch_sub; exact H3|exact (content_sub ch h H _ _ H1)].
Qed.
Lemma parts_sub cf q s e m ops : forall start h xs, Forall ireq_ok (h ++ written ops) ->
  Forall2 (fun c x => part_of c q s e m x) (parts_from cf start h ops) xs ->
  subseq (concat xs) (of_set m (h ++ written ops)).
Proof.
  induction ops as [|o ops IH]; intros start h xs H HP; cbn [parts_from written] in *.
  - inversion HP as [|c x cs xs' P1 P2]; subst. inversion P2; subst. cbn [concat]. rewrite !app_nil_r in *. now apply (part_sub (the_chunk cf start) h q s e m).
  - destruct o as [ls p|ls pts|start'].
    + specialize (IH start (h ++ [(ls, p)])). rewrite <- app_assoc in IH. apply IH; assumption.
    + specialize (IH start (h ++ map (pair ls) pts)). rewrite <- app_assoc in IH. apply IH; assumption.
    + inversion HP as [|c x cs xs' P1 P2]; subst.
      apply Forall_app in H. destruct H as [H1 H2]. cbn [map concat]. rewrite of_set_app. apply ss_app.
      * now apply (part_sub (the_chunk cf start) h q s e m).
      * now apply (IH start' []).
Qed.
Lemma parts_loose cf start ops : ops_ok cf start ops -> Forall loose (parts cf start ops).
Proof.
  intros (_ & _ & _ & _ & _ & Hw & HL). rewrite Forall_forall. intros c Hc.
  destruct (parts_seg cf ops start [] c Hc) as (a & seg & b & Ew & Ec & _). cbn [app] in Ew.
  assert (Hs: Forall ireq_ok seg) by (eapply seg_ok; eassumption). unfold loose. rewrite Ec. split; [now apply content_wf|].
  pose proof (content_length (fst c) seg). rewrite Ew, !app_length in HL. lia.
Qed.

Theorem any_order cf f hs bs o ops q s e : tame bs -> bs_contract bs -> env_ok f -> empty_dir f ->
  let t0 := f_clock f (f_ticks f) in
  ops_ok cf t0 ops -> hasher_ok hs -> Forall lab_ok q -> s <= e -> apart_in hs (parts cf t0 ops) ->
  exists w r, db_after cf f ops = Some (outcomes cf t0 ops, w) /\ drun (db_query hs bs o q s e) w = Some (Ok r, w) /\
    answer_any (parts cf t0 ops) q s e r /\
    (forall m pts, In (m, pts) r -> pts <> [] /\ sublist pts (written_under m (written ops))).
Proof.
  intros Ht Hb He Hd t0 Ho Hh Hq Hse Ha. destruct (history cf f ops He Hd Ho) as (w & E & HS). fold t0 in E, HS.
  destruct (quiet_any hs bs o q s e w _ Ht Hb Hse (state_quiet _ _ _ HS) (parts_loose cf t0 ops Ho) Hh Hq Ha) as (r & Er & An).
  exists w, r. split; [exact E|]. split; [exact Er|]. split; [exact An|].
  destruct An as (_ & An). intros m pts Hin. destruct (An m) as (xs & P1 & P2). apply P2 in Hin. destruct Hin as [H1 H2]. split; [assumption|]. rewrite H2. apply sub_of.
  apply (parts_sub cf q s e m ops t0 []); [apply Ho|exact P1].
Qed.

(** ** across restarts *)
Lemma fits_part c c' q s e m x : fits c c' -> part_of c' q s e m x -> part_of c q s e m x.
Proof.
  intros Hf. pose proof Hf as (E1 & E2 & F).
  assert (G: forall a b, fits a b -> (exists ls pts, In (ls, pts) (snd a) /\ matches (snd a) q ls = true) -> answers_any a q s e -> answers_any b q s e).
  { clear. intros a b (E1 & E2 & F) (ls & pts & H1 & H2) [[O1 O2] T]. unfold answers_any. rewrite E1, E2. split; [|exact T]. split; [exact O1|].
    specialize (T ls pts H1 H2). destruct pts as [|f l]; [contradiction|]. cbn [spans] in T.
    assert (K: In (last (f :: l) f) (f :: l)).
    { clear. generalize f at 2 as d. revert f. induction l as [|a l IH]; intros f d; [now left|]. right. cbn [last] in *. exact (IH a d). }
    destruct (F ls _ _ H1 K). lia. }
  unfold part_of. rewrite E1. intros [P1 P2]. split.
  - intros N. destruct (P1 N) as (An & ls & pts & H1 & H2 & H3 & H4). split; [|eauto 8].
    apply (G c' c (fits_sym _ _ Hf)); [|exact An]. exists ls, pts. rewrite E1. auto.
  - intros An ls pts H1 H2 H3 H4. apply (P2 (G c c' Hf (ex_intro _ ls (ex_intro _ pts (conj H1 H3))) An) ls pts H1 H2 H3 H4).
Qed.
Lemma fits_any l l' q s e r : Forall2 fits l l' -> answer_any l' q s e r -> answer_any l q s e r.
Proof.
  intros F [N H]. split; [exact N|]. intros m. destruct (H m) as (xs & H1 & H2). exists xs. split; [|exact H2].
  clear H2 H N. revert xs H1. induction F as [|c c' l l' Fc F IH]; intros xs H; inversion H as [|? x ? xs' K1 K2]; subst; constructor; [|auto].
  eapply fits_part; eassumption.
Qed.
Lemma life_sub_any clock q s e m : forall L tick n last xs, lives_ok clock tick n last L ->
  Forall2 (fun c x => part_of c q s e m x) (life_parts clock tick n L) xs -> subseq (concat xs) (of_set m (life_written L)).
Proof.
  induction L as [|x L IH]; intros tick n last xs H HP; cbn [lives_ok life_parts] in *.
  - inversion HP; subst. constructor.
  - destruct H as (_ & _ & _ & _ & Ho & _ & H). apply Forall2_app_inv_l in HP as (x1 & x2 & P1 & P2 & ->).
    unfold life_written. cbn [map concat]. rewrite concat_app, of_set_app. apply ss_app; [|eapply IH; eassumption].
    apply (parts_sub (lf_cf x) q s e m (lf_ops x) _ []) in P1; [exact P1|]. apply Ho.
Qed.
Lemma life_loose clock : forall L tick n last, lives_ok clock tick n last L -> Forall loose (life_parts clock tick n L).
Proof.
  induction L as [|x L IH]; intros tick n last H; [constructor|]. cbn [lives_ok life_parts] in *.
  destruct H as (_ & _ & _ & _ & Ho & _ & H). apply Forall_app. split; [now apply parts_loose|eapply IH; exact H].
Qed.
Lemma fits_in_r l l' c' : Forall2 fits l l' -> In c' l' -> exists c, In c l /\ snd c' = snd c.
Proof. intros F H. destruct (F2_in_r _ _ _ _ F H) as (c & Hc & E & _). eauto. Qed.

Theorem lives_any f L hs bs o q s e : tame bs -> bs_contract bs -> env_ok f -> empty_dir f -> monotone (f_clock f) -> L <> [] ->
  lives_ok (f_clock f) (f_ticks f) 0 (-1) L -> hasher_ok hs -> Forall lab_ok q -> s <= e ->
  let P := life_parts (f_clock f) (f_ticks f) 0 L in
  apart_in hs P ->
  exists w r, live L f = Some w /\ drun (db_query hs bs o q s e) w = Some (Ok r, w) /\ answer_any P q s e r /\
    (forall m pts, In (m, pts) r -> pts <> [] /\ sublist pts (written_under m (life_written L))).
Proof.
  intros Ht Hb He Hd Hm NE HL Hh Hq Hse P Hp. destruct (lives_state f L He Hd Hm HL NE) as (w & l & cf & E & St & _ & _ & F). fold P in F.
  assert (LO: Forall loose l).
  { pose proof (life_loose _ _ _ _ _ HL) as K. fold P in K. rewrite Forall_forall in *. intros c' Hc'. destruct (fits_in_r _ _ _ F Hc') as (c & Hc & Ec).
    unfold loose. rewrite Ec. exact (K c Hc). }
  assert (AP: apart_in hs l).
  { intros ks k i k' x U1 U2. apply Hp.
    - destruct U1 as (c' & ls & pts & H1 & H2 & H3). destruct (fits_in_r _ _ _ F H1) as (c & Hc & Ec). exists c, ls, pts. rewrite <- Ec. auto.
    - intros a Ha. destruct (U2 a Ha) as (c' & ls & pts & H1 & H2 & H3). destruct (fits_in_r _ _ _ F H1) as (c & Hc & Ec). exists c, ls, pts. rewrite <- Ec. auto. }
  destruct (quiet_any hs bs o q s e w l Ht Hb Hse (state_quiet _ _ _ St) LO Hh Hq AP) as (r & Er & An). apply (fits_any P) in An; [|exact F].
  exists w, r. split; [assumption|]. split; [assumption|]. split; [assumption|].
  destruct An as (_ & An). intros m pts Hin. destruct (An m) as (xs & P1 & P2). apply P2 in Hin. destruct Hin as [H1 H2]. split; [assumption|]. rewrite H2. apply sub_of.
  eapply life_sub_any; eassumption.
Qed.

(** ** the server *)
Lemma any_written cf t ops q s e r : ops_ok cf t ops -> answer_any (parts cf t ops) q s e r ->
  forall m pts, In (m, pts) r -> subseq pts (of_set m (written ops)).
Proof.
  intros Ho [_ An] m pts Hin. destruct (An m) as (xs & P1 & P2). apply P2 in Hin. destruct Hin as [_ H2]. rewrite H2.
  apply (parts_sub cf q s e m ops t []); [apply Ho|exact P1].
Qed.
Lemma any_u64 cf t ops q s e r : ops_ok cf t ops -> answer_any (parts cf t ops) q s e r ->
  forall m pts p, In (m, pts) r -> In p pts -> u64 (tp_ts p).
Proof.
  intros Ho Ha m pts p H1 H2. pose proof (ss_in _ _ p (any_written _ _ _ _ _ _ _ Ho Ha m pts H1) H2) as K.
  unfold of_set in K. apply in_map_iff in K as ([ls p'] & E & K). cbn [snd] in E. subst p'. apply filter_In in K as [K _].
  destruct Ho as (_ & _ & _ & _ & _ & Hw & _). rewrite Forall_forall in Hw. apply (Hw _ K).
Qed.
Lemma results_any_run cf w bs (ch : choices) t ops qs : ops_ok cf t ops -> let l := parts cf t ops in
  state cf w l -> tame bs -> bs_contract bs -> (forall n, hasher_ok (fst (ch n))) -> Forall (query_any ch l) qs ->
  forall n, exists rs, drun (query_results bs ch n qs) w = Some (Ok rs, w) /\ results_any l qs rs.
Proof.
  intros Ho l HS Ht Hb Hh Hq. induction qs as [|q qs IH]; intros n.
  - exists []. split; [reflexivity|constructor].
  - apply Forall_cons_iff in Hq as [(Q1 & Q2 & Q3) Hq]. destruct (IH Hq (S n)) as (rs & R1 & R2).
    destruct (quiet_any (fst (ch n)) bs (snd (ch n)) _ _ _ w l Ht Hb Q2 (state_quiet _ _ _ HS) (parts_loose cf t ops Ho) (Hh n) Q1 (Q3 n)) as (a & A1 & A2).
    exists (mkQResult (map wire_series a) [] :: rs). split.
    + unfold drun in *. cbn [query_results]. rewrite run_bind.
      change (map from_label_matcher (pq_matchers q)) with (asked_labels q).
      change (wrapu 64 (pq_start q)) with (asked_from q). change (wrapu 64 (pq_end q)) with (asked_to q).
      rewrite A1. cbn match. rewrite run_qbind, R1. reflexivity.
    + constructor; [|exact R2]. exists a. split; [exact A2|]. cbn [qr_series qr_unk]. split; [|reflexivity].
      apply sent_series_ok. exact (any_u64 cf t ops _ _ _ a Ho A2).
Qed.
Theorem read_any cf f bs ch ops m : tame bs -> bs_contract bs -> env_ok f -> empty_dir f -> let t0 := f_clock f (f_ticks f) in
  ops_ok cf t0 ops -> (forall n, hasher_ok (fst (ch n))) -> Forall (query_any ch (parts cf t0 ops)) (rq_queries m) ->
  exists w rs, db_after cf f ops = Some (outcomes cf t0 ops, w) /\
    drun (server_query bs ch m) w = Some (Ok rs, w) /\ results_any (parts cf t0 ops) (rq_queries m) (rp_results rs) /\ rp_unk rs = [].
Proof.
  intros Ht Hb He Hd t0 Ho Hh Hq. destruct (history cf f ops He Hd Ho) as (w & E & HS). fold t0 in E, HS.
  destruct (results_any_run cf w bs ch t0 ops (rq_queries m) Ho HS Ht Hb Hh Hq 0%nat) as (rs & R1 & R2).
  exists w, (mkReadResp rs []). split; [exact E|]. split; [|split; [exact R2|reflexivity]].
  unfold drun, server_query in *. rewrite run_qbind, R1. reflexivity.
Qed.

Theorem session_any_order cf f sv z bs (ch : nat -> choices) : env_ok f -> empty_dir f -> let t0 := f_clock f (f_ticks f) in
  tame bs -> bs_contract bs -> (forall k n, hasher_ok (fst (ch k n))) ->
  forall rqs l, Forall2 (carries sv z) rqs l -> forall k ops,
  session_any ch cf t0 z ops l ->
  let ops' := after_session cf t0 ops l in
  ops_ok cf t0 ops' ->
  exists w rss w', db_after cf f ops = Some (outcomes cf t0 ops, w) /\
    drun (serve sv z bs ch k rqs) w = Some ((rss, Ok tt), w') /\
    db_after cf f ops' = Some (outcomes cf t0 ops', w') /\
    session_answered_any cf t0 z ops l rss.
Proof.
  intros He Hd t0 Htm Hb Hh rqs l H. induction H as [|rq c rqs l Hc H IH]; intros k ops Hok ops' Ho.
  - cbn [after_session] in ops'. subst ops'. destruct (history cf f ops He Hd Ho) as (w & E & _). exists w, [], w.
    split; [exact E|]. split; [reflexivity|]. split; [exact E|exact I].
  - cbn [session_any] in Hok. destruct Hok as [Hok1 Hok2]. cbn [after_session] in ops'.
    destruct (IH (S k) (received cf t0 ops c) Hok2 Ho) as (w1 & rss & w' & E1 & E2 & E3 & E4).
    assert (P: exists w rs, db_after cf f ops = Some (outcomes cf t0 ops, w) /\
               drun (process sv z bs (ch k) rq) w = Some (Ok rs, w1) /\ answered_any cf t0 z ops c rs).
    { destruct (after_session_ext cf t0 l (received cf t0 ops c)) as (more & Em).
      assert (Ho': ops_ok cf t0 (received cf t0 ops c)) by (apply ops_ok_prefix with more; rewrite <- Em; exact Ho).
      destruct Hc as (content & body & C1 & C3 & B1 & B2 & C2). destruct c as [m|m|]; cbn [received client_any answered_any answered] in *.
      - destruct C2 as (C2 & C4 & fs & C5 & C6).
        destruct (write_applied cf f ops (wq_series m) He Hd Ho') as (w & w2 & R1 & R2 & R3). fold t0 in R1, R2, R3.
        assert (w2 = w1) as -> by congruence. exists w.
        eexists. split; [exact R1|]. split; [|reflexivity].
        assert (R2': drun (server_write (fst (merge_from write_request_read body write_request_new))) w =
                     Some (if existsb (fails (current_window cf t0 ops)) (wq_series m) then Err InternalErr else Ok tt, w1))
          by (rewrite (taken_write body fs m B1 B2 C5 C6); exact R2).
        rewrite (process_write sv z bs (ch k) rq w content _ _ w1 C1 C3 C2 C4 R2'). destruct (existsb _ _); reflexivity.
      - destruct C2 as (C2 & fs & C5 & C6). destruct Hok1 as (K3 & K4). pose proof (taken_read body fs m B1 B2 C5 C6) as T.
        destruct (read_any cf f bs (ch k) ops m Htm Hb He Hd Ho' (Hh k) (K3 k)) as (w & rs & R1 & R2 & R3 & R4). fold t0 in R1, R3.
        assert (w = w1) as -> by congruence. exists w1.
        assert (D: nothing_asked m \/ ~ nothing_asked m).
        { rewrite <- nothing_asked_size. destruct (Z.eq_dec (read_request_size m) 0); auto. }
        destruct D as [D|D].
        + exists (empty_response 500). split; [exact R1|]. split; [|left; auto].
          apply (process_read_bad sv z bs (ch k) rq w1 content _ C1 C3 C2). right. rewrite T. exact D.
        + destruct rs as [rr ru]. cbn [rp_results rp_unk] in *. subst ru. specialize (K4 rr R3).
          destruct (compress z (read_response_write (mkReadResp rr []))) as [c'|] eqn:Ec; [|congruence].
          exists (mkResponse 200 c'). split; [exact R1|]. split.
          * exact (process_read sv z bs (ch k) rq w1 content _ m C1 C3 C2 T D _ _ _ R2 Ec).
          * right. split; [exact D|]. split; [reflexivity|]. exists rr. split; [exact Ec|exact R3].
      - destruct C2 as (C2 & C4). exists w1, (empty_response 500). split; [exact E1|]. split; [|reflexivity].
        apply (process_read_bad sv z bs (ch k) rq w1 content _ C1 C3 C2). left. exact (taken_garbled body B1 B2 C4). }
    destruct P as (w & rs & P1 & P2 & P3). exists w, (rs :: rss), w'. split; [exact P1|]. split.
    + unfold drun in *. cbn [serve]. rewrite run_bind, P2, run_bind, E2. reflexivity.
    + split; [exact E3|]. split; assumption.
Qed.

(** ** the storage, and checks for examples *)
Lemma std_tame bs : std_search bs -> tame bs.
Proof. intros [->| ->]; [exact halving_search_tame|exact stopping_search_tame]. Qed.
Lemma std_contract bs : std_search bs -> bs_contract bs.
Proof. intros [->| ->]; [exact halving_search_contract|exact stopping_search_contract]. Qed.

Theorem sled_read_any bs h id s e : tame bs -> Forall app_ok h -> 0 <= id < 2 ^ 64 -> s <= e ->
  let pts := points_of id h in
  exists r, krun (read_time_series SledStorage bs id s e) (apply_apps SledStorage h []) = (r, apply_apps SledStorage h []) /\
    match r with
    | Ok x => spans s e pts /\ stretch x pts
    | Err NotFoundErr => pts = []
    | Err (OutOfRangeErr _ _) => pts <> [] /\ ~ spans s e pts
    | _ => False
    end.
Proof.
  intros Ht Hh Hid Hse pts. eexists. split; [apply (StorageProofs.read_series _ _ _ (fun id => points_of id h)); try apply StorageProofs.sled_holds; assumption|].
  cbn beta. fold pts. destruct pts as [|p l]; [reflexivity|].
  destruct (read_tame bs (p :: l) s e Ht ltac:(discriminate) Hse) as [(A & x & E & B)|(A & a & b & E)]; rewrite E; [auto|]. split; [discriminate|exact A].
Qed.

Lemma apart_check hs l : freeb l = true -> apart_in hs l.
Proof.
  intros H ks k i k' x U1 U2 _ Hk Hx. specialize (U2 k' (nth_error_In _ _ Hk)). unfold freeb in H.
  assert (G: forall m, (exists c ls pts, In c l /\ In (ls, pts) (snd c) /\ m = sort_labels ls) ->
             In m (map (fun x => sort_labels (fst x)) (concat (map snd l)))).
  { clear. intros m (c & ls & pts & Hc & H1 & ->). apply in_map_iff. exists (ls, pts). split; [reflexivity|].
    apply in_concat. exists (snd c). split; [|assumption]. now apply in_map. }
  rewrite forallb_forall in H.
  assert (Q: forall a b, In a (map (fun x => sort_labels (fst x)) (concat (map snd l))) ->
             In b (map (fun x => sort_labels (fst x)) (concat (map snd l))) -> b = a ++ x -> x = []).
  { intros a b Ha Hb E. specialize (H _ Ha). rewrite forallb_forall in H. specialize (H _ Hb). rewrite E, is_prefix_app in H. cbn [negb orb] in H.
    apply labs_eqb_spec in H. rewrite <- (app_nil_r a) in H at 1. apply app_inv_head in H. now subst. }
  destruct Hx as [Hx|Hx]; [eapply (Q k k')|eapply (Q k' k)]; eauto.
Qed.
