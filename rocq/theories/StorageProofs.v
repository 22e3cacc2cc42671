(* Proofs about the point stores. *)
From Coq Require Import ZifyBool ZifyNat.
From Verif Require Import Rust Prog Gorilla GorillaSpec Compactor Bstream BitSpec Storage StorageSpec
  BitsProofs GorillaBits StringProofs.
Ltac Zify.zify_post_hook ::= Z.div_mod_to_equations.

(** ** key-value store *)
Lemma kv_get_set s k v k' :
  kv_get (kv_set s k v) k' = if bytes_eqb k k' then Some v else kv_get s k'.
Proof. reflexivity. Qed.
Lemma kv_get_set_same s k v : kv_get (kv_set s k v) k = Some v.
Proof. cbn. now rewrite bytes_eqb_refl. Qed.
Lemma kv_get_set_other s k v k' : k <> k' -> kv_get (kv_set s k v) k' = kv_get s k'.
Proof. intros H. cbn. now rewrite bytes_eqb_neq. Qed.

(** ** codec *)
Lemma encode_len ts v : length (encode_time_point ts v) = 16%nat.
Proof. unfold encode_time_point. rewrite app_length, !length_be_bytes. reflexivity. Qed.

Lemma decode_encode ts v : 0 <= ts < 2 ^ 64 -> 0 <= v < 2 ^ 64 ->
  decode_time_point (encode_time_point ts v) = Ok (mkTp ts v).
Proof.
  intros H1 H2. unfold decode_time_point. rewrite encode_len. cbn [Nat.eqb negb].
  unfold encode_time_point.
  rewrite firstn_app, length_be_bytes, Nat.sub_diag, firstn_O.
  rewrite app_nil_r, firstn_all2 by (rewrite length_be_bytes; lia).
  rewrite skipn_app, length_be_bytes, Nat.sub_diag.
  rewrite (skipn_all2 (be_bytes 8 ts)) by (rewrite length_be_bytes; lia). rewrite skipn_O, app_nil_l.
  rewrite !from_be_be_bytes. change (8 * Z.of_nat 8) with 64.
  rewrite !Z.mod_small by lia. reflexivity.
Qed.

Lemma from_be_app a b : from_be (a ++ b) = from_be a * 256 ^ zlen b + from_be b.
Proof.
  revert a. induction b as [|x b IH] using rev_ind; intros a.
  - rewrite app_nil_r. cbn. lia.
  - rewrite app_assoc, !from_be_snoc, IH. unfold zlen. rewrite app_length.
    cbn [length]. replace (Z.of_nat (length b + 1)) with (Z.of_nat (length b) + 1) by lia.
    rewrite Z.pow_add_r by lia. lia.
Qed.

Lemma from_be_bound l : Forall is_byte l -> 0 <= from_be l < 256 ^ zlen l.
Proof.
  induction l as [|x l IH] using rev_ind; intros H.
  - cbn. lia.
  - apply Forall_app in H as [H1 H2]. apply Forall_inv in H2. unfold is_byte in H2.
    specialize (IH H1). rewrite from_be_snoc. unfold zlen in *. rewrite app_length. cbn [length].
    replace (Z.of_nat (length l + 1)) with (Z.of_nat (length l) + 1) by lia.
    rewrite Z.pow_add_r by lia. lia.
Qed.

Lemma be_bytes_mod n : forall z k, (n <= k)%nat -> be_bytes n (z mod 256 ^ Z.of_nat k) = be_bytes n z.
Proof.
  induction n as [|n IH]; intros z k Hk; cbn [be_bytes]; [reflexivity|].
  f_equal; [|apply IH; lia].
  replace k with (n + S (k - S n))%nat by lia. set (j := (k - S n)%nat).
  rewrite Nat2Z.inj_add, Z.pow_add_r by lia.
  rewrite Nat2Z.inj_succ, Z.pow_succ_r by lia.
  assert (0 < 256 ^ Z.of_nat n) by (apply Z.pow_pos_nonneg; lia).
  assert (0 < 256 ^ Z.of_nat j) by (apply Z.pow_pos_nonneg; lia).
  rewrite Z.rem_mul_r by nia.
  rewrite Z.add_comm, Z.mul_comm, Z.div_add_l by lia.
  rewrite (Z.div_small (z mod _)) by (apply Z.mod_pos_bound; lia).
  rewrite Z.add_0_r. rewrite Z.rem_mul_r by nia.
  rewrite (Z.mul_comm 256 (_ mod 256 ^ Z.of_nat j)), Z.mod_add by lia. apply Z.mod_mod. lia.
Qed.

Lemma be_bytes_from_be l : Forall is_byte l -> be_bytes (length l) (from_be l) = l.
Proof.
  induction l as [|x l IH]; intros H; [reflexivity|].
  pose proof (Forall_inv H) as Hx. apply Forall_inv_tail in H. unfold is_byte in Hx.
  cbn [length be_bytes].
  assert (E: from_be (x :: l) = x * 256 ^ Z.of_nat (length l) + from_be l).
  { change (x :: l) with ([x] ++ l). rewrite from_be_app. reflexivity. }
  pose proof (from_be_bound l H) as Hb. unfold zlen in Hb.
  rewrite E. f_equal.
  - rewrite Z.div_add_l by (assert (0 < 256 ^ Z.of_nat (length l)) by (apply Z.pow_pos_nonneg; lia); lia).
    rewrite Z.div_small by lia. rewrite Z.add_0_r. apply Z.mod_small. lia.
  - rewrite <- (be_bytes_mod _ _ (length l)) by lia.
    rewrite Z.add_comm, Z.mod_add by (assert (0 < 256 ^ Z.of_nat (length l)) by (apply Z.pow_pos_nonneg; lia); lia).
    rewrite Z.mod_small by lia. apply IH, H.
Qed.

Lemma encode_decode raw : Forall is_byte raw -> length raw = 16%nat ->
  exists p, decode_time_point raw = Ok p /\ tp_ok p /\ encode_time_point (tp_ts p) (tp_val p) = raw.
Proof.
  intros H L. unfold decode_time_point. rewrite L. cbn [Nat.eqb negb].
  eexists; split; [reflexivity|]. cbn [tp_ts tp_val].
  assert (L1: length (firstn 8 raw) = 8%nat) by (rewrite firstn_length; lia).
  assert (L2: length (skipn 8 raw) = 8%nat) by (rewrite skipn_length; lia).
  pose proof (from_be_bound _ (Forall_firstn _ 8 _ H)) as B1.
  pose proof (from_be_bound _ (Forall_skipn _ 8 _ H)) as B2.
  unfold zlen in B1, B2. rewrite L1 in B1. rewrite L2 in B2.
  change (256 ^ Z.of_nat 8) with (2 ^ 64) in B1, B2.
  split; [split; cbn [tp_ts tp_val]; lia|].
  unfold encode_time_point.
  pose proof (be_bytes_from_be _ (Forall_firstn _ 8 _ H)) as F1. rewrite L1 in F1.
  pose proof (be_bytes_from_be _ (Forall_skipn _ 8 _ H)) as F2. rewrite L2 in F2.
  rewrite F1, F2. apply firstn_skipn.
Qed.

Lemma decode_other raw : length raw <> 16%nat -> decode_time_point raw = Err InternalErr.
Proof.
  intros H. unfold decode_time_point. destruct (length raw =? 16)%nat eqn:E; [|reflexivity]. lia.
Qed.

(** ** a stored series *)
Definition enc_series (l : list tp) : bytes := concat (map (fun p => encode_time_point (tp_ts p) (tp_val p)) l).

Lemma chunks_fuel_concat n : (0 < n)%nat -> forall ls k, Forall (fun b => length b = n) ls ->
  (length ls <= k)%nat -> chunks_fuel k n (concat ls) = ls.
Proof.
  intros Hn. induction ls as [|b ls IH]; intros k H Hk.
  - destruct k; reflexivity.
  - pose proof (Forall_inv H) as Hb. apply Forall_inv_tail in H. cbn beta in Hb.
    destruct k; [cbn in Hk; lia|]. cbn [concat chunks_fuel].
    destruct (b ++ concat ls) as [|x l'] eqn:E.
    + destruct b; cbn in *; [lia|congruence].
    + rewrite <- E. rewrite firstn_app, Hb, Nat.sub_diag, firstn_O, app_nil_r.
      rewrite firstn_all2 by lia. rewrite skipn_app, Hb, Nat.sub_diag, skipn_O.
      rewrite skipn_all2 by lia. cbn [app]. rewrite IH; [reflexivity|assumption|cbn in Hk; lia].
Qed.

Lemma chunks_concat n ls : (0 < n)%nat -> Forall (fun b => length b = n) ls -> chunks n (concat ls) = ls.
Proof.
  intros Hn H. apply chunks_fuel_concat; [assumption..|].
  induction H as [|b ls Hb H IH]; cbn; [lia|]. rewrite app_length. lia.
Qed.

Lemma decode_series l : Forall tp_ok l -> mapM decode_time_point (chunks 16 (enc_series l)) = Ok l.
Proof.
  intros H. unfold enc_series. rewrite chunks_concat; [|lia|].
  - induction H as [|p l [H1 H2] H IH]; [reflexivity|]. cbn [map mapM].
    rewrite decode_encode by assumption. cbn [rbind]. rewrite IH. destruct p; reflexivity.
  - clear. induction l; constructor; [apply encode_len|assumption].
Qed.

Lemma enc_series_snoc l p : enc_series (l ++ [p]) = enc_series l ++ encode_time_point (tp_ts p) (tp_val p).
Proof. unfold enc_series. rewrite map_app, concat_app. cbn [map concat]. now rewrite app_nil_r. Qed.

Lemma enc_series_len l : length (enc_series l) = (16 * length l)%nat.
Proof. induction l as [|p l IH]; [reflexivity|]. cbn [enc_series map concat length] in *. unfold enc_series in *. cbn [map concat]. rewrite app_length, encode_len. lia. Qed.

(** ** keys *)
Definition series_key (st : storage) (id : Z) : bytes :=
  match st with SledStorage => sled_series_key id | TiKvStorage i => tikv_series_key i id end.

Lemma be_bytes_inj n a b : 0 <= a < 2 ^ (8 * Z.of_nat n) -> 0 <= b < 2 ^ (8 * Z.of_nat n) ->
  be_bytes n a = be_bytes n b -> a = b.
Proof.
  intros Ha Hb E.
  pose proof (from_be_be_bytes n a) as Fa. pose proof (from_be_be_bytes n b) as Fb.
  rewrite Z.mod_small in Fa, Fb by lia. congruence.
Qed.

Lemma series_key_inj st a b : 0 <= a < 2 ^ 64 -> 0 <= b < 2 ^ 64 -> series_key st a = series_key st b -> a = b.
Proof.
  intros Ha Hb. destruct st; cbn [series_key]; unfold sled_series_key, tikv_series_key; intros H;
    apply app_inv_head in H.
  - now apply to_dec_inj.
  - now apply (be_bytes_inj 8).
Qed.

(** ** trimming *)
Definition before (s : Z) (l : list tp) : nat := length (filter (fun p => tp_ts p <? s) l).
Definition upto (e : Z) (l : list tp) : nat := length (filter (fun p => tp_ts p <=? e) l).

Lemma increasing_sorted l : increasing l -> sorted_ts l.
Proof.
  unfold sorted_ts. induction l as [|p l IH]; intros H; [intros [|i] j; discriminate|].
  destruct H as [H1 H2].
  intros [|i] [|j] a b Hij Ha Hb; cbn in Ha, Hb.
  - assert (a = b) by congruence. subst. lia.
  - assert (a = p) by congruence. subst. apply nth_error_In in Hb.
    rewrite Forall_forall in H1. specialize (H1 _ Hb). lia.
  - lia.
  - apply (IH H2 i j); [lia|assumption..].
Qed.

Lemma increasing_nth l : increasing l -> forall i j p q, (i < j)%nat -> nth_error l i = Some p ->
  nth_error l j = Some q -> tp_ts p < tp_ts q.
Proof.
  induction l as [|x l IH]; intros H; [intros [|i] j; discriminate|].
  destruct H as [H1 H2]. intros [|i] [|j] p q Hij Hp Hq; cbn in Hp, Hq; try lia.
  - assert (p = x) by congruence. subst. apply nth_error_In in Hq.
    rewrite Forall_forall in H1. now apply H1.
  - apply (IH H2 i j); [lia|assumption..].
Qed.

(* a prefix-closed predicate counts a prefix *)
Lemma filter_prefix (f : tp -> bool) l k : (k <= length l)%nat ->
  (forall i p, nth_error l i = Some p -> (i < k)%nat -> f p = true) ->
  (forall i p, nth_error l i = Some p -> (k <= i)%nat -> f p = false) ->
  filter f l = firstn k l.
Proof.
  revert k. induction l as [|x l IH]; intros k Hk H1 H2; [now rewrite firstn_nil|].
  destruct k; cbn [firstn].
  - cbn [filter]. rewrite (H2 0%nat x eq_refl ltac:(lia)).
    rewrite (IH 0%nat); [apply firstn_O|lia| |].
    + intros i p _ Hi. lia.
    + intros i p Hp _. apply (H2 (S i) p Hp). lia.
  - cbn [filter]. rewrite (H1 0%nat x eq_refl ltac:(lia)). f_equal. apply IH; [cbn in Hk; lia| |].
    + intros i p Hp Hi. apply (H1 (S i) p Hp). lia.
    + intros i p Hp Hi. apply (H2 (S i) p Hp). lia.
Qed.
Lemma filter_prefix_len (f : tp -> bool) l k : (k <= length l)%nat ->
  (forall i p, nth_error l i = Some p -> (i < k)%nat -> f p = true) ->
  (forall i p, nth_error l i = Some p -> (k <= i)%nat -> f p = false) ->
  length (filter f l) = k.
Proof. intros. rewrite (filter_prefix f l k) by assumption. rewrite firstn_length. lia. Qed.

Lemma bs_left bs l s : bs_contract bs -> increasing l ->
  (match bs l s with Found i => i | Missing i => i end) = before s l.
Proof.
  intros Hb Hl. pose proof (Hb l s (increasing_sorted l Hl)) as H. unfold before.
  destruct (bs l s) as [i|i].
  - destruct H as (p & Hp & Ht). symmetry. assert (i < length l)%nat by (apply nth_error_Some; congruence).
    apply filter_prefix_len; [lia| |].
    + intros j q Hq Hj. pose proof (increasing_nth l Hl j i q p Hj Hq Hp). lia.
    + intros j q Hq Hj. destruct (Nat.eq_dec i j) as [->|]; [replace q with p by congruence; lia|].
      pose proof (increasing_nth l Hl i j p q ltac:(lia) Hp Hq). lia.
  - destruct H as (H0 & H1 & H2). symmetry. apply filter_prefix_len; [lia| |].
    + intros j q Hq Hj. specialize (H1 j q Hq Hj). lia.
    + intros j q Hq Hj. specialize (H2 j q Hq Hj). lia.
Qed.

Lemma bs_right bs l e : bs_contract bs -> increasing l ->
  (match bs l e with Found i => Ok i | Missing i => match i with O => Panic | S j => Ok j end end)
  = match upto e l with O => Panic | S j => Ok j end.
Proof.
  intros Hb Hl. pose proof (Hb l e (increasing_sorted l Hl)) as H. unfold upto.
  destruct (bs l e) as [i|i].
  - destruct H as (p & Hp & Ht). assert (i < length l)%nat by (apply nth_error_Some; congruence).
    rewrite (filter_prefix_len _ l (S i)); [reflexivity|lia| |].
    + intros j q Hq Hj. destruct (Nat.eq_dec i j) as [->|]; [replace q with p by congruence; lia|].
      pose proof (increasing_nth l Hl j i q p ltac:(lia) Hq Hp). lia.
    + intros j q Hq Hj. pose proof (increasing_nth l Hl i j p q ltac:(lia) Hp Hq). lia.
  - destruct H as (H0 & H1 & H2). rewrite (filter_prefix_len _ l i); [destruct i; reflexivity|lia| |].
    + intros j q Hq Hj. specialize (H1 j q Hq Hj). lia.
    + intros j q Hq Hj. specialize (H2 j q Hq Hj). lia.
Qed.

(* the two counts delimit the interval *)
Lemma increasing_tail x l : increasing (x :: l) -> increasing l.
Proof. now intros [_ H]. Qed.

Lemma upto_le e l : (upto e l <= length l)%nat.
Proof. unfold upto. induction l as [|x l IH]; cbn; [lia|]. destruct (tp_ts x <=? e); cbn; lia. Qed.

Lemma firstn_skipn_within l : increasing l -> forall s e, (before s l <= upto e l)%nat ->
  firstn (upto e l - before s l) (skipn (before s l) l) = within s e l.
Proof.
  induction l as [|x l IH]; intros Hl s e H; [reflexivity|].
  pose proof (increasing_tail _ _ Hl) as Hl'. destruct Hl as [Hx _].
  unfold before, upto, within in *. cbn [filter] in *.
  destruct (tp_ts x <? s) eqn:E1; destruct (tp_ts x <=? e) eqn:E2.
  - replace (s <=? tp_ts x) with false by lia. cbn [andb length skipn Nat.sub]. apply IH; [assumption|cbn [length] in H; lia].
  - (* x < s, x > e: nothing is <= e *)
    replace (s <=? tp_ts x) with false by lia. cbn [andb].
    assert (Hn: filter (fun p => tp_ts p <=? e) l = []).
    { clear -Hx E2. induction l as [|y l IH]; [reflexivity|]. cbn.
      pose proof (Forall_inv Hx). cbn in H. replace (tp_ts y <=? e) with false by lia.
      apply IH. now apply Forall_inv_tail in Hx. }
    rewrite Hn in *. cbn [length] in *. lia.
  - replace (s <=? tp_ts x) with true by lia. cbn [andb length].
    assert (Hn: filter (fun p => tp_ts p <? s) l = []).
    { clear -Hx E1. induction l as [|y l IH]; [reflexivity|]. cbn.
      pose proof (Forall_inv Hx). cbn in H. replace (tp_ts y <? s) with false by lia.
      apply IH. now apply Forall_inv_tail in Hx. }
    rewrite Hn. cbn [length skipn]. rewrite Nat.sub_0_r. cbn [firstn]. f_equal.
    specialize (IH Hl' s e). rewrite Hn in IH. cbn [length skipn] in IH. rewrite Nat.sub_0_r in IH. apply IH. lia.
  - replace (s <=? tp_ts x) with true by lia. cbn [andb].
    assert (Hn: filter (fun p => tp_ts p <? s) l = []).
    { clear -Hx E1. induction l as [|y l IH]; [reflexivity|]. cbn.
      pose proof (Forall_inv Hx). cbn in H. replace (tp_ts y <? s) with false by lia.
      apply IH. now apply Forall_inv_tail in Hx. }
    assert (Hn2: filter (fun p => tp_ts p <=? e) l = []).
    { clear -Hx E2. induction l as [|y l IH]; [reflexivity|]. cbn.
      pose proof (Forall_inv Hx). cbn in H. replace (tp_ts y <=? e) with false by lia.
      apply IH. now apply Forall_inv_tail in Hx. }
    rewrite Hn, Hn2. cbn [length skipn firstn Nat.sub].
    specialize (IH Hl' s e). rewrite Hn, Hn2 in IH. cbn in IH. apply IH. lia.
Qed.

Lemma trim_exact bs l s e : bs_contract bs -> increasing l -> (0 < upto e l)%nat ->
  trim_time_series bs l s e =
    if (before s l <=? upto e l)%nat then Ok (within s e l) else Panic.
Proof.
  intros Hb Hl Hu. unfold trim_time_series.
  rewrite bs_left, bs_right by assumption.
  pose proof (upto_le e l) as Hle.
  pose proof (firstn_skipn_within l Hl s e) as Hw.
  destruct (upto e l) as [|j] eqn:E; [lia|]. cbn [rbind]. unfold slice_incl.
  replace (S j <=? length l)%nat with true by lia. rewrite andb_true_r.
  destruct (before s l <=? S j)%nat eqn:E2; [|reflexivity].
  rewrite Hw; [reflexivity|lia].
Qed.

Lemma before_le_upto s e l : s <= e -> (before s l <= upto e l)%nat.
Proof.
  intros H. unfold before, upto. induction l as [|x l IH]; [cbn; lia|]. cbn [filter].
  destruct (tp_ts x <? s) eqn:E1; destruct (tp_ts x <=? e) eqn:E2; cbn [length]; lia.
Qed.
Lemma upto_le_before s e l : e < s -> (upto e l <= before s l)%nat.
Proof.
  intros H. unfold before, upto. induction l as [|x l IH]; [cbn; lia|]. cbn [filter].
  destruct (tp_ts x <? s) eqn:E1; destruct (tp_ts x <=? e) eqn:E2; cbn [length]; lia.
Qed.

Lemma within_inverted s e l : e < s -> within s e l = [].
Proof.
  intros H. unfold within. induction l as [|x l IH]; [reflexivity|]. cbn [filter].
  destruct ((s <=? tp_ts x) && (tp_ts x <=? e)) eqn:E; [lia|assumption].
Qed.

(* a first point not after e makes the right end exist *)
Lemma upto_pos e f l : tp_ts f <= e -> (0 < upto e (f :: l))%nat.
Proof. intros H. unfold upto. cbn [filter]. replace (tp_ts f <=? e) with true by lia. cbn. lia. Qed.

(* the whole answer of a read of an increasing series, any range *)
Definition read_any (pts : list tp) (s e : Z) : res (list tp) :=
  match pts with
  | [] => Panic
  | f :: _ =>
      let l := last pts f in
      if (e <? tp_ts f) || (tp_ts l <? s) then Err (OutOfRangeErr (tp_ts f) (tp_ts l))
      else if (before s pts <=? upto e pts)%nat then Ok (within s e pts) else Panic
  end.
Lemma read_tail_any bs l s e : bs_contract bs -> increasing l -> read_tail bs l s e = read_any l s e.
Proof.
  intros Hb Hl. destruct l as [|f l]; [reflexivity|]. unfold read_tail, read_any.
  destruct ((e <? tp_ts f) || (tp_ts (last (f :: l) f) <? s)) eqn:E; [reflexivity|].
  apply trim_exact; [assumption..|]. apply upto_pos. lia.
Qed.

Lemma read_any_spec pts s e : pts <> [] -> s <= e -> read_any pts s e = read_spec pts s e.
Proof.
  intros Hp Hse. unfold read_any, read_spec. destruct pts as [|f l]; [congruence|].
  destruct (_ || _); [reflexivity|].
  replace (before s (f :: l) <=? upto e (f :: l))%nat with true; [reflexivity|].
  pose proof (before_le_upto s e (f :: l) Hse). lia.
Qed.

(** ** representation of a history *)
Definition holds_series (st : storage) (s : kv) (f : Z -> list tp) : Prop :=
  forall id, 0 <= id < 2 ^ 64 -> Forall tp_ok (f id) /\
    kv_get s (series_key st id) = match f id with [] => None | l => Some (enc_series l) end.

(* one series *)
Definition holds_at (st : storage) (s : kv) (id : Z) (pts : list tp) : Prop :=
  Forall tp_ok pts /\ kv_get s (series_key st id) = match pts with [] => None | p :: l => Some (enc_series (p :: l)) end.
Lemma read_at st bs s pts id a b : holds_at st s id pts ->
  krun (read_time_series st bs id a b) s =
    (match pts with [] => Err NotFoundErr | l => read_tail bs l a b end, s).
Proof.
  intros [Hok Hg].
  destruct st; cbn [read_time_series]; unfold sled_read, tikv_read; cbn [krun qbind bind call];
    cbn [series_key] in Hg; rewrite Hg; destruct pts as [|p l]; try reflexivity;
    rewrite decode_series by assumption; reflexivity.
Qed.
Lemma read_series st bs s f id a b : holds_series st s f -> 0 <= id < 2 ^ 64 ->
  krun (read_time_series st bs id a b) s =
    (match f id with [] => Err NotFoundErr | l => read_tail bs l a b end, s).
Proof. intros H Hid. rewrite (read_at _ _ _ (f id)) by exact (H id Hid). destruct (f id); reflexivity. Qed.

Lemma sled_write_ok s f id p : holds_series SledStorage s f -> 0 <= id < 2 ^ 64 -> tp_ok p ->
  exists s', krun (write_time_point SledStorage id (tp_ts p) (tp_val p)) s = (Ok tt, s') /\
    holds_series SledStorage s' (fun i => if i =? id then f i ++ [p] else f i).
Proof.
  intros H Hid Hp. destruct (H id Hid) as [Hok Hg]. cbn [series_key] in Hg.
  cbn [write_time_point]. unfold sled_write. cbn [krun qbind bind call]. rewrite Hg.
  assert (K: forall v, (match f id with [] => encode_time_point (tp_ts p) (tp_val p)
                   | l => enc_series l ++ encode_time_point (tp_ts p) (tp_val p) end) = v ->
     holds_series SledStorage (kv_set s (sled_series_key id) v) (fun i => if i =? id then f i ++ [p] else f i)).
  { intros v Hv i Hi. destruct (H i Hi) as [Hoi Hgi]. cbn [series_key] in *.
    destruct (i =? id) eqn:E.
    - assert (i = id) by lia. subst i. split; [apply Forall_app; split; [assumption|constructor; [assumption|constructor]]|].
      rewrite kv_get_set_same. destruct (f id) as [|q l] eqn:F; cbn [app].
      + subst v. unfold enc_series. cbn [map concat]. now rewrite app_nil_r.
      + f_equal. rewrite <- Hv. change (q :: l ++ [p]) with ((q :: l) ++ [p]). now rewrite enc_series_snoc.
    - split; [assumption|]. rewrite kv_get_set_other; [assumption|].
      intros Hk. apply (series_key_inj SledStorage) in Hk; lia. }
  destruct (f id) as [|q l] eqn:F; cbn [krun qbind bind call]; eexists; (split; [reflexivity|]); apply K; reflexivity.
Qed.

Lemma sled_apply h : forall s f, holds_series SledStorage s f -> Forall app_ok h ->
  holds_series SledStorage (apply_apps SledStorage h s) (fun id => f id ++ points_of id h).
Proof.
  induction h as [|[id p] h IH]; intros s f H Hh.
  - intros id Hid. destruct (H id Hid) as [A B].
    change (points_of id []) with (@nil tp). rewrite app_nil_r. now split.
  - pose proof (Forall_inv Hh) as [Ha Hb]. apply Forall_inv_tail in Hh. cbn [fst snd] in Ha, Hb.
    destruct (sled_write_ok s f id p H Ha Hb) as (s' & E & H').
    cbn [apply_apps]. rewrite E. cbn [snd].
    specialize (IH s' _ H' Hh). intros i Hi. destruct (IH i Hi) as [A B]. cbn beta in A, B.
    assert (Q: (if i =? id then f i ++ [p] else f i) ++ points_of i h = f i ++ points_of i ((id, p) :: h)).
    { unfold points_of. cbn [filter fst map snd]. rewrite (Z.eqb_sym id i). destruct (i =? id); cbn [map snd]; [now rewrite <- app_assoc|reflexivity]. }
    rewrite Q in A, B. now split.
Qed.

Lemma holds_empty st : holds_series st [] (fun _ => []).
Proof. intros id _. split; [constructor|reflexivity]. Qed.

Lemma sled_holds h : Forall app_ok h ->
  holds_series SledStorage (apply_apps SledStorage h []) (fun id => points_of id h).
Proof. intros H. apply (sled_apply h [] (fun _ => []) (holds_empty _) H). Qed.

Theorem sled_read_exact bs h id s e : bs_contract bs -> Forall app_ok h -> 0 <= id < 2 ^ 64 ->
  increasing (points_of id h) -> s <= e ->
  krun (read_time_series SledStorage bs id s e) (apply_apps SledStorage h []) =
    (read_spec (points_of id h) s e, apply_apps SledStorage h []).
Proof.
  intros Hb Hh Hid Hi Hse.
  rewrite (read_series _ _ _ (fun id => points_of id h)) by (try apply sled_holds; assumption).
  f_equal. destruct (points_of id h) as [|p l] eqn:E; [reflexivity|].
  rewrite read_tail_any by assumption. apply read_any_spec; [congruence|assumption].
Qed.

Theorem sled_read_outside bs h id s e : Forall app_ok h -> 0 <= id < 2 ^ 64 ->
  let r := fst (krun (read_time_series SledStorage bs id s e) (apply_apps SledStorage h [])) in
  (points_of id h = [] -> r = Err NotFoundErr) /\
  (forall first mid last, points_of id h = first :: mid -> points_of id h = removelast (points_of id h) ++ [last] ->
     (e < tp_ts first \/ tp_ts last < s) -> r = Err (OutOfRangeErr (tp_ts first) (tp_ts last))).
Proof.
  intros Hh Hid r. unfold r. clear r.
  rewrite (read_series _ _ _ (fun id => points_of id h)) by (try apply sled_holds; assumption).
  cbn [fst]. split.
  - intros ->. reflexivity.
  - intros f m l E1 E2 Ho. rewrite E1. unfold read_tail.
    assert (El: last (f :: m) f = l).
    { rewrite <- E1, E2. apply last_last. }
    rewrite El. replace ((e <? tp_ts f) || (tp_ts l <? s)) with true by lia. reflexivity.
Qed.

Theorem sled_append_frame bs h id id' p s e : Forall app_ok h -> app_ok (id', p) -> 0 <= id < 2 ^ 64 ->
  id <> id' ->
  fst (krun (read_time_series SledStorage bs id s e) (apply_apps SledStorage (h ++ [(id', p)]) [])) =
  fst (krun (read_time_series SledStorage bs id s e) (apply_apps SledStorage h [])).
Proof.
  intros Hh Hp Hid Hne.
  assert (Hh2: Forall app_ok (h ++ [(id', p)])).
  { apply Forall_app; split; [assumption|constructor; [assumption|constructor]]. }
  rewrite (read_series SledStorage bs _ _ id s e (sled_holds _ Hh2) Hid).
  rewrite (read_series SledStorage bs _ _ id s e (sled_holds _ Hh) Hid).
  cbn [fst]. unfold points_of. rewrite filter_app. cbn [filter fst].
  replace (id' =? id) with false by lia. now rewrite app_nil_r.
Qed.

Theorem sled_append_ok h id p : Forall app_ok h -> app_ok (id, p) ->
  fst (krun (write_time_point SledStorage id (tp_ts p) (tp_val p)) (apply_apps SledStorage h [])) = Ok tt.
Proof.
  intros Hh [Ha Hb]. destruct (sled_write_ok _ _ id p (sled_holds h Hh) Ha Hb) as (s' & E & _).
  now rewrite E.
Qed.

(** ** TiKV *)
Lemma increasing_snoc l p : increasing l -> (forall q, In q l -> tp_ts q < tp_ts p) -> increasing (l ++ [p]).
Proof.
  induction l as [|x l IH]; intros H1 H2; cbn; [auto|]. destruct H1 as [A B]. split.
  - apply Forall_app; split; [assumption|constructor; [|constructor]]. apply H2. now left.
  - apply IH; [assumption|]. intros q Hq. apply H2. now right.
Qed.
Lemma increasing_last l d q : increasing l -> In q l -> tp_ts q <= tp_ts (last l d).
Proof.
  revert q. induction l as [|x l IH]; intros q H Hq; [contradiction|].
  pose proof (increasing_tail _ _ H) as H'. destruct H as [A _].
  destruct l as [|y l].
  - destruct Hq as [->|[]]. cbn. lia.
  - change (last (x :: y :: l) d) with (last (y :: l) d).
    destruct Hq as [->|Hq].
    + pose proof (Forall_inv A) as Hy. cbn in Hy. specialize (IH y H' (or_introl eq_refl)). lia.
    + now apply IH.
Qed.

Lemma accepted_app a b kept : accepted (a ++ b) kept = accepted b (accepted a kept).
Proof. revert kept. induction a; intros; cbn [app accepted]; [reflexivity|]. apply IHa. Qed.

Lemma accepted_increasing l : forall kept, increasing kept -> increasing (accepted l kept).
Proof.
  induction l as [|p l IH]; intros kept H; [assumption|]. cbn [accepted]. apply IH.
  destruct kept as [|q k]; [repeat constructor|].
  destruct (tp_ts (last (q :: k) q) <? tp_ts p) eqn:E; [|assumption].
  apply increasing_snoc; [assumption|]. intros x Hx.
  pose proof (increasing_last _ q x H Hx). lia.
Qed.

Lemma skipn_last_enc k l d : l <> [] -> k = (length (enc_series l) - 16)%nat ->
  skipn k (enc_series l) = encode_time_point (tp_ts (last l d)) (tp_val (last l d)).
Proof.
  intros Hl Hk. destruct (exists_last Hl) as (l' & x & ->).
  rewrite last_last. rewrite Hk, enc_series_len, app_length, enc_series_snoc. cbn [length].
  replace (16 * (length l' + 1) - 16)%nat with (length (enc_series l')) by (rewrite enc_series_len; lia).
  rewrite skipn_app, Nat.sub_diag, skipn_all. reflexivity.
Qed.

Definition tikv_next (kept : list tp) (p : tp) : bool :=
  match kept with [] => true | q :: _ => tp_ts (last kept q) <? tp_ts p end.

Lemma tikv_write_ok ident s f id p : holds_series (TiKvStorage ident) s f -> 0 <= id < 2 ^ 64 -> tp_ok p ->
  if tikv_next (f id) p
  then exists s', krun (write_time_point (TiKvStorage ident) id (tp_ts p) (tp_val p)) s = (Ok tt, s') /\
    holds_series (TiKvStorage ident) s' (fun i => if i =? id then f i ++ [p] else f i)
  else krun (write_time_point (TiKvStorage ident) id (tp_ts p) (tp_val p)) s = (Err InternalErr, s).
Proof.
  intros H Hid Hp. destruct (H id Hid) as [Hok Hg]. cbn [series_key] in Hg.
  assert (K: forall v, (match f id with [] => encode_time_point (tp_ts p) (tp_val p)
                   | l => enc_series l ++ encode_time_point (tp_ts p) (tp_val p) end) = v ->
     holds_series (TiKvStorage ident) (kv_set s (tikv_series_key ident id) v) (fun i => if i =? id then f i ++ [p] else f i)).
  { intros v Hv i Hi. destruct (H i Hi) as [Hoi Hgi]. cbn [series_key] in *.
    destruct (i =? id) eqn:E.
    - assert (i = id) by lia. subst i. split; [apply Forall_app; split; [assumption|constructor; [assumption|constructor]]|].
      rewrite kv_get_set_same. destruct (f id) as [|q l] eqn:F; cbn [app].
      + subst v. unfold enc_series. cbn [map concat]. now rewrite app_nil_r.
      + f_equal. rewrite <- Hv. change (q :: l ++ [p]) with ((q :: l) ++ [p]). now rewrite enc_series_snoc.
    - split; [assumption|]. rewrite kv_get_set_other; [assumption|].
      intros Hk. apply (series_key_inj (TiKvStorage ident)) in Hk; lia. }
  cbn [write_time_point]. unfold tikv_write. cbn [krun qbind bind call]. rewrite Hg.
  destruct (f id) as [|q l] eqn:F; cbn [krun qbind bind call tikv_next].
  - eexists; split; [reflexivity|]. now apply K.
  - pose proof (enc_series_len (q :: l)) as Hlen.
    replace (length (enc_series (q :: l)) <? 16)%nat with false by (cbn [length] in Hlen; lia).
    rewrite (skipn_last_enc _ (q :: l) q) by (congruence || reflexivity).
    assert (Hlast: tp_ok (last (q :: l) q)).
    { rewrite Forall_forall in Hok. apply Hok. destruct (@exists_last _ (q :: l)) as (l' & x & E); [congruence|].
      rewrite E, last_last. apply in_or_app. right. now left. }
    destruct Hlast as [L1 L2]. rewrite decode_encode by assumption. cbn [tp_ts].
    destruct (tp_ts p <=? tp_ts (last (q :: l) q)) eqn:E.
    + replace (tp_ts (last (q :: l) q) <? tp_ts p) with false by lia. reflexivity.
    + replace (tp_ts (last (q :: l) q) <? tp_ts p) with true by lia.
      cbn [krun qbind bind call]. eexists; split; [reflexivity|]. now apply K.
Qed.

Lemma holds_ext st s f g : (forall id, f id = g id) -> holds_series st s f -> holds_series st s g.
Proof. intros E H id Hid. rewrite <- E. now apply H. Qed.

Lemma tikv_apply ident h : forall s f, holds_series (TiKvStorage ident) s f -> Forall app_ok h ->
  holds_series (TiKvStorage ident) (apply_apps (TiKvStorage ident) h s)
    (fun id => accepted (points_of id h) (f id)).
Proof.
  induction h as [|[id p] h IH]; intros s f H Hh; [exact H|].
  pose proof (Forall_inv Hh) as [Ha Hb]. apply Forall_inv_tail in Hh. cbn [fst snd] in Ha, Hb.
  pose proof (tikv_write_ok ident s f id p H Ha Hb) as W. cbn [apply_apps].
  assert (P: forall i, points_of i ((id, p) :: h) = if i =? id then p :: points_of i h else points_of i h).
  { intros i. unfold points_of. cbn [filter fst]. rewrite (Z.eqb_sym id i). destruct (i =? id); reflexivity. }
  destruct (tikv_next (f id) p) eqn:E.
  - destruct W as (s' & -> & H'). cbn [snd]. eapply holds_ext; [|apply (IH s' _ H' Hh)].
    intros i. cbn beta. rewrite P. destruct (i =? id) eqn:Ei; [|reflexivity].
    cbn [accepted]. assert (i = id) by lia. subst i. unfold tikv_next in E.
    destruct (f id) as [|q l]; [reflexivity|]. now rewrite E.
  - rewrite W. cbn [snd]. eapply holds_ext; [|apply (IH s _ H Hh)].
    intros i. cbn beta. rewrite P. destruct (i =? id) eqn:Ei; [|reflexivity].
    cbn [accepted]. assert (i = id) by lia. subst i. unfold tikv_next in E.
    destruct (f id) as [|q l]; [discriminate|]. now rewrite E.
Qed.

Lemma tikv_holds ident h : Forall app_ok h ->
  holds_series (TiKvStorage ident) (apply_apps (TiKvStorage ident) h []) (fun id => accepted (points_of id h) []).
Proof. intros H. apply (tikv_apply ident h [] (fun _ => []) (holds_empty _) H). Qed.

Theorem tikv_read_exact ident bs h id s e : bs_contract bs -> Forall app_ok h -> 0 <= id < 2 ^ 64 -> s <= e ->
  let st := TiKvStorage ident in
  let kept := accepted (points_of id h) [] in
  increasing kept /\
  krun (read_time_series st bs id s e) (apply_apps st h []) = (read_spec kept s e, apply_apps st h []).
Proof.
  intros Hb Hh Hid Hse st kept.
  assert (Hi: increasing kept) by (apply accepted_increasing; exact I).
  split; [assumption|]. unfold st.
  rewrite (read_series _ _ _ (fun id => accepted (points_of id h) [])) by (try apply tikv_holds; assumption).
  f_equal. fold kept. destruct kept as [|p l] eqn:E; [reflexivity|].
  rewrite read_tail_any by assumption. apply read_any_spec; [congruence|assumption].
Qed.

Theorem tikv_write_gate ident h id p : Forall app_ok h -> app_ok (id, p) ->
  let st := TiKvStorage ident in
  let kept := accepted (points_of id h) [] in
  let w := krun (write_time_point st id (tp_ts p) (tp_val p)) (apply_apps st h []) in
  ((forall q, In q kept -> tp_ts q < tp_ts p) -> fst w = Ok tt) /\
  ((exists q, In q kept /\ tp_ts p <= tp_ts q) -> w = (Err InternalErr, apply_apps st h [])).
Proof.
  intros Hh [Ha Hp] st kept w. cbn [fst snd] in Ha, Hp.
  assert (Hi: increasing kept) by (apply accepted_increasing; exact I).
  pose proof (tikv_write_ok ident _ _ id p (tikv_holds ident h Hh) Ha Hp) as W. cbn beta in W.
  fold st kept w in W. unfold tikv_next in W.
  split.
  - intros Hq. destruct kept as [|q l] eqn:E; [destruct W as (s' & -> & _); reflexivity|].
    assert (In (last (q :: l) q) (q :: l)).
    { destruct (@exists_last _ (q :: l)) as (l' & x & El); [congruence|]. rewrite El, last_last. apply in_or_app. right; now left. }
    specialize (Hq _ H). replace (tp_ts (last (q :: l) q) <? tp_ts p) with true in W by lia.
    destruct W as (s' & -> & _). reflexivity.
  - intros (q & Hq & Hle). destruct kept as [|q0 l] eqn:E; [contradiction|].
    pose proof (increasing_last _ q0 q Hi Hq).
    replace (tp_ts (last (q0 :: l) q0) <? tp_ts p) with false in W by lia. exact W.
Qed.

(** ** C12: any range *)
Theorem read_range_exact st bs s0 f id s e : bs_contract bs -> holds_series st s0 f -> 0 <= id < 2 ^ 64 ->
  increasing (f id) -> f id <> [] ->
  fst (krun (read_time_series st bs id s e) s0) = read_any (f id) s e.
Proof.
  intros Hb H Hid Hi Hne. rewrite (read_series st bs s0 f) by assumption. cbn [fst].
  destruct (f id) eqn:E; [congruence|]. now apply read_tail_any.
Qed.

(* the scan satisfies the contract *)
Lemma scan_spec l t : forall k, sorted_ts l ->
  match scan l t k with
  | Found i => exists p, (k <= i)%nat /\ nth_error l (i - k) = Some p /\ tp_ts p = t
  | Missing i => (k <= i <= k + length l)%nat /\
      (forall j p, nth_error l j = Some p -> (j + k < i)%nat -> tp_ts p < t) /\
      (forall j p, nth_error l j = Some p -> (i <= j + k)%nat -> t < tp_ts p)
  end.
Proof.
  induction l as [|x l IH]; intros k Hs; cbn [scan].
  - split; [cbn; lia|]. split; intros j p Hp; destruct j; discriminate.
  - assert (Hs': sorted_ts l). { intros i j p q Hij Hp Hq. apply (Hs (S i) (S j)); [lia|assumption..]. }
    destruct (tp_ts x =? t) eqn:E1.
    + exists x. rewrite Nat.sub_diag. cbn. split; [lia|]. split; [reflexivity|lia].
    + destruct (t <? tp_ts x) eqn:E2.
      * split; [lia|]. split; [intros; lia|]. intros j p Hp _.
        pose proof (Hs 0%nat j x p ltac:(lia) eq_refl Hp). lia.
      * specialize (IH (S k) Hs'). destruct (scan l t (S k)) as [i|i].
        -- destruct IH as (p & A & B & C). exists p. split; [lia|]. split; [|assumption].
           replace (i - k)%nat with (S (i - S k)) by lia. exact B.
        -- destruct IH as (A & B & C). split; [cbn [length]; lia|]. split.
           ++ intros [|j] p Hp Hj; [assert (p = x) by (cbn in Hp; congruence); subst; lia|].
              apply (B j p Hp). lia.
           ++ intros [|j] p Hp Hj; [lia|]. apply (C j p Hp). lia.
Qed.
Lemma scan_contract : bs_contract scan_bs.
Proof.
  intros l t Hs. pose proof (scan_spec l t 0 Hs) as H. unfold scan_bs.
  destruct (scan l t 0) as [i|i].
  - destruct H as (p & _ & B & C). rewrite Nat.sub_0_r in B. eauto.
  - destruct H as (A & B & C). split; [lia|]. split; intros j p Hp Hj.
    + apply (B j p Hp). lia.
    + apply (C j p Hp). lia.
Qed.

Lemma gap_count s e l : e < s ->
  ((upto e l < before s l)%nat <-> exists p, In p l /\ e < tp_ts p < s).
Proof.
  intros H. induction l as [|x l IH].
  - cbn. split; [lia|]. intros (p & [] & _).
  - pose proof (upto_le_before s e l H) as Hle. unfold before, upto in *. cbn [filter].
    destruct (tp_ts x <? s) eqn:E1; destruct (tp_ts x <=? e) eqn:E2; cbn [length].
    + split.
      * intros Hl. destruct IH as [IH _]. destruct IH as (p & Hp & Hr); [lia|]. exists p. split; [now right|assumption].
      * intros (p & [->|Hp] & Hr); [lia|]. destruct IH as [_ IH]. specialize (IH (ex_intro _ p (conj Hp Hr))). lia.
    + split; [|lia]. intros _. exists x. split; [now left|lia].
    + lia.
    + split.
      * intros Hl. destruct IH as [IH _]. destruct IH as (p & Hp & Hr); [lia|]. exists p. split; [now right|assumption].
      * intros (p & [->|Hp] & Hr); [lia|]. destruct IH as [_ IH]. specialize (IH (ex_intro _ p (conj Hp Hr))). lia.
Qed.

(* reads of an increasing series that is not wholly outside [s,e], for every s and e *)
Lemma read_any_cases pts s e : pts <> [] ->
  (exists p, In p pts /\ tp_ts p <= e) -> (exists p, In p pts /\ s <= tp_ts p) -> increasing pts ->
  (s <= e -> read_any pts s e = Ok (within s e pts)) /\
  (e < s -> (exists p, In p pts /\ e < tp_ts p < s) -> read_any pts s e = Panic) /\
  (e < s -> ~ (exists p, In p pts /\ e < tp_ts p < s) -> read_any pts s e = Ok []).
Proof.
  intros Hne (p & Hp & Hpe) (q & Hq & Hqs) Hi.
  assert (R: read_any pts s e = if (before s pts <=? upto e pts)%nat then Ok (within s e pts) else Panic).
  { unfold read_any. destruct pts as [|f l]; [congruence|].
    pose proof (increasing_last _ f q Hi Hq).
    assert (tp_ts f <= tp_ts p).
    { destruct Hp as [->|Hp]; [lia|]. destruct Hi as [Hf _]. rewrite Forall_forall in Hf. specialize (Hf _ Hp). lia. }
    replace ((e <? tp_ts f) || (tp_ts (last (f :: l) f) <? s)) with false by lia. reflexivity. }
  split; [|split].
  - intros Hse. rewrite R. pose proof (before_le_upto s e pts Hse).
    replace (before s pts <=? upto e pts)%nat with true by lia. reflexivity.
  - intros He Hx. rewrite R. apply (gap_count s e pts He) in Hx.
    replace (before s pts <=? upto e pts)%nat with false by lia. reflexivity.
  - intros He Hx. rewrite R.
    assert (~ (upto e pts < before s pts)%nat) by (rewrite (gap_count s e pts He); assumption).
    replace (before s pts <=? upto e pts)%nat with true by lia. now rewrite within_inverted.
Qed.

Theorem sled_range bs h id s e : bs_contract bs -> Forall app_ok h -> 0 <= id < 2 ^ 64 ->
  let pts := points_of id h in
  let r := fst (krun (read_time_series SledStorage bs id s e) (apply_apps SledStorage h [])) in
  increasing pts ->
  (exists p, In p pts /\ tp_ts p <= e) -> (exists p, In p pts /\ s <= tp_ts p) ->
  (s <= e -> r = Ok (within s e pts)) /\
  (e < s -> (exists p, In p pts /\ e < tp_ts p < s) -> r = Panic) /\
  (e < s -> ~ (exists p, In p pts /\ e < tp_ts p < s) -> r = Ok []).
Proof.
  intros Hb Hh Hid pts r Hi He Hs. unfold r.
  assert (Hne: pts <> []) by (destruct He as (p & Hp & _); intros E; rewrite E in Hp; contradiction).
  rewrite (read_range_exact SledStorage bs _ (fun i => points_of i h) id s e Hb (sled_holds h Hh) Hid Hi Hne).
  now apply read_any_cases.
Qed.

Theorem tikv_range ident bs h id s e : bs_contract bs -> Forall app_ok h -> 0 <= id < 2 ^ 64 ->
  let st := TiKvStorage ident in
  let pts := accepted (points_of id h) [] in
  let r := fst (krun (read_time_series st bs id s e) (apply_apps st h [])) in
  (exists p, In p pts /\ tp_ts p <= e) -> (exists p, In p pts /\ s <= tp_ts p) ->
  (s <= e -> r = Ok (within s e pts)) /\
  (e < s -> (exists p, In p pts /\ e < tp_ts p < s) -> r = Panic) /\
  (e < s -> ~ (exists p, In p pts /\ e < tp_ts p < s) -> r = Ok []).
Proof.
  intros Hb Hh Hid st pts r He Hs. unfold r, st.
  assert (Hne: pts <> []) by (destruct He as (p & Hp & _); intros E; rewrite E in Hp; contradiction).
  assert (Hi: increasing pts) by (apply accepted_increasing; exact I).
  rewrite (read_range_exact (TiKvStorage ident) bs _ (fun i => accepted (points_of i h) []) id s e Hb (tikv_holds ident h Hh) Hid Hi Hne).
  now apply read_any_cases.
Qed.

(** ** C13 *)
Definition tpz (t v : Z) : tp := mkTp t v.
Theorem sled_out_of_order bs :
  let h := [(1, mkTp 5 0); (1, mkTp 3 0)] in
  Forall app_ok h /\ In (mkTp 3 0) (points_of 1 h) /\
  fst (krun (read_time_series SledStorage bs 1 3 3) (apply_apps SledStorage h [])) =
    Err (OutOfRangeErr 5 3).
Proof.
  cbv zeta. split; [|split].
  - repeat constructor; cbn; lia.
  - right; left; reflexivity.
  - vm_compute. reflexivity.
Qed.

Theorem sled_duplicates bs : bs_contract bs ->
  let h := [(1, mkTp 5 0); (1, mkTp 5 1)] in
  Forall app_ok h /\ length (within 5 5 (points_of 1 h)) = 2%nat /\
  exists p, fst (krun (read_time_series SledStorage bs 1 5 5) (apply_apps SledStorage h [])) = Ok [p].
Proof.
  intros Hb h. assert (Hh: Forall app_ok h) by (repeat constructor; cbn; lia).
  split; [assumption|]. split; [reflexivity|].
  rewrite (read_series SledStorage bs _ _ 1 5 5 (sled_holds h Hh)) by lia. cbn [fst].
  change (points_of 1 h) with [mkTp 5 0; mkTp 5 1].
  unfold read_tail. cbn [last tp_ts].
  change ((5 <? 5) || (5 <? 5)) with false. cbv iota.
  unfold trim_time_series. pose proof (Hb [mkTp 5 0; mkTp 5 1] 5) as C.
  assert (S: sorted_ts [mkTp 5 0; mkTp 5 1]).
  { intros [|[|[|i]]] [|[|[|j]]] p q Hij Hp Hq; cbn in Hp, Hq; try discriminate;
      injection Hp as <-; injection Hq as <-; cbn; lia. }
  specialize (C S). destruct (bs [mkTp 5 0; mkTp 5 1] 5) as [i|i].
  - destruct C as (p & Hp & _). destruct i as [|[|[|i]]]; cbn in Hp; try discriminate; cbn; eexists; reflexivity.
  - destruct C as (Hle & C1 & C2). exfalso.
    destruct i as [|i].
    + specialize (C2 0%nat _ eq_refl ltac:(lia)). cbn in C2. lia.
    + specialize (C1 0%nat _ eq_refl ltac:(lia)). cbn in C1. lia.
Qed.
