(* Bit-level facts used for the Gorilla codec. *)
From Verif Require Import Rust Bstream BitSpec BstreamProofs BitsProofs.
From Coq Require Import ZifyBool ZifyNat.
Ltac Zify.zify_post_hook ::= Z.div_mod_to_equations.

Lemma zlen_app {A} (a b : list A) : zlen (a ++ b) = zlen a + zlen b.
Proof. unfold zlen. rewrite app_length. lia. Qed.
Lemma zlen_nonneg {A} (a : list A) : 0 <= zlen a.
Proof. unfold zlen. lia. Qed.

Definition b2z (b : bool) : Z := if b then 1 else 0.

Lemma bval_snoc l b : bval (l ++ [b]) = 2 * bval l + b2z b.
Proof. unfold bval. rewrite fold_left_app. reflexivity. Qed.

Lemma bval_nonneg l : 0 <= bval l.
Proof.
  induction l as [|b l IH] using rev_ind; [cbn; lia|]. rewrite bval_snoc.
  destruct b; cbn [b2z]; lia.
Qed.

Lemma bval_lt l : bval l < 2 ^ zlen l.
Proof.
  induction l as [|b l IH] using rev_ind; [cbn; lia|].
  rewrite bval_snoc, zlen_app. change (zlen [b]) with 1.
  rewrite Z.pow_add_r by (apply zlen_nonneg || lia). destruct b; cbn [b2z]; lia.
Qed.

Lemma bval_app a b : bval (a ++ b) = bval a * 2 ^ zlen b + bval b.
Proof.
  induction b as [|x b IH] using rev_ind.
  - rewrite app_nil_r. change (bval []) with 0. change (zlen []) with 0. lia.
  - rewrite app_assoc, !bval_snoc, IH, zlen_app. change (zlen [x]) with 1.
    rewrite Z.pow_add_r by (apply zlen_nonneg || lia). lia.
Qed.

Lemma bval_zeros n : bval (repeat false n) = 0.
Proof.
  induction n as [|n IH]; [reflexivity|].
  replace (S n) with (n + 1)%nat by lia. rewrite repeat_app. cbn [repeat].
  rewrite bval_snoc, IH. reflexivity.
Qed.

Lemma bval_cons b l : bval (b :: l) = b2z b * 2 ^ zlen l + bval l.
Proof. change (b :: l) with ([b] ++ l). rewrite bval_app. destruct b; reflexivity. Qed.

Lemma bval_zbits n z : bval (zbits n z) = z mod 2 ^ Z.of_nat n.
Proof.
  induction n as [|n IH].
  - cbn [zbits]. change (2 ^ Z.of_nat 0) with 1. now rewrite Z.mod_1_r.
  - cbn [zbits]. rewrite bval_cons, IH. unfold zlen. rewrite length_zbits.
    rewrite Nat2Z.inj_succ, Z.pow_succ_r by lia.
    rewrite (Z.mul_comm 2), Z.rem_mul_r by lia.
    rewrite Z.testbit_eqb by lia. unfold b2z.
    pose proof (Z.mod_pos_bound (z / 2 ^ Z.of_nat n) 2 ltac:(lia)) as Hb.
    destruct (Z.eqb_spec ((z / 2 ^ Z.of_nat n) mod 2) 1) as [->|Hn].
    + lia.
    + replace ((z / 2 ^ Z.of_nat n) mod 2) with 0 by lia. lia.
Qed.

Lemma from_be_snoc l b : from_be (l ++ [b]) = from_be l * 256 + b.
Proof. unfold from_be. now rewrite fold_left_app. Qed.

Lemma from_be_raw l : Forall is_byte l -> from_be l = bval (raw_bits l).
Proof.
  induction l as [|b l IH] using rev_ind; intros HF; [reflexivity|].
  apply Forall_app in HF. destruct HF as [HF Hb]. inversion Hb as [|? ? Hb' _]; subst.
  rewrite from_be_snoc, raw_bits_app, raw_single, bval_app, IH by assumption.
  change (zlen (byte_bits b)) with 8. rewrite byte_bits_zbits, bval_zbits.
  change (2 ^ Z.of_nat 8) with 256. rewrite Z.mod_small by (destruct Hb'; lia). reflexivity.
Qed.

Lemma from_be_be_bytes n z : from_be (be_bytes n z) = z mod 2 ^ (8 * Z.of_nat n).
Proof.
  rewrite from_be_raw by apply be_bytes_byte. rewrite raw_be_bytes, bval_zbits.
  f_equal. f_equal. lia.
Qed.

Lemma firstn_skipn_mid {A} (pre zs post : list A) n c :
  length pre = c -> length zs = n -> firstn n (skipn c (pre ++ zs ++ post)) = zs.
Proof. intros H1 H2. rewrite skipn_cut by assumption. now apply firstn_cut. Qed.

Lemma raw_zero_buf n : raw_bits (repeat 0 n) = repeat false (8 * n).
Proof.
  induction n as [|n IH]; [reflexivity|].
  cbn [repeat]. rewrite raw_bits_cons, IH. replace (8 * S n)%nat with (8 + 8 * n)%nat by lia.
  rewrite repeat_app. reflexivity.
Qed.

Lemma Forall_repeat0 n : Forall is_byte (repeat 0 n).
Proof. induction n; [constructor|]. constructor; [unfold is_byte; lia|assumption]. Qed.

(* reading n bits into a zeroed buffer of k bytes, from a stream with content pre ++ rest,
   the cursor being after pre *)
Lemma rd_gen dbg b pre rest k n : holds b (pre ++ rest) -> (n <= 8 * k)%nat ->
  exists buf, let m := Nat.min n (length rest) in
    sk_read dbg (mkSk b (zlen pre)) (repeat 0 k) (Z.of_nat n)
      = Ok (Z.of_nat m, buf, mkSk b (zlen pre + Z.of_nat m)) /\
    length buf = k /\ Forall is_byte buf /\
    raw_bits buf = firstn m rest ++ repeat false (8 * k - m).
Proof.
  intros Hb Hk. cbn zeta.
  destruct (sk_read_ok dbg b (pre ++ rest) (zlen pre) (Z.of_nat n) (repeat 0 k) Hb)
    as (buf & E & L & S1 & F & R).
  - rewrite zlen_app. pose proof (zlen_nonneg pre). pose proof (zlen_nonneg rest). lia.
  - lia.
  - unfold zlen. rewrite repeat_length. lia.
  - cbn zeta in E, S1, F, R.
    assert (Hav : avail (pre ++ rest) (zlen pre) (Z.of_nat n) = Z.of_nat (Nat.min n (length rest))).
    { unfold avail. rewrite zlen_app. unfold zlen. lia. }
    rewrite Hav in *. set (m := Nat.min n (length rest)) in *.
    rewrite repeat_length in L.
    exists buf. split; [exact E|]. split; [exact L|].
    set (nb := nbytes (Z.of_nat m)) in *.
    assert (Hnb : (nb <= k)%nat /\ (m <= 8 * nb)%nat) by (unfold nb, nbytes; lia).
    assert (Hsk : skipn nb buf = repeat 0 (k - nb)) by (rewrite S1; apply skipn_repeat).
    rewrite <- (firstn_skipn nb buf), Hsk. split.
    + apply Forall_app. split; [assumption|apply Forall_repeat0].
    + rewrite raw_bits_app, R, raw_zero_buf, <- app_assoc, repeat_add.
      rewrite Nat2Z.id. unfold zlen. rewrite Nat2Z.id.
      rewrite (skipn_cut pre rest) by reflexivity. f_equal. f_equal. lia.
Qed.

Lemma rd dbg b pre zs post k : holds b (pre ++ zs ++ post) -> (length zs <= 8 * k)%nat ->
  exists buf,
    sk_read dbg (mkSk b (zlen pre)) (repeat 0 k) (zlen zs)
      = Ok (zlen zs, buf, mkSk b (zlen (pre ++ zs))) /\
    length buf = k /\ Forall is_byte buf /\
    raw_bits buf = zs ++ repeat false (8 * k - length zs).
Proof.
  intros Hb Hk. destruct (rd_gen dbg b pre (zs ++ post) k (length zs) Hb Hk) as (buf & E & L & F & R).
  rewrite app_length in *. replace (Nat.min (length zs) (length zs + length post)) with (length zs) in * by lia.
  exists buf. rewrite zlen_app. unfold zlen at 2 3 5. split; [exact E|].
  split; [exact L|]. split; [exact F|]. rewrite firstn_cut in R by reflexivity. exact R.
Qed.

(* short read: fewer bits than asked *)
Lemma rd_short dbg b pre rest k n : holds b (pre ++ rest) -> (n <= 8 * k)%nat ->
  (length rest < n)%nat ->
  exists buf sk, sk_read dbg (mkSk b (zlen pre)) (repeat 0 k) (Z.of_nat n)
      = Ok (zlen rest, buf, sk).
Proof.
  intros Hb Hk Hl. destruct (rd_gen dbg b pre rest k n Hb Hk) as (buf & E & _).
  replace (Nat.min n (length rest)) with (length rest) in E by lia. eauto.
Qed.

(* flag tests *)
Definition all_bytes : list Z := map Z.of_nat (seq 0 256).
Lemma byte_sweep (P : Z -> bool) : forallb P all_bytes = true -> forall f, is_byte f -> P f = true.
Proof.
  intros H f Hf. rewrite forallb_forall in H. apply H. unfold all_bytes.
  replace f with (Z.of_nat (Z.to_nat f)) by (destruct Hf; lia).
  apply in_map. apply in_seq. destruct Hf. lia.
Qed.

Lemma flag128 f : is_byte f -> (Z.land f 128 =? 0) = negb (Z.testbit f 7).
Proof.
  intros Hf. apply eqb_prop.
  apply (byte_sweep (fun f => eqb (Z.land f 128 =? 0) (negb (Z.testbit f 7)))); [now vm_compute|assumption].
Qed.
Lemma flag192 f : is_byte f -> (Z.land f 192 =? 128) = Z.testbit f 7 && negb (Z.testbit f 6).
Proof.
  intros Hf. apply eqb_prop.
  apply (byte_sweep (fun f => eqb (Z.land f 192 =? 128) (Z.testbit f 7 && negb (Z.testbit f 6)))); [now vm_compute|assumption].
Qed.
Lemma flag224 f : is_byte f -> (Z.land f 224 =? 192) = Z.testbit f 7 && Z.testbit f 6 && negb (Z.testbit f 5).
Proof.
  intros Hf. apply eqb_prop.
  apply (byte_sweep (fun f => eqb (Z.land f 224 =? 192) (Z.testbit f 7 && Z.testbit f 6 && negb (Z.testbit f 5)))); [now vm_compute|assumption].
Qed.
Lemma flag240 f : is_byte f -> (Z.land f 240 =? 224) =
  Z.testbit f 7 && Z.testbit f 6 && Z.testbit f 5 && negb (Z.testbit f 4).
Proof.
  intros Hf. apply eqb_prop.
  apply (byte_sweep (fun f => eqb (Z.land f 240 =? 224)
    (Z.testbit f 7 && Z.testbit f 6 && Z.testbit f 5 && negb (Z.testbit f 4)))); [now vm_compute|assumption].
Qed.

(* leading and trailing zeros *)
Lemma lz_bounds x : 0 < x < 2 ^ 64 -> 0 <= leading_zeros64 x <= 63 /\
  2 ^ (63 - leading_zeros64 x) <= x < 2 ^ (64 - leading_zeros64 x).
Proof.
  intros Hx. unfold leading_zeros64. destruct (Z.eqb_spec x 0); [lia|].
  pose proof (Z.log2_spec x ltac:(lia)) as Hl.
  assert (0 <= Z.log2 x < 64) by (split; [apply Z.log2_nonneg|apply Z.log2_lt_pow2; lia]).
  split; [lia|]. replace (63 - (63 - Z.log2 x)) with (Z.log2 x) by lia.
  replace (64 - (63 - Z.log2 x)) with (Z.succ (Z.log2 x)) by lia. exact Hl.
Qed.

Lemma ctz_spec k : forall x, 0 < x < 2 ^ Z.of_nat k ->
  0 <= ctz_fuel k x < Z.of_nat k /\ Z.testbit x (ctz_fuel k x) = true /\
  (forall i, 0 <= i < ctz_fuel k x -> Z.testbit x i = false).
Proof.
  induction k as [|k IH]; intros x Hx; [change (2 ^ Z.of_nat 0) with 1 in Hx; lia|].
  cbn [ctz_fuel]. destruct (Z.odd x) eqn:Eo.
  - split; [lia|]. split; [now rewrite Z.bit0_odd|]. intros i Hi. lia.
  - assert (Hd : x = 2 * Z.div2 x).
    { pose proof (Z.div2_odd x) as H. rewrite Eo in H. cbn [Z.b2z] in H. lia. }
    rewrite Nat2Z.inj_succ, Z.pow_succ_r in Hx by lia.
    destruct (IH (Z.div2 x) ltac:(lia)) as (H1 & H2 & H3).
    split; [lia|]. split.
    + replace (1 + ctz_fuel k (Z.div2 x)) with (Z.succ (ctz_fuel k (Z.div2 x))) by lia.
      rewrite <- Z.div2_bits, <- Z.div2_div by lia. exact H2.
    + intros i Hi. destruct (Z.eq_dec i 0) as [->|Hi0]; [now rewrite Z.bit0_odd|].
      replace i with (Z.succ (i - 1)) by lia. rewrite <- Z.div2_bits, <- Z.div2_div by lia. apply H3. lia.
Qed.

Lemma tz_spec x : 0 < x < 2 ^ 64 ->
  0 <= trailing_zeros64 x < 64 /\ Z.testbit x (trailing_zeros64 x) = true /\
  (forall i, 0 <= i < trailing_zeros64 x -> Z.testbit x i = false).
Proof. apply (ctz_spec 64). Qed.

Lemma tz_mod x t : 0 < x < 2 ^ 64 -> 0 <= t <= trailing_zeros64 x -> x mod 2 ^ t = 0.
Proof.
  intros Hx Ht. destruct (tz_spec x Hx) as (_ & _ & H).
  apply Z.bits_inj'. intros k Hk. rewrite Z.bits_0.
  destruct (Z_lt_le_dec k t).
  - rewrite Z.mod_pow2_bits_low by lia. apply H. lia.
  - apply Z.mod_pow2_bits_high. lia.
Qed.

Lemma lz_tz x : 0 < x < 2 ^ 64 -> leading_zeros64 x + trailing_zeros64 x <= 63.
Proof.
  intros Hx. destruct (lz_bounds x Hx) as (Hl & Hb). destruct (tz_spec x Hx) as (Ht & Hb1 & _).
  destruct (Z_lt_le_dec 63 (leading_zeros64 x + trailing_zeros64 x)) as [Hc|]; [|lia].
  exfalso. assert (Z.log2 x < trailing_zeros64 x).
  { unfold leading_zeros64 in Hc. destruct (Z.eqb_spec x 0); lia. }
  rewrite Z.bits_above_log2 in Hb1 by lia. discriminate.
Qed.

Lemma lxor_u64 a b : 0 <= a < 2 ^ 64 -> 0 <= b < 2 ^ 64 -> 0 <= Z.lxor a b < 2 ^ 64.
Proof.
  intros Ha Hb. assert (0 <= Z.lxor a b) by (apply Z.lxor_nonneg; lia). split; [lia|].
  destruct (Z.eq_dec (Z.lxor a b) 0) as [->|Hn]; [lia|].
  apply Z.log2_lt_cancel. change (Z.log2 (2 ^ 64)) with 64.
  pose proof (Z.log2_lxor a b ltac:(lia) ltac:(lia)).
  assert (forall c, 0 <= c < 2 ^ 64 -> Z.log2 c < 64).
  { intros c Hc. destruct (Z.eq_dec c 0) as [->|]; [cbn; lia|]. apply Z.log2_lt_pow2; lia. }
  pose proof (H1 a Ha). pose proof (H1 b Hb). lia.
Qed.

Lemma lxor_lxor a b : Z.lxor a (Z.lxor b a) = b.
Proof. now rewrite (Z.lxor_comm b a), <- Z.lxor_assoc, Z.lxor_nilpotent, Z.lxor_0_l. Qed.

Lemma lxor_cancel a x y : Z.lxor a x = Z.lxor a y -> x = y.
Proof.
  intros H. apply (f_equal (Z.lxor a)) in H.
  now rewrite <- !Z.lxor_assoc, Z.lxor_nilpotent, !Z.lxor_0_l in H.
Qed.

(* significant bits of x in a window with L leading and T trailing free bits, left aligned in
   64 bits and shifted right by L', give x * 2^(L - L') *)
Lemma window_bits x L T : 0 < x < 2 ^ 64 -> 0 <= L <= leading_zeros64 x ->
  0 <= T <= trailing_zeros64 x -> L + T <= 63 ->
  bval (zbits (Z.to_nat (64 - L - T)) (Z.shiftr x T) ++
        repeat false (64 - Z.to_nat (64 - L - T))) = x * 2 ^ L.
Proof.
  intros Hx HL HT Hs. rewrite bval_app, bval_zeros, bval_zbits, Z.add_0_r.
  unfold zlen. rewrite repeat_length. rewrite Z.shiftr_div_pow2 by lia.
  rewrite Z2Nat.id by lia.
  replace (Z.of_nat (64 - Z.to_nat (64 - L - T))) with (L + T) by lia.
  destruct (lz_bounds x Hx) as (_ & Hub).
  pose proof (tz_mod x T Hx HT) as Hm.
  assert (Hx' : x = x / 2 ^ T * 2 ^ T) by (pose proof (Z.div_mod x (2 ^ T)); lia).
  rewrite Z.mod_small.
  - rewrite Z.pow_add_r by lia. rewrite Hx' at 2. ring.
  - split; [apply Z.div_pos; lia|].
    apply Z.div_lt_upper_bound; [lia|].
    rewrite <- Z.pow_add_r by lia. replace (T + (64 - L - T)) with (64 - L) by lia.
    eapply Z.lt_le_trans; [apply Hub|]. apply Z.pow_le_mono_r; lia.
Qed.
