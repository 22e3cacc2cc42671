(* Proofs: the table-driven checksum is the shift register; it detects short bursts. *)
From Coq Require Import ZifyBool ZifyNat.
From Verif Require Import Rust GorillaBits Wal WalSpec.

Definition inr (n x : Z) : Prop := 0 <= x < 2 ^ n.

Lemma lxor_inr n a b : 0 <= n -> inr n a -> inr n b -> inr n (Z.lxor a b).
Proof.
  unfold inr. intros Hn Ha Hb. assert (0 <= Z.lxor a b) by (apply Z.lxor_nonneg; lia). split; [lia|].
  destruct (Z.eq_dec (Z.lxor a b) 0) as [->|Hz]; [lia|].
  apply Z.log2_lt_cancel. rewrite Z.log2_pow2 by lia.
  pose proof (Z.log2_lxor a b ltac:(lia) ltac:(lia)) as L.
  assert (G: forall c, 0 <= c < 2 ^ n -> 0 <= n -> Z.log2 c < n \/ c = 0).
  { intros c Hc _. destruct (Z.eq_dec c 0) as [->|]; [now right|]. left. apply Z.log2_lt_pow2; lia. }
  destruct (Z.eq_dec a 0) as [->|]; [|destruct (Z.eq_dec b 0) as [->|]].
  - rewrite Z.lxor_0_l in *. destruct (G b Hb Hn); lia.
  - rewrite Z.lxor_0_r in *. destruct (G a Ha Hn); lia.
  - destruct (G a Ha Hn); destruct (G b Hb Hn); lia.
Qed.

Lemma ones_inr n : 0 <= n -> inr n (Z.ones n).
Proof. intros H. unfold inr. rewrite Z.ones_equiv. assert (0 < 2 ^ n) by (apply Z.pow_pos_nonneg; lia). lia. Qed.

Lemma notn_sub n v : 0 <= n -> inr n v -> notn n v = 2 ^ n - 1 - v.
Proof.
  intros Hn Hv. unfold notn, inr in *. rewrite <- Z.sub_1_r at 1 || idtac.
  assert (E: Z.ones n = Z.lxor v (Z.lxor v (Z.ones n))) by (rewrite <- Z.lxor_assoc, Z.lxor_nilpotent, Z.lxor_0_l; reflexivity).
  assert (A: v + Z.lxor v (Z.ones n) = Z.lxor v (Z.lxor v (Z.ones n))).
  { apply Z.add_nocarry_lxor. apply Z.bits_inj'. intros i Hi. rewrite Z.land_spec, Z.lxor_spec, Z.bits_0.
    destruct (Z.lt_ge_cases i n) as [L|L].
    - rewrite Z.ones_spec_low by lia. destruct (Z.testbit v i); reflexivity.
    - assert (Z.testbit v i = false) as ->; [|reflexivity].
      destruct (Z.eq_dec v 0) as [->|]; [apply Z.bits_0|]. apply Z.bits_above_log2; [lia|]. assert (Z.log2 v < n) by (apply Z.log2_lt_pow2; lia). lia. }
  rewrite <- E in A. rewrite Z.ones_equiv in *. lia.
Qed.

(** ** the step *)
Section step.
Variables (n poly : Z).
Hypothesis (Hn : 0 < n) (Hp : inr n poly) (Ht : Z.testbit poly (n - 1) = true).
Notation T := (crc_step poly).

Lemma step_lxor a b : T (Z.lxor a b) = Z.lxor (T a) (T b).
Proof.
  unfold crc_step. rewrite <- !Z.bit0_odd, Z.lxor_spec, Z.shiftr_lxor.
  destruct (Z.testbit a 0), (Z.testbit b 0); cbn [xorb]; apply Z.bits_inj'; intros i Hi; rewrite ?Z.lxor_spec;
    destruct (Z.testbit (Z.shiftr a 1) i), (Z.testbit (Z.shiftr b 1) i), (Z.testbit poly i); reflexivity.
Qed.
Lemma step_even w : T (2 * w) = w.
Proof.
  unfold crc_step. rewrite Z.odd_mul. change (Z.odd 2) with false. cbn [andb]. rewrite Z.shiftr_div_pow2 by lia.
  change (2 ^ 1) with 2. rewrite Z.mul_comm. apply Z.div_mul. lia.
Qed.
Lemma iter_lxor k a b : Nat.iter k T (Z.lxor a b) = Z.lxor (Nat.iter k T a) (Nat.iter k T b).
Proof. induction k as [|k IH]; [reflexivity|]. cbn [Nat.iter]. change (Nat.iter (S k) T ?x) with (T (Nat.iter k T x)). rewrite IH. apply step_lxor. Qed.
Lemma iter_S k a : Nat.iter (S k) T a = Nat.iter k T (T a).
Proof. induction k as [|k IH]; [reflexivity|]. change (Nat.iter (S (S k)) T a) with (T (Nat.iter (S k) T a)). rewrite IH. reflexivity. Qed.
Lemma iter_shift k w : Nat.iter k T (w * 2 ^ Z.of_nat k) = w.
Proof.
  induction k as [|k IH].
  - cbn. lia.
  - rewrite iter_S. replace (w * 2 ^ Z.of_nat (S k)) with (2 * (w * 2 ^ Z.of_nat k)); [now rewrite step_even|].
    rewrite Nat2Z.inj_succ, Z.pow_succ_r by lia. ring.
Qed.

Lemma b2z_inr (b : bool) : inr n (Z.b2z b).
Proof. unfold inr. assert (2 ^ 1 <= 2 ^ n) by (apply Z.pow_le_mono_r; lia). destruct b; cbn; lia. Qed.
Lemma step_inr a : inr n a -> inr n (T a).
Proof.
  intros Ha. unfold crc_step. assert (inr n (Z.shiftr a 1)).
  { unfold inr in *. rewrite Z.shiftr_div_pow2 by lia. change (2 ^ 1) with 2.
    split; [apply Z.div_pos; lia|]. apply Z.div_lt_upper_bound; lia. }
  destruct (Z.odd a); [|assumption]. apply lxor_inr; [lia|assumption|assumption].
Qed.
Lemma top_clear a : inr n a -> Z.testbit (Z.shiftr a 1) (n - 1) = false.
Proof.
  intros Ha. unfold inr in *. rewrite Z.shiftr_spec by lia. replace (n - 1 + 1) with n by lia.
  destruct (Z.eq_dec a 0) as [->|]; [apply Z.bits_0|]. apply Z.bits_above_log2; [lia|]. apply Z.log2_lt_pow2; lia.
Qed.
Lemma step_top a : inr n a -> Z.testbit (T a) (n - 1) = Z.odd a.
Proof.
  intros Ha. unfold crc_step. destruct (Z.odd a); [rewrite Z.lxor_spec, Ht|]; rewrite top_clear by assumption; reflexivity.
Qed.
Lemma step_inj a b : inr n a -> inr n b -> T a = T b -> a = b.
Proof.
  intros Ha Hb E. assert (O: Z.odd a = Z.odd b) by (rewrite <- !step_top, E by assumption; reflexivity).
  unfold crc_step in E. rewrite <- O in E.
  assert (S1: Z.shiftr a 1 = Z.shiftr b 1).
  { destruct (Z.odd a); [|assumption]. rewrite !(Z.lxor_comm _ poly) in E. now apply lxor_cancel in E. }
  rewrite !Z.shiftr_div_pow2 in S1 by lia. change (2 ^ 1) with 2 in S1.
  rewrite (Z.div_mod a 2), (Z.div_mod b 2), S1 by lia. rewrite !Zmod_odd, O. reflexivity.
Qed.
Lemma iter_inr k a : inr n a -> inr n (Nat.iter k T a).
Proof. intros H. induction k as [|k IH]; [assumption|]. apply step_inr, IH. Qed.
Lemma iter_inj k a b : inr n a -> inr n b -> Nat.iter k T a = Nat.iter k T b -> a = b.
Proof.
  intros Ha Hb. induction k as [|k IH]; [trivial|]. intros E. apply IH. apply step_inj; [now apply iter_inr..|exact E].
Qed.

(** ** bits *)
Definition word (bits : list bool) : Z := fold_right (fun b w => Z.b2z b + 2 * w) 0 bits.
Lemma word_inr bits : 0 <= word bits < 2 ^ Z.of_nat (length bits).
Proof.
  induction bits as [|b bits IH]; cbn [word fold_right length]; [cbn; lia|]. fold (word bits).
  rewrite Nat2Z.inj_succ, Z.pow_succ_r by lia. destruct b; cbn [Z.b2z]; lia.
Qed.
Lemma add_lxor (b : bool) w : Z.b2z b + 2 * w = Z.lxor (Z.b2z b) (2 * w).
Proof.
  apply Z.add_nocarry_lxor. apply Z.bits_inj'. intros i Hi. rewrite Z.land_spec, Z.bits_0.
  destruct (Z.eq_dec i 0) as [->|]; [rewrite Z.testbit_even_0; apply andb_false_r|].
  destruct b; cbn [Z.b2z]; [|now rewrite Z.bits_0]. change 1 with (Z.ones 1) at 1. rewrite Z.ones_spec_high by lia. reflexivity.
Qed.
Lemma shift_step s b : shift_bit poly s b = T (Z.lxor s (Z.b2z b)).
Proof.
  unfold shift_bit, crc_step. rewrite <- !Z.bit0_odd, Z.lxor_spec. assert (Z.testbit (Z.b2z b) 0 = b) as -> by (destruct b; reflexivity).
  rewrite Z.shiftr_lxor. assert (Z.shiftr (Z.b2z b) 1 = 0) as -> by (destruct b; reflexivity). rewrite Z.lxor_0_r.
  rewrite Z.shiftr_div_pow2 by lia. reflexivity.
Qed.
Lemma feed_word bits : forall s, fold_left (shift_bit poly) bits s = Nat.iter (length bits) T (Z.lxor s (word bits)).
Proof.
  induction bits as [|b bits IH]; intros s; cbn [fold_left length word fold_right].
  - cbn [Nat.iter]. now rewrite Z.lxor_0_r.
  - fold (word bits). rewrite IH, shift_step, iter_S. f_equal. rewrite add_lxor, <- Z.lxor_assoc, (step_lxor (Z.lxor s (Z.b2z b))), step_even. reflexivity.
Qed.

Lemma word_byte x : is_byte x -> word (byte_bits x) = x.
Proof.
  intros Hx. assert (G: forallb (fun i => word (byte_bits (Z.of_nat i)) =? Z.of_nat i) (seq 0 256) = true) by (vm_compute; reflexivity).
  rewrite forallb_forall in G. specialize (G (Z.to_nat x)). rewrite Z2Nat.id in G by apply Hx. apply Z.eqb_eq, G.
  apply in_seq. unfold is_byte in Hx. lia.
Qed.
Lemma byte_bits_len x : length (byte_bits x) = 8%nat.
Proof. reflexivity. Qed.

(* the table step is eight bit steps *)
Lemma byte_step acc x : inr n acc -> is_byte x -> crc_byte poly acc x = fold_left (shift_bit poly) (byte_bits x) acc.
Proof.
  intros Ha Hx. rewrite feed_word, word_byte, byte_bits_len by assumption. unfold crc_byte, crc_table.
  set (y := Z.lxor acc x).
  assert (Sy: Z.shiftr acc 8 = Z.shiftr y 8).
  { unfold y. rewrite Z.shiftr_lxor. assert (Z.shiftr x 8 = 0) as ->; [|now rewrite Z.lxor_0_r].
    rewrite Z.shiftr_div_pow2 by lia. apply Z.div_small. exact Hx. }
  rewrite Sy.
  assert (D: y = Z.lxor (Z.shiftr y 8 * 2 ^ Z.of_nat 8) (Z.land y 255)).
  { apply Z.bits_inj'. intros i Hi. change (2 ^ Z.of_nat 8) with (2 ^ 8). rewrite <- Z.shiftl_mul_pow2 by lia.
    rewrite Z.lxor_spec, Z.land_spec. change 255 with (Z.ones 8). destruct (Z.lt_ge_cases i 8) as [L|L].
    - rewrite Z.shiftl_spec_low, Z.ones_spec_low by lia. rewrite andb_true_r. now rewrite xorb_false_l.
    - rewrite Z.shiftl_spec, Z.shiftr_spec, Z.ones_spec_high by lia. rewrite andb_false_r, xorb_false_r. f_equal. lia. }
  rewrite D at 3. rewrite iter_lxor, iter_shift. reflexivity.
Qed.
Lemma shift_inr s b : inr n s -> inr n (shift_bit poly s b).
Proof. intros H. rewrite shift_step. apply step_inr. apply lxor_inr; [lia|assumption|apply b2z_inr]. Qed.
Lemma feed_inr bits : forall s, inr n s -> inr n (fold_left (shift_bit poly) bits s).
Proof. induction bits as [|b bits IH]; intros s H; [assumption|]. cbn [fold_left]. apply IH. now apply shift_inr. Qed.
Lemma fold_bytes bs : forall s, inr n s -> Forall is_byte bs ->
  fold_left (crc_byte poly) bs s = fold_left (shift_bit poly) (concat (map byte_bits bs)) s.
Proof.
  induction bs as [|x bs IH]; intros s H F; [reflexivity|]. apply Forall_cons_iff in F as [F1 F2].
  cbn [fold_left map concat]. rewrite fold_left_app, byte_step by assumption. apply IH; [|assumption]. now apply feed_inr.
Qed.

Lemma write_spec a b : Forall is_byte a -> Forall is_byte b -> digest_write n poly (crc_spec n poly a) b = crc_spec n poly (a ++ b).
Proof.
  intros Fa Fb. unfold digest_write, crc_spec. rewrite map_app, concat_app, fold_left_app.
  assert (I0: inr n (2 ^ n - 1)) by (unfold inr; assert (0 < 2 ^ n) by (apply Z.pow_pos_nonneg; lia); lia).
  set (s := fold_left (shift_bit poly) (concat (map byte_bits a)) (2 ^ n - 1)).
  assert (Is: inr n s) by (now apply feed_inr).
  rewrite (notn_sub n (2 ^ n - 1 - s)) by (unfold inr in *; lia). replace (2 ^ n - 1 - (2 ^ n - 1 - s)) with s by lia.
  rewrite fold_bytes by assumption. rewrite notn_sub; [reflexivity|lia|]. now apply feed_inr.
Qed.
Lemma spec_nil : crc_spec n poly [] = 0.
Proof. unfold crc_spec. cbn [map concat fold_left]. lia. Qed.
Lemma spec_inr m : inr n (crc_spec n poly m).
Proof.
  unfold crc_spec. assert (I0: inr n (2 ^ n - 1)) by (unfold inr; assert (0 < 2 ^ n) by (apply Z.pow_pos_nonneg; lia); lia).
  pose proof (feed_inr (concat (map byte_bits m)) _ I0) as H. unfold inr in *. lia.
Qed.

(** ** bursts *)
Lemma shift_inj b s t : inr n s -> inr n t -> shift_bit poly s b = shift_bit poly t b -> s = t.
Proof.
  intros Hs Ht' E. rewrite !shift_step in E. apply step_inj in E; [|apply lxor_inr; [lia|assumption|apply b2z_inr]..].
  rewrite !(Z.lxor_comm _ (Z.b2z b)) in E. now apply lxor_cancel in E.
Qed.
Lemma feed_inj bits : forall s t, inr n s -> inr n t -> fold_left (shift_bit poly) bits s = fold_left (shift_bit poly) bits t -> s = t.
Proof.
  induction bits as [|b bits IH]; intros s t Hs Ht' E; [assumption|]. cbn [fold_left] in E.
  apply (shift_inj b); [assumption|assumption|]. apply IH; [now apply shift_inr..|assumption].
Qed.
Lemma word_inj a : forall b, length a = length b -> word a = word b -> a = b.
Proof.
  induction a as [|x a IH]; intros [|y b] L E; try discriminate; [reflexivity|]. cbn [word fold_right] in E. fold (word a) (word b) in E.
  assert (x = y) as -> by (destruct x, y; cbn [Z.b2z] in E; (reflexivity || lia)). f_equal. apply IH; [now injection L|lia].
Qed.
Lemma bits_inj a : forall b, Forall is_byte a -> Forall is_byte b -> concat (map byte_bits a) = concat (map byte_bits b) -> a = b.
Proof.
  induction a as [|x a IH]; intros [|y b] Fa Fb E; try discriminate; [reflexivity|].
  apply Forall_cons_iff in Fa as [X1 X2]. apply Forall_cons_iff in Fb as [Y1 Y2]. cbn [map concat] in E.
  assert (E1: byte_bits x = byte_bits y).
  { apply (f_equal (firstn 8)) in E. rewrite !firstn_app, !byte_bits_len, !Nat.sub_diag, !firstn_O, !app_nil_r in E.
    rewrite <- (byte_bits_len x) in E at 1. rewrite firstn_all in E. rewrite <- (byte_bits_len y) in E at 1. now rewrite firstn_all in E. }
  f_equal; [rewrite <- (word_byte x), <- (word_byte y), E1 by assumption; reflexivity|]. apply IH; [assumption..|].
  rewrite E1 in E. now apply app_inv_head in E.
Qed.
Lemma bits_len a : length (concat (map byte_bits a)) = (8 * length a)%nat.
Proof. induction a as [|x a IH]; [reflexivity|]. cbn [map concat length]. rewrite app_length, IH, byte_bits_len. lia. Qed.

Theorem burst pre m m' post : Forall is_byte m -> Forall is_byte m' -> length m = length m' -> 8 * Z.of_nat (length m) <= n -> m <> m' ->
  crc_spec n poly (pre ++ m ++ post) <> crc_spec n poly (pre ++ m' ++ post).
Proof.
  intros F F' L B N E. unfold crc_spec in E. rewrite !map_app, !concat_app, !fold_left_app in E.
  assert (I0: inr n (2 ^ n - 1)) by (unfold inr; assert (0 < 2 ^ n) by (apply Z.pow_pos_nonneg; lia); lia).
  set (s := fold_left (shift_bit poly) (concat (map byte_bits pre)) (2 ^ n - 1)) in *.
  assert (Is: inr n s) by (now apply feed_inr).
  assert (E1: forall x y z, z - x = z - y -> x = y) by (intros; lia). apply E1 in E. clear E1.
  apply feed_inj in E; [|now apply feed_inr..]. rewrite !feed_word, !bits_len, L in E.
  assert (W: forall a, 8 * Z.of_nat (length a) <= n -> inr n (word (concat (map byte_bits a)))).
  { intros a Ha. pose proof (word_inr (concat (map byte_bits a))) as H. rewrite bits_len in H. unfold inr.
    assert (2 ^ Z.of_nat (8 * length a) <= 2 ^ n) by (apply Z.pow_le_mono_r; lia). lia. }
  apply iter_inj in E; [|apply lxor_inr; [lia|assumption|apply W; lia]..]. apply lxor_cancel in E.
  apply N, bits_inj; [assumption..|]. apply word_inj; [rewrite !bits_len; lia|exact E].
Qed.
End step.

Lemma ieee_ok : inr 32 ieee /\ Z.testbit ieee (32 - 1) = true.
Proof. unfold inr. split; [vm_compute; split; [discriminate|reflexivity]|reflexivity]. Qed.
Lemma ecma_ok : inr 64 ecma /\ Z.testbit ecma (64 - 1) = true.
Proof. unfold inr. split; [vm_compute; split; [discriminate|reflexivity]|reflexivity]. Qed.

Lemma write32 a b : Forall is_byte a -> Forall is_byte b -> digest_write 32 ieee (crc32 a) b = crc32 (a ++ b).
Proof. apply write_spec; [lia|apply ieee_ok]. Qed.
Lemma write64 a b : Forall is_byte a -> Forall is_byte b -> digest_write 64 ecma (crc64 a) b = crc64 (a ++ b).
Proof. apply write_spec; [lia|apply ecma_ok]. Qed.
Lemma crc32_nil : crc32 [] = 0. Proof. reflexivity. Qed.
Lemma crc64_nil : crc64 [] = 0. Proof. reflexivity. Qed.
Lemma crc32_range m : 0 <= crc32 m < 2 ^ 32.
Proof. apply (spec_inr 32 ieee); [lia|apply ieee_ok]. Qed.
Lemma crc64_range m : 0 <= crc64 m < 2 ^ 64.
Proof. apply (spec_inr 64 ecma); [lia|apply ecma_ok]. Qed.
Lemma burst32 pre m m' post : Forall is_byte m -> Forall is_byte m' -> length m = length m' -> (length m <= 4)%nat -> m <> m' ->
  crc32 (pre ++ m ++ post) <> crc32 (pre ++ m' ++ post).
Proof. intros F F' L B. apply (burst 32 ieee); try assumption; try apply ieee_ok; lia. Qed.
Lemma burst64 pre m m' post : Forall is_byte m -> Forall is_byte m' -> length m = length m' -> (length m <= 8)%nat -> m <> m' ->
  crc64 (pre ++ m ++ post) <> crc64 (pre ++ m' ++ post).
Proof. intros F F' L B. apply (burst 64 ecma); try assumption; try apply ecma_ok; lia. Qed.
