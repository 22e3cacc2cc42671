(* Proofs: the hash of label sets is SipHash-1-3. *)
From Coq Require Import ZifyBool ZifyNat String.
From Verif Require Import Rust StringProofs BitsProofs CrcProofs Labels Hashing HashProofs SipSpec.
Local Notation length := List.length.
Ltac Zify.zify_post_hook ::= idtac.

Lemma lor_sum x d n : 0 <= n -> 0 <= d < 2 ^ n -> Z.lor (x * 2 ^ n) d = x * 2 ^ n + d.
Proof.
  intros Hn Hd. rewrite <- Z.shiftl_mul_pow2 by assumption.
  assert (L: Z.land (Z.shiftl x n) d = 0).
  { apply Z.bits_inj'. intros k Hk. rewrite Z.land_spec, Z.bits_0. destruct (Z_lt_le_dec k n) as [H|H].
    - rewrite Z.shiftl_spec_low by assumption. reflexivity.
    - destruct (Z.eq_dec d 0) as [->|Nz]; [now rewrite Z.bits_0, andb_false_r|].
      rewrite (Z.bits_above_log2 d k), andb_false_r; [reflexivity|lia|]. apply Z.log2_lt_pow2; [lia|]. eapply Z.lt_le_trans; [apply Hd|]. apply Z.pow_le_mono_r; lia. }
  rewrite <- Z.lxor_lor by assumption. symmetry. apply Z.add_nocarry_lxor. exact L.
Qed.
Lemma rot_rotl n x : 0 < n < 64 -> inr 64 x -> rot n x = rotl x n.
Proof.
  unfold inr, rot, w64, rotl. intros Hn Hx. rewrite Z.shiftl_mul_pow2, Z.shiftr_div_pow2 by lia.
  assert (P: 2 ^ 64 = 2 ^ n * 2 ^ (64 - n)) by (rewrite <- Z.pow_add_r by lia; f_equal; lia).
  assert (Pn: 0 < 2 ^ n) by (apply Z.pow_pos_nonneg; lia). assert (Pm: 0 < 2 ^ (64 - n)) by (apply Z.pow_pos_nonneg; lia).
  assert (D: 0 <= x / 2 ^ (64 - n) < 2 ^ n).
  { split; [apply Z.div_pos; lia|]. apply Z.div_lt_upper_bound; [assumption|]. rewrite Z.mul_comm, <- P. apply Hx. }
  rewrite lor_sum by lia.
  assert (M: (x * 2 ^ n) mod 2 ^ 64 = 2 ^ n * (x mod 2 ^ (64 - n))).
  { rewrite P, (Z.mul_comm x). apply Z.mul_mod_distr_l; lia. }
  rewrite <- Z.add_mod_idemp_l, M by lia. apply Z.mod_small.
  pose proof (Z.mod_pos_bound x (2 ^ (64 - n)) Pm) as B. rewrite P. nia.
Qed.
Lemma round_same v : words v -> sip_round v = sipround v.
Proof.
  destruct v as [[[v0 v1] v2] v3]. intros (W0 & W1 & W2 & W3). unfold sip_round, sipround, plus64.
  fold (w64 (v0 + v1)) (w64 (v2 + v3)).
  rewrite <- (rot_rotl 13 v1), <- (rot_rotl 16 v3), <- (rot_rotl 32 (w64 (v0 + v1))) by (try lia; try assumption; apply w64_inr).
  assert (X1: inr 64 (Z.lxor (rot 13 v1) (w64 (v0 + v1)))) by (apply lxor_inr; [lia|apply w64_inr|apply w64_inr]).
  assert (X3: inr 64 (Z.lxor (rot 16 v3) (w64 (v2 + v3)))) by (apply lxor_inr; [lia|apply w64_inr|apply w64_inr]).
  set (a1 := Z.lxor (rot 13 v1) (w64 (v0 + v1))) in *. set (a3 := Z.lxor (rot 16 v3) (w64 (v2 + v3))) in *.
  fold (w64 (w64 (v2 + v3) + a1)) (w64 (rot 32 (w64 (v0 + v1)) + a3)).
  rewrite <- (rot_rotl 17 a1), <- (rot_rotl 21 a3), <- (rot_rotl 32 (w64 (w64 (v2 + v3) + a1))) by (try lia; try assumption; apply w64_inr).
  reflexivity.
Qed.
Lemma word_words v m : words v -> inr 64 m -> words (sip_word v m) /\ sip_word v m = compress v m.
Proof.
  destruct v as [[[v0 v1] v2] v3]. intros (W0 & W1 & W2 & W3) Hm. unfold sip_word, compress.
  assert (W: words (v0, v1, v2, Z.lxor v3 m)) by (split; [assumption|]; split; [assumption|]; split; [assumption|]; apply lxor_inr; [lia|assumption|assumption]).
  rewrite <- (round_same _ W). pose proof (round_words (v0, v1, v2, Z.lxor v3 m)) as R.
  destruct (sip_round (v0, v1, v2, Z.lxor v3 m)) as [[[u0 u1] u2] u3]. destruct R as (R0 & R1 & R2 & R3). split; [|reflexivity].
  split; [apply lxor_inr; [lia|assumption|assumption]|]. auto.
Qed.

(* the message ended by [len] *)
Definition ended (len : Z) (b : bytes) : bytes := b ++ repeat 0 (7 - length b mod 8) ++ [len mod 256].
Definition split_words (p : bytes) : list Z := map (word p) (seq 0 (length p / 8)).
Lemma word_next x0 x1 x2 x3 x4 x5 x6 x7 p i : word (x0 :: x1 :: x2 :: x3 :: x4 :: x5 :: x6 :: x7 :: p) (S i) = word p i.
Proof.
  unfold word. assert (E: forall j, nth (8 * S i + j) (x0 :: x1 :: x2 :: x3 :: x4 :: x5 :: x6 :: x7 :: p) 0 = nth (8 * i + j) p 0).
  { intros j. replace (8 * S i + j)%nat with (S (S (S (S (S (S (S (S (8 * i + j))))))))) by lia. reflexivity. }
  cbn [seq fold_right]. now rewrite !E.
Qed.
Lemma split_next x0 x1 x2 x3 x4 x5 x6 x7 p :
  split_words (x0 :: x1 :: x2 :: x3 :: x4 :: x5 :: x6 :: x7 :: p) =
  le_word [x0; x1; x2; x3; x4; x5; x6; x7] :: split_words p.
Proof.
  unfold split_words. cbn [length]. replace (S (S (S (S (S (S (S (S (length p)))))))) / 8)%nat with (S (length p / 8)).
  2: { replace (S (S (S (S (S (S (S (S (length p))))))))) with (length p + 1 * 8)%nat by lia. rewrite Nat.div_add by lia. lia. }
  cbn [seq map]. f_equal; [unfold word; cbn [seq fold_right nth Nat.mul Nat.add le_word]; change (256 ^ Z.of_nat 0) with 1;
    change (256 ^ Z.of_nat 1) with 256; change (256 ^ Z.of_nat 2) with 65536; change (256 ^ Z.of_nat 3) with 16777216; change (256 ^ Z.of_nat 4) with 4294967296;
    change (256 ^ Z.of_nat 5) with 1099511627776; change (256 ^ Z.of_nat 6) with 281474976710656; change (256 ^ Z.of_nat 7) with 72057594037927936; lia|].
  rewrite <- seq_shift, map_map. apply map_ext. intros i. apply word_next.
Qed.
Lemma le_inr b : Forall is_byte b -> (length b <= 8)%nat -> inr 64 (le_word b).
Proof.
  intros F H. assert (K: 0 <= le_word b < 256 ^ Z.of_nat (length b)).
  { clear H. induction F as [|x b Hx F IH]; [cbn; lia|]. cbn [le_word length]. rewrite Nat2Z.inj_succ, Z.pow_succ_r by lia. unfold is_byte in Hx. lia. }
  unfold inr. split; [lia|]. change (2 ^ 64) with (256 ^ 8). eapply Z.lt_le_trans; [apply K|]. apply Z.pow_le_mono_r; lia.
Qed.
Lemma words_same fuel : forall len b v, (length b < fuel)%nat -> Forall is_byte b -> words v ->
  words (sip_words fuel len b v) /\ sip_words fuel len b v = fold_left compress (split_words (ended len b)) v.
Proof.
  induction fuel as [|f IH]; intros len b v L F W; [lia|]. cbn [sip_words]. destruct (8 <=? length b)%nat eqn:E8.
  - destruct b as [|x0 [|x1 [|x2 [|x3 [|x4 [|x5 [|x6 [|x7 b]]]]]]]]; cbn [length] in E8; try discriminate E8.
    assert (F8: Forall is_byte [x0; x1; x2; x3; x4; x5; x6; x7] /\ Forall is_byte b).
    { apply (Forall_app is_byte [x0; x1; x2; x3; x4; x5; x6; x7] b). exact F. }
    cbn [firstn skipn]. destruct (word_words v (le_word [x0; x1; x2; x3; x4; x5; x6; x7]) W) as [W1 E1]; [apply le_inr; [apply F8|cbn; lia]|].
    destruct (IH len b _ ltac:(cbn [length] in L; lia) (proj2 F8) W1) as [W2 E2]. split; [exact W2|]. rewrite E2.
    assert (Ee: ended len (x0 :: x1 :: x2 :: x3 :: x4 :: x5 :: x6 :: x7 :: b) = x0 :: x1 :: x2 :: x3 :: x4 :: x5 :: x6 :: x7 :: ended len b).
    { unfold ended. cbn [length app]. replace (S (S (S (S (S (S (S (S (length b)))))))) mod 8)%nat with (length b mod 8)%nat; [reflexivity|].
      replace (S (S (S (S (S (S (S (S (length b))))))))) with (length b + 1 * 8)%nat by lia. now rewrite Nat.mod_add by lia. }
    rewrite Ee, split_next. cbn [fold_left]. now rewrite E1.
  - assert (Hm: split_words (ended len b) = [le_word b + 2 ^ 56 * (len mod 256)]).
    { destruct b as [|x0 [|x1 [|x2 [|x3 [|x4 [|x5 [|x6 [|x7 b]]]]]]]]; cbn [length] in E8; try discriminate E8;
        unfold ended; cbn [length app]; change (0 mod 8)%nat with 0%nat; change (1 mod 8)%nat with 1%nat; change (2 mod 8)%nat with 2%nat; change (3 mod 8)%nat with 3%nat;
        change (4 mod 8)%nat with 4%nat; change (5 mod 8)%nat with 5%nat; change (6 mod 8)%nat with 6%nat; change (7 mod 8)%nat with 7%nat;
        cbn [Nat.sub repeat app]; rewrite split_next; (f_equal; [cbn [le_word]; change (2 ^ 56) with 72057594037927936; lia]). }
    rewrite Hm. cbn [fold_left].
    assert (Hr: inr 64 (le_word b + 2 ^ 56 * (len mod 256))).
    { assert (K: 0 <= le_word b < 256 ^ Z.of_nat (length b)).
      { clear -F. induction F as [|x b Hx F IH]; [cbn; lia|]. cbn [le_word length]. rewrite Nat2Z.inj_succ, Z.pow_succ_r by lia. unfold is_byte in Hx. lia. }
      assert (K7: 256 ^ Z.of_nat (length b) <= 256 ^ 7) by (apply Z.pow_le_mono_r; lia).
      pose proof (Z.mod_pos_bound len 256 ltac:(lia)) as Lm. unfold inr. change (2 ^ 64) with (2 ^ 56 * 256). change (256 ^ 7) with (2 ^ 56) in K7.
      change (2 ^ 56) with 72057594037927936 in *. lia. }
    now apply word_words.
Qed.
Theorem sip13_siphash b : Forall is_byte b -> sip13 b = siphash13 b.
Proof.
  intros F. unfold sip13, siphash13. set (v := (8317987319222330741, 7237128888997146477, 7816392313619706465, 8387220255154660723)).
  assert (Ev: (from_be (s2b "somepseu"), from_be (s2b "dorandom"), from_be (s2b "lygenera"), from_be (s2b "tedbytes")) = v) by (vm_compute; reflexivity).
  rewrite Ev.
  assert (W: words v) by (unfold words, v, inr; repeat split; lia). clearbody v.
  destruct (words_same (S (length b)) (Z.of_nat (length b)) b v ltac:(lia) F W) as [W1 E1]. change (message b) with (split_words (ended (Z.of_nat (length b)) b)).
  rewrite <- E1. destruct (sip_words (S (length b)) (Z.of_nat (length b)) b v) as [[[v0 v1] v2] v3]. destruct W1 as (R0 & R1 & R2 & R3).
  assert (W2: words (v0, v1, Z.lxor v2 255, v3)).
  { split; [assumption|]. split; [assumption|]. split; [|assumption]. apply lxor_inr; [lia|assumption|unfold inr; lia]. }
  rewrite <- (round_same _ W2), <- (round_same (sip_round (v0, v1, Z.lxor v2 255, v3))) by apply round_words. rewrite <- round_same by apply round_words. reflexivity.
Qed.
Lemma fed_text ls : labels_fed ls = List.concat (map (fun l => l_key l ++ [255] ++ l_val l ++ [255]) ls).
Proof.
  induction ls as [|l ls IH]; [reflexivity|]. cbn [labels_fed map List.concat]. rewrite IH. unfold label_fed, hash_text. now rewrite <- !app_assoc.
Qed.
Theorem get_hash_siphash ls : Forall (fun l => Forall is_byte (l_key l) /\ Forall is_byte (l_val l)) ls ->
  get_hash ls = siphash13 (List.concat (map (fun l => l_key l ++ [255] ++ l_val l ++ [255]) ls)).
Proof.
  intros F. unfold get_hash. rewrite fed_text. apply sip13_siphash. induction F as [|l ls [H1 H2] F IH]; [constructor|]. cbn [map List.concat].
  assert (O: Forall is_byte [255]) by (constructor; [unfold is_byte; lia|constructor]). repeat (apply Forall_app; split); assumption.
Qed.
