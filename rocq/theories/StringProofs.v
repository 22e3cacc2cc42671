(* Facts about byte strings: equality, printing and parsing numbers, splitting. *)
From Coq Require Import ZifyBool ZifyNat.
From Verif Require Import Rust BitsProofs.
Ltac Zify.zify_post_hook ::= Z.div_mod_to_equations.

Lemma bytes_eqb_spec a : forall b, bytes_eqb a b = true <-> a = b.
Proof.
  induction a as [|x a IH]; intros [|y b]; cbn; try (split; congruence).
  rewrite andb_true_iff, Z.eqb_eq, IH. split.
  - intros [-> ->]; reflexivity.
  - intros H; injection H; auto.
Qed.
Lemma bytes_eqb_refl a : bytes_eqb a a = true.
Proof. apply bytes_eqb_spec; reflexivity. Qed.
Lemma bytes_eqb_neq a b : a <> b -> bytes_eqb a b = false.
Proof. intros H. destruct (bytes_eqb a b) eqn:E; [|reflexivity]. apply bytes_eqb_spec in E. contradiction. Qed.
Lemma bytes_eq_dec (a b : bytes) : {a = b} + {a <> b}.
Proof. apply (list_eq_dec Z.eq_dec). Qed.

(* printing *)
Lemma char_digit_digit r d : 2 <= r <= 16 -> 0 <= d < r -> char_digit r (digit_char d) = Some d.
Proof.
  intros Hr Hd. unfold char_digit, digit_char.
  destruct (d <? 10) eqn:E1.
  - replace ((48 <=? 48 + d) && (48 + d <=? 57)) with true by lia.
    replace (48 + d - 48) with d by lia.
    replace (d <? r) with true by lia. reflexivity.
  - replace ((48 <=? 87 + d) && (87 + d <=? 57)) with false by lia.
    replace ((97 <=? 87 + d) && (87 + d <=? 122)) with true by lia.
    replace (87 + d - 87) with d by lia.
    replace (d <? r) with true by lia. reflexivity.
Qed.

Lemma parse_to_radix_fuel r max : 2 <= r <= 16 -> forall n z acc, 0 <= z <= max -> z < 2 ^ Z.of_nat n ->
  (0 < n)%nat ->
  parse_digits r max 0 (to_radix_fuel n r z acc) = parse_digits r max z acc.
Proof.
  intros Hr. induction n as [|n IH]; intros z acc Hz Hf Hn; [lia|].
  cbn [to_radix_fuel].
  destruct (z / r =? 0) eqn:E.
  - assert (z < r) by nia. cbn [parse_digits].
    rewrite char_digit_digit by nia.
    replace (0 * r + z mod r) with z by nia.
    replace (z <=? max) with true by lia. reflexivity.
  - assert (0 < z / r) by nia.
    assert (z / r <= z / 2) by (apply Z.div_le_compat_l; lia).
    rewrite IH.
    + cbn [parse_digits]. rewrite char_digit_digit by nia.
      replace (z / r * r + z mod r) with z by nia.
      replace (z <=? max) with true by lia. reflexivity.
    + nia.
    + rewrite Nat2Z.inj_succ, Z.pow_succ_r in Hf by lia. lia.
    + destruct n; [|lia]. cbn in Hf. lia.
Qed.

(* first character of a printed number is a digit *)
Lemma to_radix_fuel_shape r n : forall z acc, 2 <= r <= 16 -> 0 <= z -> (0 < n)%nat ->
  exists ds, to_radix_fuel n r z acc = ds ++ acc /\ ds <> [] /\
    Forall (fun c => 48 <= c <= 57 \/ 97 <= c <= 102) ds.
Proof.
  induction n as [|n IH]; intros z acc Hr Hz Hn; [lia|].
  assert (Hd: forall d, 0 <= d < 16 -> 48 <= digit_char d <= 57 \/ 97 <= digit_char d <= 102).
  { intros d Hd. unfold digit_char. destruct (d <? 10) eqn:E; lia. }
  cbn [to_radix_fuel]. destruct (z / r =? 0) eqn:E.
  - exists [digit_char (z mod r)]. split; [reflexivity|]. split; [congruence|].
    constructor; [|constructor]. apply Hd. nia.
  - destruct n.
    + cbn. exists [digit_char (z mod r)]. split; [reflexivity|]. split; [congruence|].
      constructor; [|constructor]. apply Hd. nia.
    + destruct (IH (z / r) (digit_char (z mod r) :: acc) Hr ltac:(nia) ltac:(lia)) as (ds & -> & H1 & H2).
      exists (ds ++ [digit_char (z mod r)]). split; [rewrite <- app_assoc; reflexivity|].
      split; [destruct ds; cbn; congruence|].
      apply Forall_app; split; [exact H2|]. constructor; [|constructor]. apply Hd. nia.
Qed.

Lemma to_radix_shape r z : 2 <= r <= 16 -> 0 <= z ->
  to_radix r z <> [] /\ Forall (fun c => 48 <= c <= 57 \/ 97 <= c <= 102) (to_radix r z).
Proof.
  intros Hr Hz. unfold to_radix.
  destruct (to_radix_fuel_shape r 129 z [] Hr Hz ltac:(lia)) as (ds & -> & H1 & H2).
  rewrite app_nil_r. auto.
Qed.

Lemma parse_to_radix n r z : 2 <= r <= 16 -> 0 <= n <= 128 -> 0 <= z < 2 ^ n ->
  parse_u n r (to_radix r z) = Some z.
Proof.
  intros Hr Hn Hz.
  assert (2 ^ n <= 2 ^ 129) by (apply Z.pow_le_mono_r; lia).
  pose proof (to_radix_shape r z Hr ltac:(lia)) as [H1 H2].
  unfold parse_u. destruct (to_radix r z) as [|c s] eqn:E; [congruence|].
  pose proof (Forall_inv H2) as Hc. cbn in Hc.
  replace (c =? 43) with false by lia.
  rewrite <- E. unfold to_radix. rewrite parse_to_radix_fuel; [reflexivity|lia|lia| |lia].
  change (Z.of_nat 129) with 129. lia.
Qed.

Lemma to_dec_inj a b : 0 <= a < 2 ^ 64 -> 0 <= b < 2 ^ 64 -> to_dec a = to_dec b -> a = b.
Proof.
  intros Ha Hb H. unfold to_dec in H.
  pose proof (parse_to_radix 64 10 a ltac:(lia) ltac:(lia) Ha) as P1.
  pose proof (parse_to_radix 64 10 b ltac:(lia) ltac:(lia) Hb) as P2. congruence.
Qed.

Lemma parse_dec z : 0 <= z < 2 ^ 64 -> parse_u 64 10 (to_dec z) = Some z.
Proof. intros H. apply parse_to_radix; lia. Qed.

(* decimal digits: 48..57 *)
Lemma to_dec_digits z : 0 <= z -> to_dec z <> [] /\ Forall (fun c => 48 <= c <= 57) (to_dec z).
Proof.
  intros Hz. unfold to_dec, to_radix.
  assert (H: forall n z acc, 0 <= z -> (0 < n)%nat -> Forall (fun c => 48 <= c <= 57) acc ->
    to_radix_fuel n 10 z acc <> [] /\ Forall (fun c => 48 <= c <= 57) (to_radix_fuel n 10 z acc)).
  { induction n as [|n IH]; intros z0 acc H0 Hn Ha; [lia|]. cbn [to_radix_fuel].
    assert (Hd: 48 <= digit_char (z0 mod 10) <= 57).
    { unfold digit_char. destruct (z0 mod 10 <? 10) eqn:E; lia. }
    destruct (z0 / 10 =? 0) eqn:E.
    - split; [congruence|]. constructor; assumption.
    - destruct n.
      + cbn. split; [congruence|]. constructor; assumption.
      + apply IH; [lia|lia|constructor; assumption]. }
  apply H; [lia|lia|constructor].
Qed.

Lemma is_byte_dec z : 0 <= z -> Forall is_byte (to_dec z).
Proof.
  intros H. pose proof (to_dec_digits z H) as [_ F]. eapply Forall_impl; [|exact F].
  cbn. unfold is_byte. lia.
Qed.
