(* Proofs about the wire messages: sizes, and reading back what was written. *)
From Coq Require Import ZifyBool ZifyNat.
From Verif Require Import Rust Proto ProtoSpec.

Lemma sum_app a b : sum (a ++ b) = sum a + sum b.
Proof. induction a as [|x a IH]; cbn; [reflexivity|]. unfold sum in *. lia. Qed.

(* ------------------------------------------------------------------ *)
(** * Numbers *)

Lemma varint_length n z : Z.of_nat (length (varint n z)) = varint_size n z.
Proof.
  revert z. induction n as [|n IH]; intros z; cbn [varint varint_size]; [reflexivity|].
  destruct (z <? 128); cbn [length]; [reflexivity|]. specialize (IH (z / 128)). lia.
Qed.
Lemma varint_size_nonneg n z : 0 <= varint_size n z.
Proof. rewrite <- varint_length. lia. Qed.
Lemma varint_size_pos n z : 1 <= varint_size (S n) z.
Proof. cbn [varint_size]. destruct (z <? 128); [lia|]. pose proof (varint_size_nonneg n (z / 128)). lia. Qed.
Lemma varint_bytes n z : 0 <= z -> Forall is_byte (varint n z).
Proof.
  revert z. induction n as [|n IH]; intros z Hz; cbn [varint]; [constructor|].
  destruct (z <? 128) eqn:E.
  - constructor; [red; lia|constructor].
  - constructor; [red; pose proof (Z.mod_pos_bound z 128); lia|]. apply IH. apply Z.div_pos; lia.
Qed.

Lemma read_varint_ok n : forall k shift acc z rest,
  0 <= z < 2 ^ (7 * Z.of_nat n) -> (n <= k)%nat -> (0 < n)%nat -> 0 <= shift ->
  read_varint k shift acc (varint n z ++ rest) = Some ((acc + z * 2 ^ shift) mod 2 ^ 64, rest).
Proof.
  induction n as [|n IH]; intros k shift acc z rest Hz Hk Hn Hs; [lia|].
  destruct k as [|k]; [lia|]. cbn [varint].
  destruct (z <? 128) eqn:E.
  - cbn [app read_varint]. rewrite E. rewrite (Z.mod_small z 128) by lia. reflexivity.
  - cbn [app read_varint]. pose proof (Z.mod_pos_bound z 128).
    replace (z mod 128 + 128 <? 128) with false by lia.
    destruct n as [|n].
    + exfalso. change (2 ^ (7 * Z.of_nat 1)) with 128 in Hz. lia.
    + replace ((z mod 128 + 128) mod 128) with (z mod 128).
      2:{ replace (z mod 128 + 128) with (z mod 128 + 1 * 128) by lia. rewrite Z.mod_add by lia. symmetry. apply Z.mod_mod. lia. }
      rewrite IH; try lia.
      * f_equal. f_equal. f_equal. rewrite Z.pow_add_r by lia. pose proof (Z.div_mod z 128).
        replace (2 ^ 7) with 128 by reflexivity. nia.
      * split; [apply Z.div_pos; lia|]. apply Z.div_lt_upper_bound; [lia|].
        replace (7 * Z.of_nat (S (S n))) with (7 + 7 * Z.of_nat (S n)) in Hz by lia.
        rewrite Z.pow_add_r in Hz by lia. change (2 ^ 7) with 128 in Hz. lia.
Qed.
Lemma read_varint64_ok z rest : 0 <= z < 2 ^ 64 -> read_varint64 (varint64 z ++ rest) = Some (z, rest).
Proof.
  intros H. unfold read_varint64, varint64. rewrite read_varint_ok; try lia.
  rewrite Z.add_0_l, Z.pow_0_r, Z.mul_1_r, Z.mod_small by lia. reflexivity.
Qed.
Lemma read_varint64_of32 z rest : 0 <= z < 2 ^ 32 -> read_varint64 (varint32 z ++ rest) = Some (z, rest).
Proof.
  intros H. unfold read_varint64, varint32. rewrite read_varint_ok; try lia.
  rewrite Z.add_0_l, Z.pow_0_r, Z.mul_1_r, Z.mod_small by lia. reflexivity.
Qed.
Lemma read_varint32_ok z rest : 0 <= z < 2 ^ 32 -> read_varint32 (varint32 z ++ rest) = Some (z, rest).
Proof. intros H. unfold read_varint32. rewrite read_varint64_of32 by assumption. rewrite Z.mod_small by lia. reflexivity. Qed.

Lemma varint_ne n z rest : varint (S n) z ++ rest <> [].
Proof. cbn [varint]. destruct (z <? 128); discriminate. Qed.
Lemma tag_ne n wt rest : tag n wt ++ rest <> [].
Proof. apply varint_ne. Qed.
Lemma read_tag_ok n wt rest : 0 < n < 2 ^ 29 -> 0 <= wt <= 5 -> read_tag (tag n wt ++ rest) = Some (n, wt, rest).
Proof.
  intros Hn Hw. unfold read_tag, tag. rewrite read_varint32_ok by lia.
  replace ((n * 8 + wt) mod 8) with wt. 2:{ rewrite Z.add_comm, Z.mod_add by lia. symmetry. apply Z.mod_small. lia. }
  replace ((n * 8 + wt) / 8) with n. 2:{ rewrite Z.add_comm, Z.div_add, Z.div_small by lia. lia. }
  replace ((wt <=? 5) && negb (n =? 0)) with true by lia. reflexivity.
Qed.
Lemma varint_size_same n : forall a b, 0 <= a -> 0 <= b -> a / 8 = b / 8 -> varint_size n a = varint_size n b.
Proof.
  induction n as [|n IH]; intros a b Ha Hb H; cbn [varint_size]; [reflexivity|].
  pose proof (Z.div_mod a 8) as Xa. pose proof (Z.div_mod b 8) as Xb. pose proof (Z.mod_pos_bound a 8). pose proof (Z.mod_pos_bound b 8).
  assert (D: a / 128 = b / 128).
  { replace 128 with (8 * 16) by reflexivity. rewrite <- !Z.div_div by lia. rewrite H. reflexivity. }
  replace (b <? 128) with (a <? 128) by lia. destruct (a <? 128); [reflexivity|]. rewrite D. reflexivity.
Qed.
Lemma tag_length n wt : 0 <= n -> 0 <= wt <= 5 -> Z.of_nat (length (tag n wt)) = tag_size n.
Proof.
  intros Hn Hw. unfold tag, tag_size, varint32, varint32_size. rewrite varint_length.
  apply varint_size_same; lia.
Qed.

Lemma le_length n z : length (le_bytes n z) = n.
Proof. revert z. induction n as [|n IH]; intros z; cbn [le_bytes length]; [reflexivity|]. rewrite IH. reflexivity. Qed.
Lemma from_le_ok n : forall z, 0 <= z < 256 ^ Z.of_nat n -> from_le (le_bytes n z) = z.
Proof.
  induction n as [|n IH]; intros z H; cbn [le_bytes from_le]. { cbn in H. lia. }
  rewrite IH. { pose proof (Z.div_mod z 256). lia. }
  split; [apply Z.div_pos; lia|]. apply Z.div_lt_upper_bound; [lia|].
  replace (Z.of_nat (S n)) with (1 + Z.of_nat n) in H by lia. rewrite Z.pow_add_r in H by lia. lia.
Qed.
Lemma read_bytes_ok b rest : read_bytes (Z.of_nat (length b)) (b ++ rest) = Some (b, rest).
Proof.
  unfold read_bytes. rewrite app_length. replace (Z.of_nat (length b + length rest) <? Z.of_nat (length b)) with false by lia.
  rewrite Nat2Z.id, firstn_app, Nat.sub_diag, firstn_all, firstn_O, app_nil_r.
  rewrite skipn_app, Nat.sub_diag, skipn_all. reflexivity.
Qed.
Lemma read_fixed_ok n z rest : 0 <= z < 256 ^ Z.of_nat n -> read_fixed n (le_bytes n z ++ rest) = Some (z, rest).
Proof.
  intros H. unfold read_fixed. pose proof (read_bytes_ok (le_bytes n z) rest) as X. rewrite le_length in X. rewrite X.
  rewrite from_le_ok by assumption. reflexivity.
Qed.

(* ------------------------------------------------------------------ *)
(** * Unknown fields *)

Lemma unknown_length u : 0 <= fst u -> Z.of_nat (length (write_unknown u)) = unknown_size u.
Proof.
  destruct u as [n v]. cbn [fst]. intros H. unfold write_unknown, unknown_size. cbn [fst snd].
  destruct v as [z|z|z|b]; rewrite ?app_length, ?Nat2Z.inj_add, (tag_length n) by (unfold WVarint, WFixed64, WFixed32, WLen; lia).
  - unfold varint64, varint64_size. rewrite varint_length. reflexivity.
  - rewrite le_length. reflexivity.
  - rewrite le_length. reflexivity.
  - unfold varint32, varint32_size. rewrite varint_length. reflexivity.
Qed.
Lemma unknowns_length k u : 0 <= k -> unk_ok k u -> Z.of_nat (length (write_unknowns u)) = unknowns_size u.
Proof.
  intros Hk H. induction H as [|x u [Hx _] H IH]; [reflexivity|].
  unfold write_unknowns, unknowns_size in *. cbn [map concat sum fold_right]. rewrite app_length, Nat2Z.inj_add, IH, unknown_length by lia.
  reflexivity.
Qed.
Lemma unknowns_size_nonneg u : 0 <= unknowns_size u.
Proof.
  induction u as [|[n v] u IH]; [reflexivity|]. unfold unknowns_size in *. cbn [map sum fold_right].
  assert (0 <= unknown_size (n, v)).
  { unfold unknown_size, tag_size, varint32_size, varint64_size. pose proof (varint_size_nonneg 5 (fst (n, v) * 8)).
    destruct v as [z|z|z|b]; cbn [snd]; try lia.
    - pose proof (varint_size_nonneg 10 z). lia.
    - pose proof (varint_size_nonneg 5 (Z.of_nat (length b))). lia. }
  unfold sum in IH. lia.
Qed.

(* ------------------------------------------------------------------ *)
(** * The loop *)

Section Eats.
  Context {M : Type}.
  Variable field : Z -> Z -> Z -> bytes -> M -> M * option bytes.
  (* reading [b] turns m into m' *)
  Definition eats (b : bytes) (m m' : M) : Prop :=
    forall short rest n, 0 <= short -> (length (b ++ rest) < n)%nat ->
      exists n', (length rest < n')%nat /\ fields field n short (b ++ rest) m = fields field n' short rest m'.
  Lemma eats_nil m : eats [] m m.
  Proof. intros short rest n Hs Hn. exists n. split; [exact Hn|reflexivity]. Qed.
  Lemma eats_app a b m1 m2 m3 : eats a m1 m2 -> eats b m2 m3 -> eats (a ++ b) m1 m3.
  Proof.
    intros Ha Hb short rest n Hs Hn. rewrite <- app_assoc in *. destruct (Ha short (b ++ rest) n Hs Hn) as (n1 & H1 & E1).
    destruct (Hb short rest n1 Hs H1) as (n2 & H2 & E2). exists n2. split; [exact H2|]. congruence.
  Qed.
  Lemma eats_field number wt b m m' : 0 < number < 2 ^ 29 -> 0 <= wt <= 5 ->
    (forall short rest, 0 <= short -> field short number wt (b ++ rest) m = (m', Some rest)) ->
    eats (tag number wt ++ b) m m'.
  Proof.
    intros Hn Hw H short rest n Hs Hlen. destruct n as [|n]; [lia|]. exists n.
    rewrite <- app_assoc in *. assert (P: (1 <= length (tag number wt))%nat).
    { destruct (tag number wt) as [|x l] eqn:E; [|cbn; lia]. exfalso. apply (tag_ne number wt []). rewrite E. reflexivity. }
    rewrite !app_length in Hlen. split; [lia|]. cbn [fields].
    destruct (tag number wt ++ b ++ rest) as [|x l] eqn:E. { exfalso. exact (tag_ne _ _ _ E). }
    rewrite <- E, read_tag_ok by assumption. rewrite H by assumption. reflexivity.
  Qed.
  Lemma eats_reads b m m' short : 0 <= short -> eats b m m' -> reads field short b m = (m', true).
  Proof.
    intros Hs H. unfold reads. destruct (H short [] (S (length b)) Hs) as (n' & Hn & E). { rewrite app_nil_r. lia. }
    rewrite app_nil_r in E. rewrite E. destruct n' as [|n']; [cbn in Hn; lia|]. reflexivity.
  Qed.
  Lemma eats_opt (c : bool) b m m' m1 : eats b m m' -> (c = true -> m1 = m') -> (c = false -> m1 = m) -> eats (opt c b) m m1.
  Proof. intros H H1 H2. destruct c; cbn [opt]; [rewrite H1 by reflexivity; exact H|rewrite H2 by reflexivity; apply eats_nil]. Qed.
  Lemma eats_list {A} (f : A -> bytes) (put : M -> A -> M) l : forall m,
    (forall a m, In a l -> eats (f a) m (put m a)) -> eats (concat (map f l)) m (fold_left put l m).
  Proof.
    induction l as [|a l IH]; intros m H; cbn [map concat fold_left]; [apply eats_nil|].
    apply eats_app with (m2 := put m a); [apply H; left; reflexivity|]. apply IH. intros b m' Hb. apply H. right. exact Hb.
  Qed.
  (* unknown fields *)
  Lemma eats_unknowns known (add : M -> unknowns -> M) (get : M -> unknowns) u m :
    0 <= known -> unk_ok known u ->
    (forall short number wt b m, known < number -> wt <> WStartGroup ->
       field short number wt b m = match read_unknown wt b with
                                   | Some (x, b') => (add m [(number, x)], Some b')
                                   | None => (m, None)
                                   end) ->
    (forall m, add m [] = m) -> (forall m a b, add (add m a) b = add m (a ++ b)) -> unknowns_size u < 2 ^ 32 ->
    eats (write_unknowns u) m (add m u).
  Proof.
    intros Hk Hu Hf H0 Ha. revert m. induction Hu as [|[n v] u [Hn Hv] Hu IH]; intros m Hsz.
    { rewrite H0. apply eats_nil. }
    change (write_unknowns ((n, v) :: u)) with (write_unknown (n, v) ++ write_unknowns u).
    assert (Hsz': unknown_size (n, v) + unknowns_size u < 2 ^ 32) by exact Hsz.
    pose proof (unknowns_size_nonneg u).
    assert (Hnn: 0 <= unknown_size (n, v)). { rewrite <- unknown_length by (cbn [fst] in *; lia). lia. }
    replace ((n, v) :: u) with ([(n, v)] ++ u) by reflexivity. rewrite <- Ha.
    apply eats_app with (m2 := add m [(n, v)]); [|apply IH; lia].
    cbn [fst snd] in *. unfold write_unknown. cbn [fst snd].
    destruct v as [z|z|z|b]; apply eats_field; try lia; try (unfold WVarint, WFixed64, WFixed32, WLen; lia);
      intros short rest Hs; rewrite Hf by (try discriminate; lia); unfold read_unknown; cbn [Z.eqb WVarint WFixed64 WFixed32 WLen].
    - rewrite read_varint64_ok by exact Hv. reflexivity.
    - change (1 =? 0) with false. cbn [Z.eqb]. rewrite read_fixed_ok by exact Hv. reflexivity.
    - change (5 =? 0) with false. change (5 =? 1) with false. cbn [Z.eqb]. rewrite read_fixed_ok by exact Hv. reflexivity.
    - change (2 =? 0) with false. change (2 =? 1) with false. change (2 =? 5) with false.
      rewrite <- app_assoc. rewrite read_varint32_ok.
      + rewrite read_bytes_ok. reflexivity.
      + unfold unknown_size in Hsz'. cbn [fst snd] in Hsz'. unfold tag_size, varint32_size in Hsz'.
        pose proof (varint_size_nonneg 5 (n * 8)). pose proof (varint_size_nonneg 5 (Z.of_nat (length b))). lia.
  Qed.
End Eats.
Arguments eats {M} field b m m'.

Lemma unknown_field number wt b u : wt <> WStartGroup ->
  read_unknown_or_skip_group number wt b u =
  match read_unknown wt b with Some (x, b') => (u ++ [(number, x)], Some b') | None => (u, None) end.
Proof. intros H. unfold read_unknown_or_skip_group. replace (wt =? WStartGroup) with false by lia. reflexivity. Qed.

(* ------------------------------------------------------------------ *)
(** * Kinds of fields *)

Lemma wraps_u z : i64 z -> wraps 64 (wrapu 64 z) = z.
Proof.
  unfold i64, wraps, wrapu. intros H. change (64 - 1) with 63. rewrite Z.mod_mod by lia.
  destruct (z mod 2 ^ 64 <? 2 ^ 63) eqn:E; lia.
Qed.
Lemma wrapu_range z : 0 <= wrapu 64 z < 2 ^ 64.
Proof. unfold wrapu. apply Z.mod_pos_bound. lia. Qed.
Lemma int64_length n z : 0 <= n -> Z.of_nat (length (w_int64 n z)) = int64_size n z.
Proof.
  intros H. unfold w_int64, int64_size. rewrite app_length, Nat2Z.inj_add, tag_length by (unfold WVarint; lia).
  unfold varint64, varint64_size. rewrite varint_length. reflexivity.
Qed.
Lemma string_length n s : 0 <= n -> Z.of_nat (length (w_string n s)) = string_size n s.
Proof.
  intros H. unfold w_string, string_size. rewrite !app_length, !Nat2Z.inj_add, tag_length by (unfold WLen; lia).
  unfold varint32, varint32_size. rewrite varint_length. lia.
Qed.
Lemma message_length n len body : 0 < n < 16 -> Z.of_nat (length body) = len ->
  Z.of_nat (length (w_message n len body)) = message_size len.
Proof.
  intros H E. unfold w_message, message_size. rewrite !app_length, !Nat2Z.inj_add, tag_length by (unfold WLen; lia).
  unfold varint32, tag_size, varint32_size. rewrite varint_length, E.
  assert (varint_size 5 (n * 8) = 1) as ->; [|lia]. cbn [varint_size]. replace (n * 8 <? 128) with true by lia. reflexivity.
Qed.
Lemma opt_length c b z : Z.of_nat (length b) = z -> Z.of_nat (length (opt c b)) = optz c z.
Proof. destruct c; [intros H; exact H|reflexivity]. Qed.
Lemma concat_length {A} (f : A -> bytes) (g : A -> Z) l :
  (forall x, In x l -> Z.of_nat (length (f x)) = g x) -> Z.of_nat (length (concat (map f l))) = sum (map g l).
Proof.
  induction l as [|a l IH]; intros H; [reflexivity|]. cbn [map concat sum fold_right]. rewrite app_length, Nat2Z.inj_add.
  rewrite H by (left; reflexivity). rewrite IH; [reflexivity|]. intros x Hx. apply H. right. exact Hx.
Qed.

Lemma read_int64_ok z rest old : i64 z -> read_int64 WVarint (varint64 (wrapu 64 z) ++ rest) old = (z, Some rest).
Proof.
  intros H. unfold read_int64. change (WVarint =? WVarint) with true. cbn match.
  rewrite read_varint64_ok by apply wrapu_range. rewrite wraps_u by assumption. reflexivity.
Qed.
Lemma read_string_ok s rest old : utf8 s = true -> Z.of_nat (length s) < 2 ^ 32 ->
  read_string WLen ((varint32 (Z.of_nat (length s)) ++ s) ++ rest) old = (s, Some rest).
Proof.
  intros H Hl. unfold read_string. change (WLen =? WLen) with true. cbn match. rewrite <- app_assoc.
  rewrite read_varint32_ok by lia. rewrite read_bytes_ok, H. reflexivity.
Qed.
Lemma read_double_ok z rest old : 0 <= z < 2 ^ 64 -> read_double WFixed64 (le_bytes 8 z ++ rest) old = (z, Some rest).
Proof. intros H. unfold read_double. change (WFixed64 =? WFixed64) with true. cbn match. rewrite read_fixed_ok by exact H. reflexivity. Qed.
Lemma merge_message_ok {A} (r : reader A) short body size a a' rest :
  0 <= short -> Z.of_nat (length body) = size -> size < 2 ^ 32 -> (forall short, 0 <= short -> r short body a = (a', true)) ->
  merge_message r short ((varint32 size ++ body) ++ rest) a = (a', Some rest).
Proof.
  intros Hs E Hl H. unfold merge_message. rewrite <- app_assoc, read_varint64_of32 by lia.
  rewrite app_length, Nat2Z.inj_add. replace (Z.of_nat (length body) + Z.of_nat (length rest) + short <? size) with false by lia.
  replace (Z.to_nat (Z.min size (Z.of_nat (length body) + Z.of_nat (length rest)))) with (length body) by lia.
  rewrite firstn_app, Nat.sub_diag, firstn_all, firstn_O, app_nil_r. rewrite skipn_app, Nat.sub_diag, skipn_all.
  rewrite H by lia. reflexivity.
Qed.
Lemma message_size_lt len : 0 <= len -> len < message_size len.
Proof. intros H. unfold message_size, varint32_size. pose proof (varint_size_nonneg 5 len). lia. Qed.
Lemma sum_in {A} (g : A -> Z) l x : (forall y, In y l -> 0 <= g y) -> In x l -> g x <= sum (map g l).
Proof.
  induction l as [|a l IH]; intros H Hx; [destruct Hx|]. cbn [map sum fold_right].
  assert (0 <= sum (map g l)).
  { clear - H. induction l as [|b l IH]; [reflexivity|]. cbn [map sum fold_right]. unfold sum in *. pose proof (H b (or_intror (or_introl eq_refl))).
    assert (0 <= fold_right Z.add 0 (map g l)); [|lia]. apply IH. intros y [->|Hy]; apply H; [left; reflexivity|right; right; exact Hy]. }
  unfold sum in *. pose proof (H a (or_introl eq_refl)). destruct Hx as [->|Hx]; [lia|].
  specialize (IH (fun y Hy => H y (or_intror Hy)) Hx). lia.
Qed.
Lemma sum_nonneg {A} (g : A -> Z) l : (forall y, In y l -> 0 <= g y) -> 0 <= sum (map g l).
Proof.
  intros H. induction l as [|b l IH]; [reflexivity|]. cbn [map sum fold_right]. pose proof (H b (or_introl eq_refl)).
  unfold sum in *. assert (0 <= fold_right Z.add 0 (map g l)); [|lia]. apply IH. intros y Hy. apply H. right. exact Hy.
Qed.
