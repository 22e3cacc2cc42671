From Verif Require Import Rust Bstream BitSpec.
From Coq Require Import ZifyBool ZifyNat.
Ltac Zify.zify_post_hook ::= Z.div_mod_to_equations.

Lemma is_byte_high b k : is_byte b -> 8 <= k -> Z.testbit b k = false.
Proof.
  intros [H0 H1] Hk. destruct (Z.eq_dec b 0) as [->|Hn]; [apply Z.bits_0|].
  apply Z.bits_above_log2; [lia|].
  assert (Z.log2 b < 8) by (apply Z.log2_lt_pow2; lia). lia.
Qed.

Lemma byte_range_bits b : 0 <= b -> (forall k, 8 <= k -> Z.testbit b k = false) -> is_byte b.
Proof.
  intros H0 Hk. split; [lia|].
  destruct (Z.eq_dec b 0) as [->|Hn]; [lia|].
  destruct (Z_lt_le_dec b 256) as [|Hge]; [lia|].
  exfalso. assert (Hl : 8 <= Z.log2 b) by (apply Z.log2_le_pow2; lia).
  specialize (Hk _ Hl). rewrite Z.bit_log2 in Hk by lia. discriminate.
Qed.

Lemma wrapu8_byte z : is_byte (wrapu 8 z).
Proof. unfold wrapu, is_byte. change (2 ^ 8) with 256. lia. Qed.

Lemma wrapu8_testbit z k : 0 <= k -> Z.testbit (wrapu 8 z) k = (k <? 8) && Z.testbit z k.
Proof.
  intros Hk. unfold wrapu.
  destruct (Z.ltb_spec k 8).
  - rewrite Z.mod_pow2_bits_low by lia. reflexivity.
  - rewrite Z.mod_pow2_bits_high by lia. reflexivity.
Qed.

Lemma lor_byte a b : is_byte a -> is_byte b -> is_byte (Z.lor a b).
Proof.
  intros Ha Hb. apply byte_range_bits.
  - apply Z.lor_nonneg. destruct Ha, Hb; lia.
  - intros k Hk. rewrite Z.lor_spec, (is_byte_high a), (is_byte_high b) by assumption. reflexivity.
Qed.

Lemma land_byte a b : is_byte a -> is_byte b -> is_byte (Z.land a b).
Proof.
  intros Ha Hb. apply byte_range_bits.
  - apply Z.land_nonneg. destruct Ha; lia.
  - intros k Hk. rewrite Z.land_spec, (is_byte_high a) by assumption. reflexivity.
Qed.

Lemma shiftr_byte a s : is_byte a -> 0 <= s -> is_byte (Z.shiftr a s).
Proof.
  intros Ha Hs. apply byte_range_bits.
  - apply Z.shiftr_nonneg. destruct Ha; lia.
  - intros k Hk. rewrite Z.shiftr_spec by lia. apply is_byte_high; [assumption|lia].
Qed.

(* byte arithmetic in terms of bit lists *)
Ltac cases8 r :=
  let H := fresh in
  assert (H : r = 0 \/ r = 1 \/ r = 2 \/ r = 3 \/ r = 4 \/ r = 5 \/ r = 6 \/ r = 7) by lia;
  destruct H as [H|[H|[H|[H|[H|[H|[H|H]]]]]]]; subst r.

Ltac bitnorm :=
  repeat first
    [ rewrite wrapu8_testbit by lia
    | rewrite Z.lor_spec | rewrite Z.land_spec
    | rewrite Z.shiftr_spec by lia | rewrite Z.shiftl_spec by lia ].

Ltac gbits x :=
  generalize (Z.testbit x 7) (Z.testbit x 6) (Z.testbit x 5) (Z.testbit x 4)
             (Z.testbit x 3) (Z.testbit x 2) (Z.testbit x 1) (Z.testbit x 0); intros.

Lemma testbit_neg b k : k < 0 -> Z.testbit b k = false.
Proof. apply Z.testbit_neg_r. Qed.

Lemma bits_shl x r : is_byte x -> 0 <= r < 8 ->
  byte_bits (wrapu 8 (Z.shiftl x r)) =
  skipn (Z.to_nat r) (byte_bits x) ++ repeat false (Z.to_nat r).
Proof.
  intros Hx Hr. unfold byte_bits. cases8 r;
  cbn [Z.to_nat Pos.to_nat Pos.iter_op Nat.add skipn app repeat];
  bitnorm; cbn [Z.ltb Z.compare Pos.compare Pos.compare_cont andb Z.sub Z.add Z.opp Z.pos_sub];
  repeat (rewrite (testbit_neg x) by lia);
  cbn; reflexivity.
Qed.

Lemma bits_shr x r : is_byte x -> 0 <= r <= 8 ->
  byte_bits (Z.shiftr x r) =
  repeat false (Z.to_nat r) ++ firstn (8 - Z.to_nat r) (byte_bits x).
Proof.
  intros Hx Hr. unfold byte_bits.
  assert (Hc : r = 8 \/ 0 <= r < 8) by lia. destruct Hc as [->|Hr'];
  [|clear Hr; rename Hr' into Hr; cases8 r];
  repeat rewrite Z.shiftr_spec by lia;
  repeat match goal with |- context[Z.testbit x (?a + ?b)] =>
    let c := eval vm_compute in (a + b) in change (a + b) with c end;
  repeat (rewrite (is_byte_high x) by (assumption || lia)); reflexivity.
Qed.

Definition orl (a b : list bool) : list bool := map (fun p => fst p || snd p) (combine a b).

Lemma bits_lor a b : byte_bits (Z.lor a b) = orl (byte_bits a) (byte_bits b).
Proof. unfold byte_bits, orl. cbn [combine map fst snd]. now rewrite !Z.lor_spec. Qed.

Lemma orl_false_r n a : length a = n -> orl a (repeat false n) = a.
Proof.
  revert n. induction a as [|x a IH]; intros n Hn; subst n; [reflexivity|].
  cbn [length repeat]. unfold orl in *. cbn [combine map fst snd]. rewrite IH by reflexivity.
  now rewrite orb_false_r.
Qed.

Lemma orl_false_l n a : length a = n -> orl (repeat false n) a = a.
Proof.
  revert n. induction a as [|x a IH]; intros n Hn; subst n; [reflexivity|].
  cbn [length repeat]. unfold orl in *. cbn [combine map fst snd]. rewrite IH by reflexivity.
  reflexivity.
Qed.

Lemma orl_app a b c d : length a = length c -> orl (a ++ b) (c ++ d) = orl a c ++ orl b d.
Proof.
  revert c. induction a as [|x a IH]; intros [|y c] Hl; try discriminate; [reflexivity|].
  injection Hl as Hl. unfold orl in *. cbn [app combine map fst snd]. now rewrite IH.
Qed.

Lemma length_byte_bits b : length (byte_bits b) = 8%nat.
Proof. reflexivity. Qed.

Lemma raw_bits_app a b : raw_bits (a ++ b) = raw_bits a ++ raw_bits b.
Proof. unfold raw_bits. apply flat_map_app. Qed.

Lemma raw_bits_cons x l : raw_bits (x :: l) = byte_bits x ++ raw_bits l.
Proof. reflexivity. Qed.

Lemma length_raw_bits d : length (raw_bits d) = (8 * length d)%nat.
Proof.
  induction d as [|x d IH]; [reflexivity|].
  rewrite raw_bits_cons, app_length, IH, length_byte_bits. cbn [length]. lia.
Qed.

(* merging the high r bits of y below the low bits of x *)
Lemma bits_merge x y r : is_byte x -> is_byte y -> 0 <= r <= 8 ->
  skipn (8 - Z.to_nat r) (byte_bits x) = repeat false (Z.to_nat r) ->
  byte_bits (Z.lor x (Z.shiftr y (8 - r))) =
  firstn (8 - Z.to_nat r) (byte_bits x) ++ firstn (Z.to_nat r) (byte_bits y).
Proof.
  intros Hx Hy Hr Hz.
  rewrite bits_lor, bits_shr by (assumption || lia).
  rewrite <- (firstn_skipn (8 - Z.to_nat r) (byte_bits x)) at 1. rewrite Hz.
  replace (Z.to_nat (8 - r)) with (8 - Z.to_nat r)%nat by lia.
  rewrite orl_app.
  - replace (8 - (8 - Z.to_nat r))%nat with (Z.to_nat r) by lia.
    rewrite orl_false_r, orl_false_l; [reflexivity| |].
    + rewrite firstn_length, length_byte_bits. lia.
    + rewrite firstn_length, length_byte_bits. lia.
  - rewrite firstn_length, repeat_length, length_byte_bits. lia.
Qed.

(* ---------------------------------------------------------------- *)
(** * Facts about [holds] *)

Lemma holds_len b xs : holds b xs ->
  (length xs + Z.to_nat (bs_rem b) = 8 * length (bs_data b))%nat.
Proof.
  intros (_ & _ & H). apply (f_equal (@length bool)) in H.
  rewrite length_raw_bits, app_length, repeat_length in H. lia.
Qed.

Lemma holds_inj b xs ys : holds b xs -> holds b ys -> xs = ys.
Proof. intros (_ & _ & H1) (_ & _ & H2). rewrite H1 in H2. now apply app_inv_tail in H2. Qed.

Lemma bitlen_holds dbg b xs : holds b xs -> bs_bitlen dbg b = Ok (zlen xs).
Proof.
  intros H. pose proof (holds_len _ _ H) as Hl. destruct H as (_ & Hr & _).
  unfold bs_bitlen, zlen in *.
  replace (Z.of_nat (length (bs_data b)) * 8 - bs_rem b) with (Z.of_nat (length xs)) by lia.
  destruct (Z.leb_spec 0 (Z.of_nat (length xs))); [reflexivity|lia].
Qed.

Lemma removelast_last_split (d : bytes) x0 : d <> [] -> d = removelast d ++ [last d x0].
Proof. intros. now apply app_removelast_last. Qed.

Lemma upd_last_snoc f d x : upd_last f (d ++ [x]) = Ok (d ++ [f x]).
Proof.
  unfold upd_last. rewrite removelast_last, last_last.
  destruct (d ++ [x]) eqn:E; [|reflexivity].
  apply app_eq_nil in E. destruct E; discriminate.
Qed.

Lemma Forall1 (P : Z -> Prop) x : P x -> Forall P [x].
Proof. intros. constructor; [assumption|constructor]. Qed.

Lemma holds_nil : holds bs_new [].
Proof. unfold holds, bs_new. cbn. split; [constructor|]. split; [lia|reflexivity]. Qed.

Lemma holds_app_byte s xs x :
  holds s xs -> bs_rem s = 0 -> is_byte x -> forall ys r,
  byte_bits x = ys ++ repeat false (Z.to_nat r) -> 0 <= r < 8 ->
  holds (mkBs (bs_data s ++ [x]) r) (xs ++ ys).
Proof.
  intros (Hb & _ & Hraw) H0 Hx ys r Hbits Hr. rewrite H0 in Hraw.
  cbn [Z.to_nat repeat] in Hraw. rewrite app_nil_r in Hraw.
  unfold holds. cbn [bs_data bs_rem]. repeat split; try lia.
  - apply Forall_app. split; [assumption|]. now apply Forall1.
  - rewrite raw_bits_app, Hraw. unfold raw_bits. cbn [flat_map]. rewrite app_nil_r, Hbits.
    now rewrite app_assoc.
Qed.

(* a stream with free bits: its last byte *)
Lemma holds_split s xs : holds s xs -> bs_rem s <> 0 ->
  exists d0 x, bs_data s = d0 ++ [x] /\ Forall is_byte d0 /\ is_byte x /\
    xs = raw_bits d0 ++ firstn (8 - Z.to_nat (bs_rem s)) (byte_bits x) /\
    skipn (8 - Z.to_nat (bs_rem s)) (byte_bits x) = repeat false (Z.to_nat (bs_rem s)).
Proof.
  intros (Hb & Hr & Hraw) Hn.
  destruct (exists_last (l := bs_data s)) as (d0 & x & Hd).
  { intros E. rewrite E in Hraw. cbn in Hraw. symmetry in Hraw. apply app_eq_nil in Hraw.
    destruct Hraw as [_ Hz]. assert (Z.to_nat (bs_rem s) = O) by
      (apply (f_equal (@length bool)) in Hz; now rewrite repeat_length in Hz). lia. }
  exists d0, x. rewrite Hd in Hb, Hraw. apply Forall_app in Hb. destruct Hb as [Hb0 Hbx].
  inversion Hbx as [|? ? Hx _]; subst.
  rewrite raw_bits_app in Hraw. unfold raw_bits at 2 in Hraw. cbn [flat_map] in Hraw.
  rewrite app_nil_r in Hraw.
  set (r := Z.to_nat (bs_rem s)) in *.
  assert (Hr8 : (r < 8)%nat) by lia.
  assert (Hlen : (length xs + r = 8 * length d0 + 8)%nat).
  { apply (f_equal (@length bool)) in Hraw.
    rewrite !app_length, length_raw_bits, length_byte_bits, repeat_length in Hraw. lia. }
  assert (Hxs : xs = raw_bits d0 ++ firstn (8 - r) (byte_bits x)).
  { apply (f_equal (firstn (length xs))) in Hraw.
    rewrite firstn_app in Hraw. rewrite (firstn_all2 (raw_bits d0)) in Hraw
      by (rewrite length_raw_bits; lia).
    rewrite firstn_app, firstn_all, Nat.sub_diag in Hraw. cbn [firstn] in Hraw.
    rewrite app_nil_r in Hraw. rewrite <- Hraw. f_equal. f_equal.
    rewrite length_raw_bits. lia. }
  repeat split; try assumption; try (destruct Hx; assumption).
  apply (f_equal (skipn (length xs))) in Hraw.
  rewrite skipn_app in Hraw. rewrite (skipn_all2 (raw_bits d0)) in Hraw
    by (rewrite length_raw_bits; lia).
  rewrite skipn_app, skipn_all, Nat.sub_diag in Hraw. cbn [app skipn] in Hraw.
  rewrite <- Hraw. f_equal. rewrite length_raw_bits. lia.
Qed.

Lemma raw_single x : raw_bits [x] = byte_bits x.
Proof. unfold raw_bits. cbn [flat_map]. apply app_nil_r. Qed.

Lemma arith8_ok dbg z : 0 <= z < 256 -> arith_u dbg 8 z = Ok z.
Proof.
  intros. unfold arith_u, in_u. change (2 ^ 8) with 256.
  destruct (Z.leb_spec 0 z); [|lia]. destruct (Z.ltb_spec z 256); [reflexivity|lia].
Qed.

Lemma shl8_ok dbg x s : s < 8 -> shl8 dbg x s = Ok (wrapu 8 (Z.shiftl x s)).
Proof. intros. unfold shl8. destruct (Z.ltb_spec s 8); [reflexivity|lia]. Qed.

Lemma shr8_ok dbg x s : s < 8 -> shr8 dbg x s = Ok (Z.shiftr x s).
Proof. intros. unfold shr8. destruct (Z.ltb_spec s 8); [reflexivity|lia]. Qed.

(* ---------------------------------------------------------------- *)
(** * Single bits *)

Lemma write_holds dbg s xs b : holds s xs ->
  exists s', bs_write dbg s b = Ok s' /\ holds s' (xs ++ [b]).
Proof.
  intros H. unfold bs_write. destruct (Z.eqb_spec (bs_rem s) 0) as [E|E].
  - eexists. split; [reflexivity|].
    eapply holds_app_byte; eauto.
    + destruct b; unfold is_byte; lia.
    + destruct b; reflexivity.
    + lia.
  - pose proof H as (Hb & Hr & Hraw).
    destruct (holds_split _ _ H E) as (d0 & x & Hd & Hb0 & Hx & Hxs & Hz).
    set (r := bs_rem s) in *.
    assert (Hbits : byte_bits (if b then Z.lor x (wrapu 8 (Z.shiftl 1 (r - 1))) else x)
                    = firstn (8 - Z.to_nat r) (byte_bits x) ++ [b]
                      ++ repeat false (Z.to_nat (r - 1))).
    { assert (Hs : byte_bits x = firstn (8 - Z.to_nat r) (byte_bits x) ++ repeat false (Z.to_nat r))
        by (rewrite <- Hz; symmetry; apply firstn_skipn).
      set (p := firstn (8 - Z.to_nat r) (byte_bits x)) in *.
      destruct b.
      - rewrite bits_lor, bits_shl by (unfold is_byte; lia).
        rewrite Hs. subst p. clearbody r. clear - Hr E.
        unfold byte_bits at 1 3; gbits x.
        cases8 r; try lia; cbv -[orb]; rewrite ?orb_false_r; reflexivity.
      - rewrite Hs. subst p. clearbody r. clear - Hr E. cases8 r; try lia; cbn; reflexivity. }
    set (x' := if b then Z.lor x (wrapu 8 (Z.shiftl 1 (r - 1))) else x) in *.
    assert (Hx' : is_byte x').
    { unfold x'. destruct b; [apply lor_byte; [assumption|apply wrapu8_byte]|assumption]. }
    exists (mkBs (d0 ++ [x']) (r - 1)). split.
    + unfold x'. destruct b.
      * rewrite shl8_ok by lia. cbn [rbind]. rewrite Hd, upd_last_snoc. reflexivity.
      * now rewrite Hd.
    + unfold holds. cbn [bs_data bs_rem]. repeat split; try lia.
      * apply Forall_app. split; [assumption|now apply Forall1].
      * rewrite raw_bits_app, raw_single, Hbits, Hxs, <- !app_assoc. reflexivity.
Qed.

(* ---------------------------------------------------------------- *)
(** * Append *)

Lemma skipn_skipn' {A} (a b : nat) (l : list A) : skipn a (skipn b l) = skipn (a + b) l.
Proof.
  revert l. induction b as [|b IH]; intros l; [now rewrite Nat.add_0_r|].
  rewrite Nat.add_succ_r. destruct l as [|x l]; cbn [skipn]; [apply skipn_nil|apply IH].
Qed.

Lemma firstn_add {A} (a b : nat) (l : list A) :
  firstn (a + b) l = firstn a l ++ firstn b (skipn a l).
Proof.
  revert l. induction a as [|a IH]; intros l; [reflexivity|].
  destruct l as [|x l]; cbn [Nat.add firstn skipn app].
  - now rewrite firstn_nil.
  - now rewrite IH.
Qed.

Lemma append_loop_cons dbg rem x y l out :
  append_loop dbg rem (x :: y :: l) out =
  (let* first := shl8 dbg x rem in
   let* sh := arith_u dbg 8 (8 - rem) in
   let* second := shr8 dbg y sh in
   append_loop dbg rem (y :: l) (out ++ [Z.lor first second])).
Proof. reflexivity. Qed.

Lemma append_loop_spec dbg r l : Forall is_byte l -> 0 < r < 8 -> l <> [] -> forall out,
  exists L, append_loop dbg r l out = Ok (out ++ L) /\ Forall is_byte L /\
    raw_bits L = firstn (8 * (length l - 1)) (skipn (Z.to_nat r) (raw_bits l)).
Proof.
  intros Hl Hr. induction l as [|x l IH]; intros Hne out; [congruence|].
  destruct l as [|y l'].
  - exists []. cbn [append_loop length Nat.sub Nat.mul firstn]. rewrite app_nil_r.
    repeat split; constructor.
  - inversion Hl as [|? ? Hx Hl']; subst. inversion Hl' as [|? ? Hy _]; subst.
    rewrite append_loop_cons, shl8_ok by lia. cbn [rbind]. rewrite arith8_ok by lia. cbn [rbind].
    rewrite shr8_ok by lia. cbn [rbind].
    set (z := Z.lor _ _).
    destruct (IH Hl' ltac:(discriminate) (out ++ [z])) as (L & HL & HLb & HLr).
    exists (z :: L). rewrite HL, <- app_assoc. cbn [app].
    assert (Hz : is_byte z).
    { apply lor_byte; [apply wrapu8_byte|apply shiftr_byte; [assumption|lia]]. }
    assert (Hzb : byte_bits z = skipn (Z.to_nat r) (byte_bits x) ++ firstn (Z.to_nat r) (byte_bits y)).
    { unfold z. rewrite bits_merge.
      - rewrite bits_shl by (assumption || lia). clear - Hr. cases8 r; try lia; reflexivity.
      - apply wrapu8_byte.
      - assumption.
      - lia.
      - rewrite bits_shl by (assumption || lia). clear - Hr. cases8 r; try lia; reflexivity. }
    repeat split; [now constructor|].
    rewrite raw_bits_cons, HLr, Hzb.
    rewrite (raw_bits_cons x), (raw_bits_cons y).
    rewrite (skipn_app (Z.to_nat r) (byte_bits x)).
    replace (Z.to_nat r - length (byte_bits x))%nat with O by (rewrite length_byte_bits; lia).
    cbn [skipn].
    assert (Hn : (8 * (length (x :: y :: l') - 1) =
      length (skipn (Z.to_nat r) (byte_bits x)) + (Z.to_nat r + 8 * (length (y :: l') - 1)))%nat).
    { cbn [length]. rewrite skipn_length, length_byte_bits. lia. }
    rewrite Hn, firstn_app_2. rewrite <- app_assoc. f_equal.
    rewrite (skipn_app (Z.to_nat r) (byte_bits y)).
    replace (Z.to_nat r - length (byte_bits y))%nat with O by (rewrite length_byte_bits; lia).
    cbn [skipn].
    rewrite <- (firstn_skipn (Z.to_nat r) (byte_bits y)) at 3.
    assert (Hlen : length (firstn (Z.to_nat r) (byte_bits y)) = Z.to_nat r)
      by (rewrite firstn_length, length_byte_bits; lia).
    rewrite <- app_assoc.
    rewrite <- Hlen at 3. rewrite firstn_app_2. reflexivity.
Qed.

(* raw content after the first byte of b has been merged into the last byte of s *)
Lemma append_raw s xs y0 : holds s xs -> bs_rem s <> 0 -> is_byte y0 ->
  exists d, upd_last (fun x => Z.lor x (Z.shiftr y0 (8 - bs_rem s))) (bs_data s) = Ok d /\
    Forall is_byte d /\
    raw_bits d = xs ++ firstn (Z.to_nat (bs_rem s)) (byte_bits y0).
Proof.
  intros H E Hy. pose proof H as (_ & Hr & _).
  destruct (holds_split _ _ H E) as (d0 & x & Hd & Hb0 & Hx & Hxs & Hz).
  eexists. split; [rewrite Hd; apply upd_last_snoc|]. split.
  - apply Forall_app. split; [assumption|]. constructor; [|constructor].
    apply lor_byte; [assumption|apply shiftr_byte; [assumption|lia]].
  - rewrite raw_bits_app, raw_single, bits_merge by (assumption || lia).
    rewrite Hxs, <- app_assoc. reflexivity.
Qed.

(* the state after the loop of append, before `remaining` is fixed up *)
Lemma append_raw_loop dbg s xs l : holds s xs -> bs_rem s <> 0 -> Forall is_byte l -> l <> [] ->
  exists y0 d d2, nth_error l 0 = Some y0 /\
    upd_last (fun x => Z.lor x (Z.shiftr y0 (8 - bs_rem s))) (bs_data s) = Ok d /\
    append_loop dbg (bs_rem s) l d = Ok d2 /\ Forall is_byte d2 /\
    raw_bits d2 = xs ++ firstn (Z.to_nat (bs_rem s) + 8 * (length l - 1)) (raw_bits l).
Proof.
  intros H E Hl Hne. pose proof H as (_ & Hr & _).
  destruct l as [|y0 l']; [congruence|]. inversion Hl as [|? ? Hy _]; subst.
  destruct (append_raw _ _ y0 H E Hy) as (d & Hd & Hdb & Hdr).
  destruct (append_loop_spec dbg (bs_rem s) (y0 :: l') Hl ltac:(lia) ltac:(discriminate) d)
    as (L & HL & HLb & HLr).
  exists y0, d, (d ++ L). repeat split; try assumption.
  - now apply Forall_app.
  - rewrite raw_bits_app, Hdr, HLr, <- app_assoc. f_equal.
    rewrite firstn_add. f_equal.
    rewrite raw_bits_cons, firstn_app.
    replace (Z.to_nat (bs_rem s) - length (byte_bits y0))%nat with O by (rewrite length_byte_bits; lia).
    cbn [firstn]. now rewrite app_nil_r.
Qed.

Lemma zlen0 {A} (l : list A) : zlen l = 0 -> l = [].
Proof. unfold zlen. destruct l; [reflexivity|cbn [length]; lia]. Qed.

Lemma last_raw_bits l : l <> [] ->
  byte_bits (last l 0) = skipn (8 * (length l - 1)) (raw_bits l).
Proof.
  intros Hne. destruct (exists_last Hne) as (l0 & x & ->).
  rewrite last_last, raw_bits_app, raw_single, app_length. cbn [length].
  rewrite skipn_app, skipn_all2 by (rewrite length_raw_bits; lia).
  rewrite length_raw_bits. replace (_ - _)%nat with O by lia. reflexivity.
Qed.

Lemma last_Forall l : Forall is_byte l -> l <> [] -> is_byte (last l 0).
Proof.
  intros Hl Hne. destruct (exists_last Hne) as (l0 & x & ->). rewrite last_last.
  apply Forall_app in Hl. destruct Hl as [_ Hl]. now inversion Hl.
Qed.

Lemma abs_diff_ok dbg a b : 0 <= a < 8 -> 0 <= b < 8 -> abs_diff_i8 dbg a b = Ok (Z.abs (a - b)).
Proof.
  intros Ha Hb. clear -Ha Hb. cases8 a; cases8 b; destruct dbg; vm_compute; reflexivity.
Qed.

Lemma firstn_cut {A} (xs ys : list A) n : length xs = n -> firstn n (xs ++ ys) = xs.
Proof. intros <-. rewrite firstn_app, firstn_all, Nat.sub_diag. cbn [firstn]. apply app_nil_r. Qed.

Lemma skipn_cut {A} (xs ys : list A) n : length xs = n -> skipn n (xs ++ ys) = ys.
Proof. intros <-. rewrite skipn_app, skipn_all, Nat.sub_diag. reflexivity. Qed.

Lemma firstn_repeat_le {A} (x : A) n m : (n <= m)%nat -> firstn n (repeat x m) = repeat x n.
Proof.
  revert m. induction n as [|n IH]; intros m H; [reflexivity|].
  destruct m as [|m]; [lia|]. cbn [repeat firstn]. now rewrite IH by lia.
Qed.

Lemma skipn_repeat {A} (x : A) n m : skipn n (repeat x m) = repeat x (m - n).
Proof.
  revert m. induction n as [|n IH]; intros m; [now rewrite Nat.sub_0_r|].
  destruct m as [|m]; [reflexivity|]. cbn [repeat skipn]. now rewrite IH.
Qed.

Lemma repeat_add {A} (x : A) n m : repeat x n ++ repeat x m = repeat x (n + m).
Proof. now rewrite repeat_app. Qed.

Lemma append_result dbg s b xs ys : holds s xs -> holds b ys ->
  exists s', bs_append dbg s b = Ok s' /\ Forall is_byte (bs_data s') /\
    (append_domain s b -> holds s' (xs ++ ys)) /\
    (~ append_domain s b -> ~ holds s' (xs ++ ys)).
Proof.
  intros Hs Hb. pose proof (holds_len _ _ Hs) as Ls. pose proof (holds_len _ _ Hb) as Lb.
  pose proof Hs as (Fs & Rs & Bs). pose proof Hb as (Fb & Rb & Bb).
  unfold bs_append. rewrite (bitlen_holds dbg b ys Hb). cbn [rbind].
  destruct (Z.eqb_spec (zlen ys) 0) as [E0|E0].
  { apply zlen0 in E0. subst ys. exists s. split; [reflexivity|]. split; [assumption|]. split.
    - intros _. now rewrite app_nil_r.
    - intros Hn. exfalso. apply Hn. right. left. cbn [length] in Lb. lia. }
  assert (Hne : bs_data b <> []).
  { intros E. rewrite E in Lb. cbn [length] in Lb. unfold zlen in E0. lia. }
  destruct (Z.eqb_spec (bs_rem s) 0) as [Er|Er]; cbn [negb].
  { eexists. split; [reflexivity|]. cbn [bs_data bs_rem].
    split; [now apply Forall_app|]. split.
    - intros _. split; [now apply Forall_app|]. split; [cbn; lia|]. cbn [bs_data bs_rem]. rewrite raw_bits_app, Bs, Bb, Er. cbn [Z.to_nat repeat].
      now rewrite app_nil_r, app_assoc.
    - intros Hn. exfalso. apply Hn. now left. }
  destruct (append_raw_loop dbg s xs (bs_data b) Hs Er Fb Hne)
    as (y0 & d & d2 & Hy0 & Hd & Hd2 & Fd2 & Rd2).
  rewrite Hy0. cbn [unwrap rbind]. rewrite arith8_ok by lia. cbn [rbind].
  rewrite shr8_ok by lia. cbn [rbind]. rewrite Hd. cbn [rbind].
  destruct (Z.leb_spec (zlen ys) (bs_rem s)) as [Hle|Hgt].
  - (* fits in the current byte *)
    unfold zlen in Hle. assert (Hl1 : length (bs_data b) = 1%nat).
    { destruct (bs_data b); [congruence|]. cbn [length] in *. lia. }
    destruct (bs_data b) as [|y [|]] eqn:Eb; try discriminate.
    cbn [nth_error] in Hy0. injection Hy0 as ->. cbn [append_loop] in Hd2. injection Hd2 as ->.
    cbn [length Nat.sub Nat.mul] in Rd2. rewrite Nat.add_0_r in Rd2.
    eexists. split; [reflexivity|]. cbn [bs_data bs_rem].
    replace (wrapu 8 (zlen ys)) with (Z.of_nat (length ys))
      by (unfold wrapu, zlen; rewrite Z.mod_small; lia).
    split; [assumption|]. split; [|intros Hn; exfalso; apply Hn; right; left; rewrite Eb; cbn; lia].
    intros _. repeat split; cbn [bs_data bs_rem]; try assumption; try lia.
    rewrite Rd2, <- app_assoc. f_equal. rewrite Bb.
    rewrite firstn_app, firstn_all2 by lia. f_equal.
    rewrite firstn_repeat_le by (cbn [length] in Lb; lia). f_equal. lia.
  - rewrite Hd2. cbn [rbind]. rewrite arith8_ok by lia. cbn [rbind].
    unfold zlen in Hgt.
    assert (Hraw : raw_bits (bs_data b) = ys ++ repeat false (Z.to_nat (bs_rem b))) by assumption.
    destruct (Z.leb_spec (bs_rem s) (8 - bs_rem b)) as [Hc|Hc].
    + rewrite shl8_ok by lia. cbn [rbind]. rewrite arith8_ok by lia. cbn [rbind].
      eexists. split; [reflexivity|]. cbn [bs_data bs_rem].
      assert (Fl : is_byte (last (bs_data b) 0)) by (now apply last_Forall).
      assert (F' : Forall is_byte (d2 ++ [wrapu 8 (Z.shiftl (last (bs_data b) 0) (bs_rem s))]))
        by (apply Forall_app; split; [assumption|apply Forall1, wrapu8_byte]).
      split; [assumption|]. split.
      * intros Hdom. assert (Hsum : bs_rem s + bs_rem b < 8).
        { destruct Hdom as [?|[H1|[?|[? ?]]]]; try lia. }
        repeat split; cbn [bs_data bs_rem]; try assumption; try lia.
        rewrite raw_bits_app, raw_single, bits_shl by (assumption || lia).
        rewrite last_raw_bits by assumption. rewrite Rd2, <- !app_assoc. f_equal.
        rewrite skipn_skipn'. rewrite app_assoc. rewrite firstn_skipn, Hraw, <- app_assoc. f_equal.
        rewrite repeat_add. f_equal. lia.
      * intros Hn (_ & Hr & _). cbn [bs_rem] in Hr. apply Hn. unfold append_domain. lia.
    + rewrite abs_diff_ok by lia. cbn [rbind]. eexists. split; [reflexivity|]. cbn [bs_data bs_rem].
      split; [assumption|].
      assert (Hd2r : raw_bits d2 =
        xs ++ ys ++ repeat false (Z.to_nat (bs_rem s + bs_rem b - 8))).
      { rewrite Rd2. f_equal. rewrite Hraw, firstn_app, firstn_all2.
        - f_equal. rewrite firstn_repeat_le.
          + f_equal. destruct (bs_data b); [congruence|]. cbn [length] in *. lia.
          + destruct (bs_data b); [congruence|]. cbn [length] in *. lia.
        - destruct (bs_data b); [congruence|]. cbn [length] in *. lia. }
      assert (H1 : (1 < length (bs_data b))%nat)
        by (destruct (bs_data b) as [|? [|? ?]]; try congruence; cbn [length] in *; lia).
      split.
      * intros Hdom.
        assert (Hv : Z.abs (bs_rem b - bs_rem s) = bs_rem s + bs_rem b - 8)
          by (unfold append_domain in Hdom; lia).
        rewrite Hv. repeat split; cbn [bs_data bs_rem]; try assumption; try lia.
        now rewrite <- app_assoc.
      * intros Hn (_ & Hr & Hbits). cbn [bs_rem bs_data] in *. apply Hn.
        rewrite Hd2r in Hbits. rewrite <- app_assoc in Hbits.
        apply app_inv_head, app_inv_head in Hbits.
        apply (f_equal (@length bool)) in Hbits. rewrite !repeat_length in Hbits.
        unfold append_domain. lia.
Qed.

Lemma append_holds dbg s b xs ys : holds s xs -> holds b ys -> append_domain s b ->
  exists s', bs_append dbg s b = Ok s' /\ holds s' (xs ++ ys).
Proof.
  intros Hs Hb Hd. destruct (append_result dbg s b xs ys Hs Hb) as (s' & E & _ & H & _).
  exists s'. auto.
Qed.
