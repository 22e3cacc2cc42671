From Verif Require Import Rust Bstream BitSpec BstreamProofs.
From Coq Require Import ZifyBool ZifyNat.
Ltac Zify.zify_post_hook ::= Z.div_mod_to_equations.

(* ---------------------------------------------------------------- *)
(** * Binary notation *)

Lemma length_zbits n z : length (zbits n z) = n.
Proof. induction n as [|n IH]; [reflexivity|]. cbn [zbits length]. now rewrite IH. Qed.

Lemma skipn_zbits k n z : (k <= n)%nat -> skipn k (zbits n z) = zbits (n - k) z.
Proof.
  revert k. induction n as [|n IH]; intros k Hk.
  - replace k with O by lia. reflexivity.
  - destruct k as [|k]; [reflexivity|]. cbn [zbits skipn Nat.sub]. apply IH. lia.
Qed.

Lemma zbits_app n m z : zbits (n + m) z = zbits n (Z.shiftr z (Z.of_nat m)) ++ zbits m z.
Proof.
  induction n as [|n IH]; [reflexivity|].
  cbn [Nat.add zbits app]. rewrite IH. f_equal. rewrite Z.shiftr_spec by lia. f_equal. lia.
Qed.

Lemma zbits_mod n k z : (n <= k)%nat -> zbits n (z mod 2 ^ Z.of_nat k) = zbits n z.
Proof.
  induction n as [|n IH]; intros Hk; [reflexivity|].
  cbn [zbits]. rewrite IH by lia. f_equal. apply Z.mod_pow2_bits_low. lia.
Qed.

Lemma byte_bits_zbits x : byte_bits x = zbits 8 x.
Proof. reflexivity. Qed.

Lemma pow256 n : 256 ^ Z.of_nat n = 2 ^ Z.of_nat (8 * n).
Proof. change 256 with (2 ^ 8). rewrite <- Z.pow_mul_r by lia. f_equal. lia. Qed.

Lemma raw_be_bytes n z : raw_bits (be_bytes n z) = zbits (8 * n) z.
Proof.
  induction n as [|n IH]; [reflexivity|].
  cbn [be_bytes]. rewrite raw_bits_cons, IH, byte_bits_zbits.
  change 256 with (2 ^ Z.of_nat 8) at 2.
  rewrite zbits_mod by lia. rewrite pow256, <- Z.shiftr_div_pow2 by lia.
  rewrite <- zbits_app. f_equal. lia.
Qed.

Lemma length_be_bytes n z : length (be_bytes n z) = n.
Proof. induction n as [|n IH]; [reflexivity|]. cbn [be_bytes length]. now rewrite IH. Qed.

Lemma be_bytes_byte n z : Forall is_byte (be_bytes n z).
Proof.
  induction n as [|n IH]; [constructor|]. cbn [be_bytes]. constructor; [|assumption].
  unfold is_byte. generalize (z / 256 ^ Z.of_nat n). intros q. lia.
Qed.

Lemma nth_raw l i x : nth_error l i = Some x ->
  byte_bits x = firstn 8 (skipn (8 * i) (raw_bits l)).
Proof.
  revert i. induction l as [|y l IH]; intros [|i] H; cbn [nth_error] in H; try discriminate.
  - injection H as ->. rewrite raw_bits_cons, Nat.mul_0_r. cbn [skipn]. now rewrite firstn_cut.
  - rewrite raw_bits_cons. replace (8 * S i)%nat with (8 * i + 8)%nat by lia.
    rewrite <- skipn_skipn', (skipn_cut (byte_bits y)) by reflexivity. apply IH. assumption.
Qed.

Lemma skipn_raw l i : skipn (8 * i) (raw_bits l) = raw_bits (skipn i l).
Proof.
  revert i. induction l as [|y l IH]; intros [|i].
  - reflexivity.
  - apply skipn_nil.
  - rewrite Nat.mul_0_r. reflexivity.
  - rewrite raw_bits_cons. replace (8 * S i)%nat with (8 * i + 8)%nat by lia.
    rewrite <- skipn_skipn', (skipn_cut (byte_bits y)) by reflexivity. apply IH.
Qed.

Lemma raw_firstn l i : firstn (8 * i) (raw_bits l) = raw_bits (firstn i l).
Proof.
  revert i. induction l as [|y l IH]; intros [|i].
  - reflexivity.
  - apply firstn_nil.
  - rewrite Nat.mul_0_r. reflexivity.
  - cbn [firstn]. rewrite !raw_bits_cons. replace (8 * S i)%nat with (8 + 8 * i)%nat by lia.
    rewrite <- (length_byte_bits y) at 1. rewrite firstn_app_2. now rewrite IH.
Qed.

Lemma Forall_skipn {A} (P : A -> Prop) n l : Forall P l -> Forall P (skipn n l).
Proof.
  revert n. induction l as [|x l IH]; intros n H; [now rewrite skipn_nil|].
  destruct n; [assumption|]. cbn [skipn]. inversion H; subst. now apply IH.
Qed.

Lemma Forall_firstn {A} (P : A -> Prop) n l : Forall P l -> Forall P (firstn n l).
Proof.
  revert n. induction l as [|x l IH]; intros n H; [now rewrite firstn_nil|].
  destruct n; [constructor|]. cbn [firstn]. inversion H; subst. constructor; auto.
Qed.

Lemma nth_Forall {A} (P : A -> Prop) l i x : Forall P l -> nth_error l i = Some x -> P x.
Proof. intros H E. rewrite Forall_forall in H. apply H. eapply nth_error_In; eauto. Qed.

(* ---------------------------------------------------------------- *)
(** * append_bytes and write_bits *)

Lemma holds_full l : Forall is_byte l -> holds (mkBs l 0) (raw_bits l).
Proof. intros H. split; [assumption|]. split; [cbn; lia|]. cbn. now rewrite app_nil_r. Qed.

Lemma append_full dbg s xs l : holds s xs -> Forall is_byte l ->
  exists s', bs_append_bytes dbg s l 0 = Ok s' /\ holds s' (xs ++ raw_bits l).
Proof.
  intros Hs Hl. unfold bs_append_bytes. cbn [Z.leb Z.compare andb].
  apply append_holds; [assumption|now apply holds_full|].
  unfold append_domain. cbn [bs_rem]. destruct Hs as (_ & ? & _). lia.
Qed.

Lemma holds_single x u ys : is_byte x -> 0 <= u < 8 ->
  byte_bits x = ys ++ repeat false (Z.to_nat u) -> holds (mkBs [x] u) ys.
Proof.
  intros Hx Hu Hb. split; [now apply Forall1|]. split; [cbn; lia|]. cbn [bs_data bs_rem].
  now rewrite raw_single.
Qed.

Lemma append_one dbg s xs x u ys : holds s xs -> is_byte x -> 0 <= u < 8 ->
  byte_bits x = ys ++ repeat false (Z.to_nat u) ->
  exists s', bs_append_bytes dbg s [x] u = Ok s' /\ holds s' (xs ++ ys).
Proof.
  intros Hs Hx Hu Hb. unfold bs_append_bytes.
  destruct (Z.leb_spec u 8); [|lia]. destruct (Z.leb_spec 0 u); [|lia]. cbn [andb].
  apply append_holds; [assumption|now apply holds_single|].
  unfold append_domain. cbn [bs_data length]. lia.
Qed.

Lemma write_bits_holds dbg s xs v n : holds s xs -> 1 <= n <= 64 ->
  exists s', bs_write_bits dbg s v n = Ok s' /\ holds s' (xs ++ zbits (Z.to_nat n) v).
Proof.
  intros Hs Hn. unfold bs_write_bits. rewrite arith8_ok by lia. cbn [rbind].
  set (lead := 64 - n). set (i := Z.to_nat (lead / 8)).
  assert (Hi : (i < 8)%nat) by lia.
  pose proof (length_be_bytes 8 v) as Hlen. pose proof (be_bytes_byte 8 v) as HF.
  pose proof (raw_be_bytes 8 v) as Hraw.
  generalize dependent (be_bytes 8 v). intros bs Hlen HF Hraw.
  destruct (nth_error bs i) as [x|] eqn:Ex; [|apply nth_error_None in Ex; lia].
  cbn [unwrap rbind]. assert (Hx : is_byte x) by (eapply nth_Forall; eauto).
  rewrite shl8_ok by lia. cbn [rbind].
  destruct (append_one dbg s xs (wrapu 8 (Z.shiftl x (lead mod 8))) (lead mod 8)
             (skipn (Z.to_nat (lead mod 8)) (byte_bits x)) Hs (wrapu8_byte _)) as (s1 & E1 & H1).
  { lia. } { apply bits_shl; [assumption|lia]. }
  rewrite E1. cbn [rbind].
  destruct (Nat.ltb_spec 8 (S i)); [lia|].
  destruct (append_full dbg s1 _ (skipn (S i) bs) H1) as (s2 & E2 & H2).
  { now apply Forall_skipn. }
  exists s2. split; [assumption|].
  replace (xs ++ zbits (Z.to_nat n) v) with
    ((xs ++ skipn (Z.to_nat (lead mod 8)) (byte_bits x)) ++ raw_bits (skipn (S i) bs));
    [assumption|].
  rewrite <- app_assoc. f_equal.
  transitivity (skipn (Z.to_nat lead) (raw_bits bs)).
  - rewrite (nth_raw _ _ _ Ex), <- skipn_raw.
    replace (Z.to_nat lead) with (Z.to_nat (lead mod 8) + 8 * i)%nat by lia.
    rewrite <- skipn_skipn'.
    replace (8 * S i)%nat with (8 + 8 * i)%nat by lia.
    rewrite <- skipn_skipn'.
    set (R := skipn (8 * i) (raw_bits bs)).
    assert (HR : (8 <= length R)%nat) by (unfold R; rewrite skipn_length, length_raw_bits; lia).
    clearbody R. rewrite <- (firstn_skipn 8 R) at 3.
    rewrite (skipn_app (Z.to_nat (lead mod 8)) (firstn 8 R)). f_equal.
    rewrite firstn_length. replace (_ - _)%nat with O by lia. reflexivity.
  - rewrite Hraw, skipn_zbits by lia. f_equal. lia.
Qed.

Lemma bop_holds dbg s xs o : holds s xs -> bop_ok o ->
  exists s', bop_run dbg s o = Ok s' /\ holds s' (xs ++ bop_bits o).
Proof.
  intros Hs Ho. destruct o as [b|l|x u|v n|d n]; cbn [bop_ok bop_run bop_bits] in *.
  - now apply write_holds.
  - now apply append_full.
  - destruct Ho as (Hx & Hu & Hm). eapply append_one; eauto.
    rewrite <- (firstn_skipn (8 - Z.to_nat u) (byte_bits x)) at 1. f_equal.
    assert (Hz : forall k, 0 <= k < u -> Z.testbit x k = false).
    { intros k Hk. rewrite <- (Z.mod_pow2_bits_low x u k) by lia. rewrite Hm. apply Z.bits_0. }
    unfold byte_bits. clear Hm. cases8 u; cbv -[Z.testbit];
    repeat match goal with |- context[Z.testbit x ?k] => rewrite (Hz k) by lia end; reflexivity.
  - apply write_bits_holds; [assumption|lia].
  - assert (A: forall k, exists s', bs_append_bytes dbg s (be_bytes k (wrapu (8 * Z.of_nat k) d)) 0 = Ok s' /\ holds s' (xs ++ zbits (8 * k) d)).
    { intros k. destruct (append_full dbg s xs (be_bytes k (wrapu (8 * Z.of_nat k) d)) Hs) as (s' & E & H); [apply be_bytes_byte|].
      exists s'. split; [exact E|]. rewrite raw_be_bytes in H. unfold wrapu in H. replace (8 * Z.of_nat k) with (Z.of_nat (8 * k)) in H by lia.
      now rewrite zbits_mod in H by lia. }
    unfold bs_append_timestamp_delta. cbn [existsb].
    destruct (Z.eqb_spec n 8) as [->|N1]; [exact (A 1%nat)|]. destruct (Z.eqb_spec n 16) as [->|N2]; [exact (A 2%nat)|].
    destruct (Z.eqb_spec n 32) as [->|N3]; [exact (A 4%nat)|]. destruct (Z.eqb_spec n 64) as [->|N4]; [exact (A 8%nat)|].
    cbn [orb]. exists s. split; [reflexivity|]. now rewrite app_nil_r.
Qed.

Lemma bops_holds dbg os : forall s xs, holds s xs -> Forall bop_ok os ->
  exists s', bops_run dbg s os = Ok s' /\ holds s' (xs ++ flat_map bop_bits os).
Proof.
  induction os as [|o os IH]; intros s xs Hs Hos; cbn [bops_run flat_map].
  - exists s. split; [reflexivity|]. now rewrite app_nil_r.
  - inversion Hos as [|? ? Ho Hos']; subst.
    destruct (bop_holds dbg s xs o Hs Ho) as (s1 & E1 & H1). rewrite E1. cbn [rbind].
    destruct (IH s1 _ H1 Hos') as (s2 & E2 & H2). exists s2. split; [assumption|].
    now rewrite app_assoc.
Qed.

Lemma bops_from_empty dbg os : Forall bop_ok os ->
  exists s, bops_run dbg bs_new os = Ok s /\ holds s (flat_map bop_bits os) /\
    bs_bitlen dbg s = Ok (zlen (flat_map bop_bits os)).
Proof.
  intros H. destruct (bops_holds dbg os bs_new [] holds_nil H) as (s & E & Hh).
  exists s. split; [assumption|]. split; [assumption|]. now apply bitlen_holds.
Qed.

(* ---------------------------------------------------------------- *)
(** * Reading *)

Lemma set_nth_ok l i v : (i < length l)%nat -> set_nth l i v = Ok (firstn i l ++ v :: skipn (S i) l).
Proof.
  revert i. induction l as [|x l IH]; intros [|i] H; cbn [length] in H; try lia; [reflexivity|].
  cbn [set_nth]. rewrite IH by lia. reflexivity.
Qed.

Lemma read_byte_ok b i : (i < length (bs_data b))%nat ->
  bs_read_byte b (Z.of_nat i) = nth_error (bs_data b) i.
Proof.
  intros H. unfold bs_read_byte, zlen. destruct (Z.ltb_spec (Z.of_nat i) (Z.of_nat (length (bs_data b)))); [|lia].
  now rewrite Nat2Z.id.
Qed.

Lemma read_byte_none b i : (length (bs_data b) <= i)%nat -> bs_read_byte b (Z.of_nat i) = None.
Proof.
  intros H. unfold bs_read_byte, zlen. destruct (Z.ltb_spec (Z.of_nat i) (Z.of_nat (length (bs_data b)))); [lia|reflexivity].
Qed.

Lemma nth_raw_pad l i x : nth_error l i = Some x ->
  byte_bits x = firstn 8 (skipn (8 * i) (raw_bits l ++ repeat false 8)).
Proof.
  intros H. assert (i < length l)%nat by (apply nth_error_Some; congruence).
  rewrite (nth_raw _ _ _ H), skipn_app, firstn_app.
  rewrite skipn_length, !length_raw_bits. replace (8 - _)%nat with O by lia.
  cbn [firstn]. now rewrite app_nil_r.
Qed.

(* shifting out the leading bits: both bytes *)
Lemma read_merge a b r : is_byte a -> is_byte b -> 0 < r < 8 ->
  byte_bits (Z.lor (wrapu 8 (Z.shiftl (Z.land a (Z.shiftr 255 r)) r)) (Z.shiftr b (8 - r))) =
  skipn (Z.to_nat r) (byte_bits a) ++ firstn (Z.to_nat r) (byte_bits b).
Proof.
  intros Ha Hb Hr.
  assert (Hl : is_byte (Z.land a (Z.shiftr 255 r)))
    by (apply land_byte; [assumption|apply shiftr_byte; unfold is_byte; lia]).
  assert (Hsk : skipn (Z.to_nat r) (byte_bits (Z.land a (Z.shiftr 255 r))) = skipn (Z.to_nat r) (byte_bits a)).
  { clear Hl. unfold byte_bits. rewrite !Z.land_spec.
    gbits a. cases8 r; try lia; cbv -[andb]; rewrite ?andb_true_r; reflexivity. }
  rewrite bits_merge.
  - rewrite bits_shl by (assumption || lia). rewrite Hsk. f_equal.
    rewrite firstn_app, skipn_length, length_byte_bits, firstn_all2 by (rewrite skipn_length, length_byte_bits; lia).
    replace (_ - _)%nat with O by lia. cbn [firstn]. apply app_nil_r.
  - apply wrapu8_byte.
  - assumption.
  - lia.
  - rewrite bits_shl by (assumption || lia).
    rewrite skipn_app, skipn_all2 by (rewrite skipn_length, length_byte_bits; lia).
    rewrite skipn_length, length_byte_bits. replace (_ - _)%nat with O by lia. reflexivity.
Qed.

Lemma read_one_ok b c k : Forall is_byte (bs_data b) -> 0 <= c ->
  (Z.to_nat (c / 8) + k < length (bs_data b))%nat ->
  exists x, read_one b c (Z.of_nat k) = Ok x /\ is_byte x /\
    byte_bits x = firstn 8 (skipn (Z.to_nat c + 8 * k) (raw_bits (bs_data b) ++ repeat false 8)).
Proof.
  intros HF Hc Hk. unfold read_one.
  replace (c / 8 + Z.of_nat k) with (Z.of_nat (Z.to_nat (c / 8) + k)) by lia.
  set (i := (Z.to_nat (c / 8) + k)%nat) in *.
  rewrite read_byte_ok by assumption.
  destruct (nth_error (bs_data b) i) as [a|] eqn:Ea; [|apply nth_error_None in Ea; lia].
  cbn [unwrap rbind]. assert (Ha : is_byte a) by (eapply nth_Forall; eauto).
  replace (Z.of_nat i + 1) with (Z.of_nat (S i)) by lia.
  set (y := match bs_read_byte b (Z.of_nat (S i)) with Some x => x | None => 0 end).
  set (R := raw_bits (bs_data b) ++ repeat false 8).
  assert (HyR : is_byte y /\ byte_bits y = firstn 8 (skipn (8 * S i) R)).
  { unfold y. destruct (Nat.lt_ge_cases (S i) (length (bs_data b))) as [Hl|Hl].
    - rewrite read_byte_ok by assumption.
      destruct (nth_error (bs_data b) (S i)) as [y'|] eqn:Ey; [|apply nth_error_None in Ey; lia].
      split; [eapply nth_Forall; eauto|]. now apply nth_raw_pad.
    - rewrite read_byte_none by assumption. split; [unfold is_byte; lia|].
      assert (S i = length (bs_data b)) as -> by lia.
      unfold R. rewrite <- length_raw_bits, skipn_app, skipn_all, Nat.sub_diag. reflexivity. }
  destruct HyR as [Hy HyR].
  assert (HaR : byte_bits a = firstn 8 (skipn (8 * i) R)) by (now apply nth_raw_pad).
  assert (HRl : (8 * S i + 8 <= length R)%nat).
  { unfold R. rewrite app_length, length_raw_bits, repeat_length. lia. }
  destruct (Z.eqb_spec (c mod 8) 0) as [E|E].
  - eexists. split; [reflexivity|]. rewrite E. rewrite Z.lor_0_r, Z.shiftl_0_r, Z.shiftr_0_r.
    assert (Hl : Z.land a 255 = a).
    { change 255 with (Z.ones 8). rewrite Z.land_ones by lia. apply Z.mod_small. destruct Ha; lia. }
    rewrite Hl. unfold wrapu. rewrite Z.mod_small by (destruct Ha; lia). split; [assumption|].
    rewrite HaR. f_equal. f_equal. lia.
  - eexists. split; [reflexivity|]. split.
    + apply lor_byte; [apply wrapu8_byte|apply shiftr_byte; [assumption|lia]].
    + rewrite read_merge by (assumption || lia). rewrite HaR, HyR.
      replace (Z.to_nat c + 8 * k)%nat with (Z.to_nat (c mod 8) + 8 * i)%nat by lia.
      rewrite <- skipn_skipn'.
      replace (8 * S i)%nat with (8 + 8 * i)%nat by lia. rewrite <- skipn_skipn'.
      assert (HL : (16 <= length (skipn (8 * i) R))%nat) by (rewrite skipn_length; lia).
      generalize dependent (skipn (8 * i) R). intros Q HaQ HL.
      set (r := Z.to_nat (c mod 8)). assert (Hr : (0 < r < 8)%nat) by lia. clearbody r.
      rewrite <- (firstn_skipn 8 Q) at 3.
      rewrite (skipn_app r (firstn 8 Q)). rewrite firstn_length.
      replace (r - _)%nat with O by lia. cbn [skipn].
      rewrite firstn_app, (firstn_all2 (skipn r (firstn 8 Q)))
        by (rewrite skipn_length, firstn_length; lia).
      f_equal. rewrite skipn_length, firstn_length, firstn_firstn. f_equal. lia.
Qed.


Lemma read_loop_ok b c n : Forall is_byte (bs_data b) -> 0 <= c -> 0 <= n ->
  c + n <= 8 * zlen (bs_data b) ->
  forall fuel k buf, (nbytes n <= length buf)%nat -> (k <= nbytes n)%nat ->
  (nbytes n - k <= fuel)%nat ->
  Forall is_byte (firstn k buf) ->
  raw_bits (firstn k buf) = firstn (8 * k) (skipn (Z.to_nat c) (raw_bits (bs_data b) ++ repeat false 8)) ->
  exists buf', read_loop fuel b c n (Z.of_nat k) buf = Ok (Z.of_nat (nbytes n), buf') /\
    length buf' = length buf /\
    skipn (nbytes n) buf' = skipn (nbytes n) buf /\
    Forall is_byte (firstn (nbytes n) buf') /\
    raw_bits (firstn (nbytes n) buf') =
      firstn (8 * nbytes n) (skipn (Z.to_nat c) (raw_bits (bs_data b) ++ repeat false 8)).
Proof.
  intros HF Hc Hn Hcn fuel. unfold zlen in Hcn.
  induction fuel as [|fuel IH]; intros k buf Hbuf Hk Hfuel Hkb Hkr.
  - assert (k = nbytes n) by lia. subst k. exists buf.
    cbn [read_loop]. destruct (Z.ltb_spec (Z.of_nat (nbytes n) * 8) n) as [H|H];
      [unfold nbytes in H; lia|]. repeat split; assumption.
  - cbn [read_loop]. destruct (Z.ltb_spec (Z.of_nat k * 8) n) as [H|H].
    + assert (Hk' : (k < nbytes n)%nat) by (unfold nbytes; lia).
      destruct (read_one_ok b c k HF Hc ltac:(lia)) as (x & Ex & Hx & Hxb).
      rewrite Ex. cbn [rbind]. rewrite Nat2Z.id, set_nth_ok by lia. cbn [rbind].
      replace (Z.of_nat k + 1) with (Z.of_nat (S k)) by lia.
      set (buf1 := firstn k buf ++ x :: skipn (S k) buf).
      assert (Hl1 : length buf1 = length buf).
      { unfold buf1. rewrite app_length. cbn [length]. rewrite firstn_length, skipn_length. lia. }
      assert (Hf1 : firstn (S k) buf1 = firstn k buf ++ [x]).
      { unfold buf1. replace (S k) with (length (firstn k buf) + 1)%nat at 1
          by (rewrite firstn_length; lia). rewrite firstn_app_2. reflexivity. }
      destruct (IH (S k) buf1) as (buf' & E & L & S1 & F1 & R1); try lia.
      * rewrite Hf1. apply Forall_app. split; [assumption|now apply Forall1].
      * rewrite Hf1, raw_bits_app, raw_single, Hkr, Hxb.
        replace (8 * S k)%nat with (8 * k + 8)%nat by lia.
        rewrite firstn_add, skipn_skipn'. f_equal. f_equal. f_equal. lia.
      * exists buf'. split; [assumption|]. split; [lia|]. split; [|now split].
        rewrite S1. unfold buf1.
        replace (nbytes n) with (nbytes n - S k + S k)%nat by lia.
        rewrite <- !skipn_skipn'. f_equal.
        replace (S k) with (length (firstn k buf ++ [x])) at 1
          by (rewrite app_length, firstn_length; cbn [length]; lia).
        replace (firstn k buf ++ x :: skipn (S k) buf) with ((firstn k buf ++ [x]) ++ skipn (S k) buf)
          by (rewrite <- app_assoc; reflexivity).
        rewrite skipn_app, skipn_all, Nat.sub_diag. reflexivity.
    + assert (k = nbytes n) by (unfold nbytes in *; lia). subst k. exists buf.
      repeat split; try assumption.
Qed.

Lemma mask_bits x m : is_byte x -> 0 < m < 8 ->
  byte_bits (Z.land (wrapu 8 (Z.shiftl 255 (8 - m))) x) =
  firstn (Z.to_nat m) (byte_bits x) ++ repeat false (8 - Z.to_nat m).
Proof.
  intros Hx Hm. unfold byte_bits. rewrite !Z.land_spec.
  cases8 m; try lia; gbits x; cbv -[andb]; cbn [andb]; reflexivity.
Qed.

Lemma app_eq_len {A} (a b c d : list A) : a ++ b = c ++ d -> length a = length c -> a = c /\ b = d.
Proof.
  revert c. induction a as [|x a IH]; intros [|y c] H Hl; try discriminate; [now split|].
  injection H as -> H. injection Hl as Hl. destruct (IH c H Hl) as [-> ->]. now split.
Qed.

(* the amount actually read *)

Lemma firstn_last_split (l : bytes) k : (k < length l)%nat ->
  exists x, nth_error l k = Some x /\ firstn (S k) l = firstn k l ++ [x].
Proof.
  revert k. induction l as [|y l IH]; intros k H; cbn [length] in H; [lia|].
  destruct k as [|k]; [now exists y|].
  destruct (IH k ltac:(lia)) as (x & E & F). exists x. split; [assumption|].
  cbn [firstn app] in *. now rewrite F.
Qed.

Lemma sk_read_ok dbg b xs c n buf : holds b xs -> 0 <= c <= zlen xs -> 0 <= n ->
  n <= 8 * zlen buf ->
  exists buf', let m := avail xs c n in
    sk_read dbg (mkSk b c) buf n = Ok (m, buf', mkSk b (c + m)) /\
    length buf' = length buf /\
    skipn (nbytes m) buf' = skipn (nbytes m) buf /\
    Forall is_byte (firstn (nbytes m) buf') /\
    raw_bits (firstn (nbytes m) buf') =
      firstn (Z.to_nat m) (skipn (Z.to_nat c) xs) ++ repeat false (8 * nbytes m - Z.to_nat m).
Proof.
  intros Hb Hc Hn Hbuf. cbn zeta. unfold sk_read. cbn [sk_data sk_cursor].
  rewrite (bitlen_holds dbg b xs Hb). cbn [rbind].
  destruct (Z.ltb_spec (zlen xs) c); [lia|].
  replace (if zlen xs <? c + n then zlen xs - c else n) with (avail xs c n)
    by (unfold avail; destruct (Z.ltb_spec (zlen xs) (c + n)); lia).
  set (m := avail xs c n).
  assert (Hm : 0 <= m /\ m <= n /\ c + m <= zlen xs) by (unfold m, avail; lia).
  pose proof (holds_len _ _ Hb) as Hlen. destruct Hb as (HF & Hr & HB).
  unfold zlen in *.
  destruct (read_loop_ok b c m HF ltac:(lia) ltac:(lia) ltac:(unfold zlen; lia) (S (length buf)) 0 buf)
    as (buf1 & E & L & S1 & F1 & R1); try (unfold nbytes; lia).
  { constructor. } { reflexivity. }
  change (Z.of_nat 0) with 0 in E. rewrite E. cbn [rbind].
  assert (HR : firstn (Z.to_nat m) (skipn (Z.to_nat c) (raw_bits (bs_data b) ++ repeat false 8)) =
               firstn (Z.to_nat m) (skipn (Z.to_nat c) xs)).
  { rewrite HB, <- app_assoc, skipn_app, firstn_app.
    replace (Z.to_nat m - length (skipn (Z.to_nat c) xs))%nat with O by (rewrite skipn_length; lia).
    cbn [firstn]. apply app_nil_r. }
  destruct (Z.eqb_spec (Z.of_nat (nbytes m)) 0) as [E0|E0].
  { cbn [rbind]. assert (m = 0) by (unfold nbytes in E0; lia).
    exists buf1. split; [reflexivity|]. split; [assumption|]. split; [assumption|].
    split; [assumption|]. rewrite H0. reflexivity. }
  replace (Z.to_nat (Z.of_nat (nbytes m) - 1)) with (nbytes m - 1)%nat by lia.
  set (k := (nbytes m - 1)%nat). assert (Hk : nbytes m = S k) by lia.
  assert (Hkl : (k < length buf1)%nat) by (unfold nbytes in *; lia).
  destruct (firstn_last_split buf1 k Hkl) as (x & Ex & Fx).
  rewrite Ex. cbn [unwrap rbind]. rewrite set_nth_ok by assumption. cbn [rbind].
  eexists. split; [reflexivity|].
  rewrite Hk in *.
  assert (Fx' : Forall is_byte (firstn k buf1) /\ is_byte x).
  { rewrite Fx in F1. apply Forall_app in F1. destruct F1 as [F1 F2]. inversion F2; now split. }
  set (y := Z.land (if m mod 8 =? 0 then 255 else wrapu 8 (Z.shiftl 255 (8 - m mod 8))) x).
  assert (Hy : is_byte y).
  { apply land_byte; [|tauto]. destruct (m mod 8 =? 0); [unfold is_byte; lia|apply wrapu8_byte]. }
  assert (Hf : firstn (S k) (firstn k buf1 ++ y :: skipn (S k) buf1) = firstn k buf1 ++ [y]).
  { replace (S k) with (length (firstn k buf1) + 1)%nat at 1
      by (rewrite firstn_length; lia). rewrite firstn_app_2. reflexivity. }
  split; [|split; [|split]].
  - rewrite app_length. cbn [length]. rewrite firstn_length, skipn_length. lia.
  - rewrite <- S1. replace (firstn k buf1 ++ y :: skipn (S k) buf1)
      with ((firstn k buf1 ++ [y]) ++ skipn (S k) buf1) by (rewrite <- app_assoc; reflexivity).
    replace (S k) with (length (firstn k buf1 ++ [y])) at 1
      by (rewrite app_length, firstn_length; cbn [length]; lia).
    rewrite skipn_app, skipn_all, Nat.sub_diag. reflexivity.
  - rewrite Hf. apply Forall_app. split; [tauto|now apply Forall1].
  - rewrite Hf, raw_bits_app, raw_single. rewrite <- HR.
    rewrite Fx, raw_bits_app, raw_single in R1.
    set (Q := skipn (Z.to_nat c) (raw_bits (bs_data b) ++ repeat false 8)) in *.
    assert (HQ : (8 * S k <= length Q)%nat).
    { apply (f_equal (@length bool)) in R1.
      rewrite app_length, length_raw_bits, !firstn_length, length_byte_bits in R1. lia. }
    replace (8 * S k)%nat with (8 * k + 8)%nat in R1 by lia. rewrite firstn_add in R1.
    apply app_eq_len in R1; [|rewrite length_raw_bits, !firstn_length; lia].
    destruct R1 as [R1 R2].
    assert (HmR : (8 * k < Z.to_nat m <= 8 * k + 8)%nat) by (unfold nbytes in Hk; lia).
    replace (Z.to_nat m) with (8 * k + (Z.to_nat m - 8 * k))%nat at 1 by lia.
    rewrite firstn_add, R1, <- app_assoc. f_equal.
    unfold y. destruct (Z.eqb_spec (m mod 8) 0) as [Em|Em].
    + assert (Hl : Z.land 255 x = x).
      { rewrite Z.land_comm. change 255 with (Z.ones 8). rewrite Z.land_ones by lia.
        apply Z.mod_small. destruct Fx' as [_ [? ?]]. lia. }
      rewrite Hl, R2.
      replace (Z.to_nat m - 8 * k)%nat with 8%nat by lia.
      replace (8 * S k - Z.to_nat m)%nat with O by lia. cbn [repeat]. now rewrite app_nil_r.
    + rewrite mask_bits by (tauto || lia). rewrite R2, firstn_firstn.
      f_equal; [f_equal; lia|f_equal; lia].
Qed.
