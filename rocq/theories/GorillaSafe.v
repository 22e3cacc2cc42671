(* When decompression of arbitrary bytes panics in a release build. *)
From Verif Require Import Rust Bstream BitSpec BstreamProofs BitsProofs GorillaBits Gorilla GorillaSpec GorillaEnc GorillaDec GorillaRound GorillaProofs Compactor.
From Coq Require Import ZifyBool ZifyNat.
Ltac Zify.zify_post_hook ::= Z.div_mod_to_equations.

(* ---- a trailer within the stream: every read succeeds ---- *)
Definition fits (b : bstream) : Prop := 0 <= bs_rem b <= 8 * zlen (bs_data b).

Lemma bitlen_fits dbg b : fits b -> bs_bitlen dbg b = Ok (8 * zlen (bs_data b) - bs_rem b).
Proof.
  intros H. unfold fits in H. unfold bs_bitlen. cbv zeta.
  destruct (Z.leb_spec 0 (zlen (bs_data b) * 8 - bs_rem b)); [f_equal; lia|lia].
Qed.

Lemma sk_read_safe dbg sk buf n : Forall is_byte (bs_data (sk_data sk)) -> fits (sk_data sk) ->
  0 <= sk_cursor sk -> 0 <= n <= 8 * zlen buf ->
  exists l buf' sk', sk_read dbg sk buf n = Ok (l, buf', sk') /\ length buf' = length buf.
Proof.
  intros HF Hb Hc Hn. unfold sk_read. rewrite (bitlen_fits dbg _ Hb). cbn [rbind].
  set (len := 8 * zlen (bs_data (sk_data sk)) - bs_rem (sk_data sk)).
  assert (len <= 8 * zlen (bs_data (sk_data sk))) by (unfold fits in Hb; lia).
  destruct (Z.ltb_spec len (sk_cursor sk)); [do 3 eexists; split; reflexivity|].
  set (m := if len <? sk_cursor sk + n then len - sk_cursor sk else n).
  assert (Hm : 0 <= m <= n /\ sk_cursor sk + m <= len)
    by (unfold m; destruct (Z.ltb_spec len (sk_cursor sk + n)); lia).
  unfold zlen in Hn.
  destruct (read_loop_ok (sk_data sk) (sk_cursor sk) m HF Hc ltac:(lia) ltac:(lia) (S (length buf)) 0 buf)
    as (buf1 & E & L & S1 & F1 & R1); try (unfold nbytes; lia).
  { constructor. } { reflexivity. }
  change (Z.of_nat 0) with 0 in E. rewrite E. cbn [rbind].
  destruct (Z.eqb_spec (Z.of_nat (nbytes m)) 0) as [E0|E0]; cbn [rbind].
  { do 3 eexists. split; [reflexivity|assumption]. }
  replace (Z.to_nat (Z.of_nat (nbytes m) - 1)) with (nbytes m - 1)%nat by lia.
  assert (Hk : (nbytes m - 1 < length buf1)%nat) by (unfold nbytes in *; lia).
  destruct (firstn_last_split buf1 _ Hk) as (x & Ex & Fx).
  rewrite Ex. cbn [unwrap rbind]. rewrite set_nth_ok by assumption. cbn [rbind].
  do 3 eexists. split; [reflexivity|].
  rewrite app_length. cbn [length]. rewrite firstn_length, skipn_length. lia.
Qed.

(* reading leaves the stream alone *)
Lemma sk_read_keep dbg sk buf n l buf' sk' : sk_read dbg sk buf n = Ok (l, buf', sk') ->
  0 <= n -> 0 <= sk_cursor sk -> sk_data sk' = sk_data sk /\ 0 <= sk_cursor sk' /\ 0 <= l <= n /\ sk_cursor sk' = sk_cursor sk + l.
Proof.
  intros H Hn Hc. destruct (sk_read_mono _ _ _ _ _ _ _ H Hn Hc) as (A & B & C & _).
  repeat split; try assumption; lia.
Qed.

(* the width of the window of meaningful bits, in u8 arithmetic *)
Definition width (g : gdec) : Z := (64 - gd_leading g - gd_tailing g) mod 256.
Definition safe (g : gdec) : Prop :=
  Forall is_byte (bs_data (sk_data (gd_src g))) /\ fits (sk_data (gd_src g)) /\
  0 <= sk_cursor (gd_src g) /\ 0 <= gd_leading g <= 31 /\ 0 <= gd_tailing g < 256 /\ width g <= 64.

Lemma arith_rel n z : arith_u false n z = Ok (if in_u n z then z else wrapu n z).
Proof. unfold arith_u. destruct (in_u n z); reflexivity. Qed.
Lemma arith_mod n z : 0 < n -> arith_u false n z = Ok (z mod 2 ^ n).
Proof.
  intros Hn. rewrite arith_rel. unfold in_u, wrapu.
  destruct ((0 <=? z) && (z <? 2 ^ n)) eqn:E; [|reflexivity]. rewrite Z.mod_small by lia. reflexivity.
Qed.
Lemma arith_s_rel n z : exists y, arith_s false n z = Ok y.
Proof. unfold arith_s. destruct (in_s n z); eexists; reflexivity. Qed.
Lemma shr64_rel x s : exists y, shr64 false x s = Ok y.
Proof. unfold shr64. destruct (s <? 64); eexists; reflexivity. Qed.

Lemma one_byte (b : bytes) : length b = 1%nat -> exists x, b = [x].
Proof. destruct b as [|x [|y b]]; intros H; try discriminate. eauto. Qed.

Lemma values_safe g : safe g -> exists o g', gd_values false g = Ok (o, g') /\ safe g'.
Proof.
  intros (HF & Hb & Hc & Hl & Ht & Hw). unfold gd_values.
  destruct (sk_read_safe false (gd_src g) [0] 2 HF Hb Hc ltac:(unfold zlen; cbn; lia)) as (rl & nb & sk1 & E1 & L1).
  rewrite E1. cbn [rbind].
  destruct (sk_read_keep _ _ _ _ _ _ _ E1 ltac:(lia) Hc) as (D1 & C1 & R1).
  assert (HF1 : Forall is_byte (bs_data (sk_data sk1))) by now rewrite D1.
  assert (Hb1 : fits (sk_data sk1)) by now rewrite D1.
  destruct ((2 <? rl) || (rl =? 0)) eqn:Erl; [do 2 eexists; split; [reflexivity|repeat split; cbn [gd_src gd_leading gd_tailing]; (assumption || apply Hb1 || lia || apply Hw)]|].
  destruct (one_byte nb L1) as (x & ->). cbn [nth_error unwrap rbind].
  destruct ((rl =? 1) || (Z.land x 128 =? 0)).
  { do 2 eexists. split; [reflexivity|]. repeat split; cbn [gd_src gd_leading gd_tailing sk_reset sk_data sk_cursor];
      (assumption || apply Hb1 || lia || apply Hw). }
  destruct (Z.land x 192 =? 128).
  { rewrite arith_mod by lia. cbn [rbind]. rewrite arith_mod by lia. cbn [rbind]. change (2 ^ 8) with 256.
    assert (Ew : ((64 - gd_leading g) mod 256 - gd_tailing g) mod 256 = width g).
    { unfold width. rewrite Zminus_mod_idemp_l. reflexivity. }
    rewrite Ew.
    assert (0 <= width g) by (unfold width; apply Z.mod_pos_bound; lia).
    destruct (sk_read_safe false sk1 (vec_with_len 8) (width g) HF1 Hb1 C1 ltac:(unfold zlen; cbn; lia)) as (l & b & sk2 & E2 & L2).
    rewrite E2. cbn [rbind].
    destruct (sk_read_keep _ _ _ _ _ _ _ E2 ltac:(lia) C1) as (D2 & C2 & R2).
    assert (HF2 : Forall is_byte (bs_data (sk_data sk2))) by now rewrite D2.
    assert (Hb2 : fits (sk_data sk2)) by now rewrite D2.
    destruct (negb (l =? width g)).
    { do 2 eexists. split; [reflexivity|]. repeat split; cbn [gd_src gd_leading gd_tailing]; (assumption || apply Hb2 || lia || apply Hw). }
    destruct (shr64_rel (from_be b) (gd_leading g)) as (y & ->). cbn [rbind].
    do 2 eexists. split; [reflexivity|]. repeat split; cbn [gd_src gd_leading gd_tailing]; (assumption || apply Hb2 || lia || apply Hw). }
  destruct (sk_read_safe false sk1 [0] 5 HF1 Hb1 C1 ltac:(unfold zlen; cbn; lia)) as (l2 & b2 & sk2 & E2 & L2).
  rewrite E2. cbn [rbind].
  destruct (sk_read_keep _ _ _ _ _ _ _ E2 ltac:(lia) C1) as (D2 & C2 & R2).
  assert (HF2 : Forall is_byte (bs_data (sk_data sk2))) by now rewrite D2.
  assert (Hb2 : fits (sk_data sk2)) by now rewrite D2.
  assert (B2 : Forall is_byte b2) by (eapply sk_read_buf; [exact E2|assumption|apply Forall1; unfold is_byte; lia]).
  destruct (negb (l2 =? 5)).
  { do 2 eexists. split; [reflexivity|]. repeat split; cbn [gd_src gd_leading gd_tailing]; (assumption || apply Hb2 || lia || apply Hw). }
  destruct (one_byte b2 L2) as (y & ->). cbn [nth_error unwrap rbind].
  destruct (sk_read_safe false sk2 [0] 6 HF2 Hb2 C2 ltac:(unfold zlen; cbn; lia)) as (l3 & b3 & sk3 & E3 & L3).
  rewrite E3. cbn [rbind].
  destruct (sk_read_keep _ _ _ _ _ _ _ E3 ltac:(lia) C2) as (D3 & C3 & R3).
  assert (HF3 : Forall is_byte (bs_data (sk_data sk3))) by now rewrite D3.
  assert (Hb3 : fits (sk_data sk3)) by now rewrite D3.
  assert (B3 : Forall is_byte b3) by (eapply sk_read_buf; [exact E3|assumption|apply Forall1; unfold is_byte; lia]).
  destruct (negb (l3 =? 6)).
  { do 2 eexists. split; [reflexivity|]. repeat split; cbn [gd_src gd_leading gd_tailing]; (assumption || apply Hb3 || lia || apply Hw). }
  destruct (one_byte b3 L3) as (z & ->). cbn [nth_error unwrap rbind].
  assert (Hy : 0 <= Z.shiftr y 3 <= 31).
  { inversion B2 as [|? ? Hy _]; subst. unfold is_byte in Hy. rewrite Z.shiftr_div_pow2 by lia. change (2 ^ 3) with 8. lia. }
  assert (Hz : 0 <= Z.shiftr z 2 <= 63).
  { inversion B3 as [|? ? Hz _]; subst. unfold is_byte in Hz. rewrite Z.shiftr_div_pow2 by lia. change (2 ^ 2) with 4. lia. }
  rewrite arith_mod by lia. cbn [rbind]. rewrite arith_mod by lia. cbn [rbind]. change (2 ^ 8) with 256.
  destruct (sk_read_safe false sk3 (vec_with_len 8) (Z.shiftr z 2) HF3 Hb3 C3 ltac:(unfold zlen; cbn [vec_with_len repeat length]; lia)) as (l4 & b4 & sk4 & E4 & L4).
  rewrite E4. cbn [rbind].
  destruct (sk_read_keep _ _ _ _ _ _ _ E4 ltac:(lia) C3) as (D4 & C4 & R4).
  assert (HF4 : Forall is_byte (bs_data (sk_data sk4))) by now rewrite D4.
  assert (Hb4 : fits (sk_data sk4)) by now rewrite D4.
  destruct (negb (l4 =? _)).
  { do 2 eexists. split; [reflexivity|]. repeat split; cbn [gd_src gd_leading gd_tailing]; (assumption || apply Hb4 || lia || apply Hw). }
  destruct (shr64_rel (from_be b4) (Z.shiftr y 3)) as (w & ->). cbn [rbind].
  do 2 eexists. split; [reflexivity|]. repeat split; cbn [gd_src gd_leading gd_tailing];
    try (assumption || apply Hb4 || lia).
  unfold width. cbn [gd_leading gd_tailing]. lia.
Qed.

Lemma finish_safe g ts : safe g -> exists o g', gd_finish false g ts = Ok (o, g') /\ safe g'.
Proof.
  intros H. unfold gd_finish. destruct (values_safe g H) as (o & g' & E & H'). rewrite E. cbn [rbind].
  destruct o; do 2 eexists; (split; [reflexivity|exact H']).
Qed.

Lemma timestamp_safe g r : safe g -> exists o g', gd_timestamp false g r = Ok (o, g') /\ safe g'.
Proof.
  intros H. pose proof H as (HF & Hb & Hc & Hl & Ht & Hw). unfold gd_timestamp.
  destruct (existsb (Z.eqb r) [8; 16; 32; 64]) eqn:Er; cbn [negb]; [|do 2 eexists; split; [reflexivity|exact H]].
  assert (Hr : r = 8 \/ r = 16 \/ r = 32 \/ r = 64) by (cbn [existsb] in Er; lia).
  destruct (sk_read_safe false (gd_src g) (vec_with_len (Z.to_nat (r / 8))) r HF Hb Hc) as (l & b & sk1 & E & L).
  { unfold zlen, vec_with_len. rewrite repeat_length. lia. }
  rewrite E. cbn [rbind].
  destruct (sk_read_keep _ _ _ _ _ _ _ E ltac:(lia) Hc) as (D1 & C1 & R1 & _).
  assert (HF1 : Forall is_byte (bs_data (sk_data sk1))) by now rewrite D1.
  assert (Hb1 : fits (sk_data sk1)) by now rewrite D1.
  destruct (negb (l =? r)).
  { do 2 eexists. split; [reflexivity|]. repeat split; cbn [gd_src gd_leading gd_tailing]; (assumption || apply Hb1 || lia || apply Hw). }
  match goal with |- context [arith_s false 64 ?z] => destruct (arith_s_rel 64 z) as (d & ->) end. cbn [rbind].
  rewrite arith_mod by lia. cbn [rbind].
  do 2 eexists. split; [reflexivity|]. repeat split; cbn [gd_src gd_leading gd_tailing]; (assumption || apply Hb1 || lia || apply Hw).
Qed.

Lemma next_safe g : safe g -> exists o g', gd_next false g = Ok (o, g') /\ safe g'.
Proof.
  intros H. pose proof H as (HF & Hb & Hc & Hl & Ht & Hw). unfold gd_next.
  destruct (gd_idx g =? 0).
  { destruct (sk_read_safe false (gd_src g) (vec_with_len 16) 128 HF Hb Hc ltac:(unfold zlen; cbn; lia)) as (l & b & sk1 & E & L).
    rewrite E. cbn [rbind]. destruct (sk_read_keep _ _ _ _ _ _ _ E ltac:(lia) Hc) as (D1 & C1 & R1 & _).
    assert (HF1 : Forall is_byte (bs_data (sk_data sk1))) by now rewrite D1.
    assert (Hb1 : fits (sk_data sk1)) by now rewrite D1.
    destruct (negb (l =? 128)); (do 2 eexists; split; [reflexivity|]; repeat split; cbn [gd_with_src gd_src gd_leading gd_tailing]; (assumption || apply Hb1 || lia || apply Hw)). }
  destruct (gd_idx g =? 1).
  { destruct (sk_read_safe false (gd_src g) (vec_with_len 8) 64 HF Hb Hc ltac:(unfold zlen; cbn; lia)) as (l & b & sk1 & E & L).
    rewrite E. cbn [rbind]. destruct (sk_read_keep _ _ _ _ _ _ _ E ltac:(lia) Hc) as (D1 & C1 & R1 & _).
    assert (HF1 : Forall is_byte (bs_data (sk_data sk1))) by now rewrite D1.
    assert (Hb1 : fits (sk_data sk1)) by now rewrite D1.
    destruct (negb (l =? 64)); [do 2 eexists; split; [reflexivity|]; repeat split; cbn [gd_with_src gd_src gd_leading gd_tailing]; (assumption || apply Hb1 || lia || apply Hw)|].
    match goal with |- context [arith_s false 64 ?z] => destruct (arith_s_rel 64 z) as (d & ->) end. cbn [rbind].
    apply finish_safe. repeat split; cbn [gd_with_src gd_src gd_leading gd_tailing]; (assumption || apply Hb1 || lia || apply Hw). }
  destruct (sk_read_safe false (gd_src g) [0] 4 HF Hb Hc ltac:(unfold zlen; cbn; lia)) as (l & b & sk1 & E & L).
  rewrite E. cbn [rbind]. destruct (sk_read_keep _ _ _ _ _ _ _ E ltac:(lia) Hc) as (D1 & C1 & R1 & Q1).
  assert (HF1 : Forall is_byte (bs_data (sk_data sk1))) by now rewrite D1.
  assert (Hb1 : fits (sk_data sk1)) by now rewrite D1.
  assert (Hwith : forall sk, sk_data sk = sk_data sk1 -> 0 <= sk_cursor sk -> safe (gd_with_src g sk)).
  { intros sk Hd Hk. unfold safe, width. cbn [gd_with_src gd_src gd_leading gd_tailing]. rewrite Hd.
    repeat split; (assumption || apply Hb1 || lia || apply Hw). }
  destruct ((l =? 0) || (4 <? l)) eqn:El; [do 2 eexists; split; [reflexivity|apply Hwith; [reflexivity|assumption]]|].
  destruct (one_byte b L) as (f & ->). cbn [nth_error unwrap rbind].
  assert (Hts : forall m, (exists o g', m = Ok (o, g') /\ safe g') ->
    exists o g', (let* (ots, g2) := m in
      match ots with None => Ok (None, g2) | Some ts => gd_finish false (gd_with_t g2 ts) ts end) = Ok (o, g') /\ safe g').
  { intros m (o & g2 & -> & Hg2). cbn [rbind]. destruct o as [ts|]; [|do 2 eexists; split; [reflexivity|exact Hg2]].
    apply finish_safe. exact Hg2. }
  apply Hts.
  destruct (Z.land f 128 =? 0).
  { rewrite arith_mod by lia. cbn [rbind]. do 2 eexists. split; [reflexivity|].
    apply Hwith; cbn [sk_reset sk_data sk_cursor]; [reflexivity|lia]. }
  destruct (Z.land f 192 =? 128); [apply timestamp_safe, Hwith; cbn [sk_reset sk_data sk_cursor]; [reflexivity|lia]|].
  destruct (Z.land f 224 =? 192); [apply timestamp_safe, Hwith; cbn [sk_reset sk_data sk_cursor]; [reflexivity|lia]|].
  destruct (Z.land f 240 =? 224); apply timestamp_safe, Hwith; (reflexivity || assumption).
Qed.

Lemma collect_safe fuel : forall g, safe g -> gd_collect fuel false g <> Some Panic /\
  (forall e, gd_collect fuel false g <> Some (Err e)).
Proof.
  induction fuel as [|fuel IH]; intros g H; cbn [gd_collect]; [split; discriminate|].
  destruct (next_safe g H) as (o & g' & E & H'). rewrite E. destruct o as [p|]; [|split; discriminate].
  destruct (IH g' H') as [I1 I2]. destruct (gd_collect fuel false g') as [[qs|e|]|]; try (split; discriminate).
  - exfalso. exact (I2 e eq_refl).
  - exfalso. exact (I1 eq_refl).
Qed.

(* ---- a trailer beyond the stream: the length wraps and no read is ever short ---- *)
Definition wrapped (b : bstream) : Prop := 8 * zlen (bs_data b) < bs_rem b < 256.

Lemma bitlen_wrapped b : wrapped b ->
  bs_bitlen false b = Ok (2 ^ 64 + 8 * zlen (bs_data b) - bs_rem b).
Proof.
  intros H. unfold wrapped in H. unfold bs_bitlen. cbv zeta. unfold zlen in *.
  destruct (Z.leb_spec 0 (Z.of_nat (length (bs_data b)) * 8 - bs_rem b)); [lia|]. f_equal.
  unfold wrapu. change (2 ^ 64) with 18446744073709551616. lia.
Qed.

Lemma read_loop_no_err k : forall b c n cur buf e, read_loop k b c n cur buf <> Err e.
Proof.
  assert (Hset : forall l i v e, set_nth l i v <> Err e).
  { induction l as [|x l IH]; intros [|i] v e; cbn [set_nth]; try discriminate.
    specialize (IH i v e). destruct (set_nth l i v); cbn [rbind]; congruence. }
  induction k as [|k IH]; intros b c n cur buf e; cbn [read_loop]; destruct (cur * 8 <? n); try discriminate.
  unfold read_one. destruct (bs_read_byte b (c / 8 + cur)); cbn [unwrap rbind]; [|discriminate].
  match goal with |- context [set_nth ?l ?i ?v] => pose proof (Hset l i v) as Hs; destruct (set_nth l i v) as [q|q|] end; cbn [rbind].
  - apply IH.
  - exfalso. exact (Hs q eq_refl).
  - discriminate.
Qed.

Lemma sk_read_wrapped sk buf n : wrapped (sk_data sk) -> 0 <= sk_cursor sk < 1024 -> 0 <= n < 1024 ->
  sk_read false sk buf n = Panic \/
  (exists buf', sk_read false sk buf n = Ok (n, buf', mkSk (sk_data sk) (sk_cursor sk + n)) /\
    length buf' = length buf /\ (0 < n -> sk_cursor sk < 8 * zlen (bs_data (sk_data sk)))).
Proof.
  intros Hb Hc Hn. unfold sk_read. rewrite (bitlen_wrapped _ Hb). cbn [rbind].
  unfold wrapped, zlen in Hb.
  set (len := 2 ^ 64 + 8 * zlen (bs_data (sk_data sk)) - bs_rem (sk_data sk)).
  assert (2048 < len) by (unfold len, zlen; change (2 ^ 64) with 18446744073709551616; lia).
  destruct (Z.ltb_spec len (sk_cursor sk)); [lia|].
  destruct (Z.ltb_spec len (sk_cursor sk + n)); [lia|].
  assert (Hset : forall l i v, set_nth l i v = Panic \/ exists l', set_nth l i v = Ok l' /\ length l' = length l).
  { clear. induction l as [|x l IH]; intros [|i] v; cbn [set_nth]; try (left; reflexivity).
    - right. eexists. split; reflexivity.
    - destruct (IH i v) as [->|(l' & -> & L)]; cbn [rbind]; [left; reflexivity|right; eexists; split; [reflexivity|cbn [length]; congruence]]. }
  assert (Hloop : forall k cur buf0, read_loop k (sk_data sk) (sk_cursor sk) n cur buf0 = Panic \/
    exists cur' buf', read_loop k (sk_data sk) (sk_cursor sk) n cur buf0 = Ok (cur', buf') /\ length buf' = length buf0).
  { induction k as [|k IH]; intros cur buf0; cbn [read_loop]; (destruct (cur * 8 <? n); [|right; do 2 eexists; split; reflexivity]).
    - left; reflexivity.
    - unfold read_one. destruct (bs_read_byte _ (_ + cur)); cbn [unwrap rbind]; [|left; reflexivity].
      match goal with |- context [set_nth ?l ?i ?v] => destruct (Hset l i v) as [->|(q & -> & Lq)] end; cbn [rbind]; [left; reflexivity|].
      rewrite <- Lq. apply IH. }
  destruct (Hloop (S (length buf)) 0 buf) as [->|(cur & buf1 & E & L)]; [left; reflexivity|].
  pose proof (fun P => read_loop_first _ _ _ _ _ _ _ E eq_refl P (proj1 Hc)) as Hfirst.
  rewrite E. cbn [rbind].
  destruct (cur =? 0); cbn [rbind]; [right; eexists; split; [reflexivity|split; assumption]|].
  destruct (nth_error buf1 _); cbn [unwrap rbind]; [|left; reflexivity].
  match goal with |- context [set_nth ?l ?i ?v] => destruct (Hset l i v) as [->|(q & -> & Lq)] end; cbn [rbind]; [left; reflexivity|].
  right. eexists. split; [reflexivity|]. split; [congruence|assumption].
Qed.

Definition lost (g : gdec) : Prop :=
  wrapped (sk_data (gd_src g)) /\ Forall is_byte (bs_data (sk_data (gd_src g))) /\ 0 <= sk_cursor (gd_src g) < 512.

Ltac wread H sk buf n :=
  let b := fresh "b" in let E := fresh "E" in let L := fresh "L" in let R := fresh "R" in
  destruct (sk_read_wrapped sk buf n) as [E|(b & E & L & R)];
  [ first [exact H | (cbn [sk_data]; exact H)] | cbn [sk_cursor]; try lia | try lia
  | rewrite E; left; reflexivity | rewrite E; cbn [rbind] ].

Lemma values_lost g : lost g -> gd_values false g = Panic \/ exists v g', gd_values false g = Ok (Some v, g') /\ lost g'.
Proof.
  intros (Hw & HF & Hc). pose proof Hw as Hw'. unfold wrapped, zlen in Hw'. unfold gd_values.
  wread Hw (gd_src g) [0] 2. specialize (R ltac:(lia)). unfold zlen in R.
  cbn [sk_cursor sk_data]. change ((2 <? 2) || (2 =? 0)) with false. cbv iota.
  destruct (one_byte b L) as (x & ->). cbn [nth_error unwrap rbind]. change (2 =? 1) with false. cbn [orb].
  destruct (Z.land x 128 =? 0).
  { right. do 2 eexists. split; [reflexivity|]. unfold lost. cbn [gd_src sk_reset sk_data sk_cursor]. split; [exact Hw|split; [assumption|lia]]. }
  destruct (Z.land x 192 =? 128).
  { rewrite arith_mod by lia. cbn [rbind]. rewrite arith_mod by lia. cbn [rbind]. change (2 ^ 8) with 256.
    set (w := ((64 - gd_leading g) mod 256 - gd_tailing g) mod 256).
    assert (0 <= w < 256) by (apply Z.mod_pos_bound; lia). clearbody w.
    wread Hw (mkSk (sk_data (gd_src g)) (sk_cursor (gd_src g) + 2)) (vec_with_len 8) w.
    rewrite Z.eqb_refl. cbn [negb].
    destruct (shr64_rel (from_be b) (gd_leading g)) as (y & ->). cbn [rbind].
    right. do 2 eexists. split; [reflexivity|]. unfold lost. cbn [gd_src sk_data sk_cursor]. split; [exact Hw|split; [assumption|lia]]. }
  wread Hw (mkSk (sk_data (gd_src g)) (sk_cursor (gd_src g) + 2)) [0] 5.
  assert (B2 : Forall is_byte b) by (eapply sk_read_buf; [exact E0|assumption|apply Forall1; unfold is_byte; lia]).
  cbn [sk_cursor sk_data]. change (5 =? 5) with true. cbn [negb].
  destruct (one_byte b L0) as (y & ->). cbn [nth_error unwrap rbind].
  wread Hw (mkSk (sk_data (gd_src g)) (sk_cursor (gd_src g) + 2 + 5)) [0] 6.
  assert (B3 : Forall is_byte b) by (eapply sk_read_buf; [exact E1|assumption|apply Forall1; unfold is_byte; lia]).
  cbn [sk_cursor sk_data]. change (6 =? 6) with true. cbn [negb].
  destruct (one_byte b L1) as (z & ->). cbn [nth_error unwrap rbind].
  assert (Hz : 0 <= Z.shiftr z 2 <= 63).
  { inversion B3 as [|? ? Hz _]; subst. unfold is_byte in Hz. rewrite Z.shiftr_div_pow2 by lia. change (2 ^ 2) with 4. lia. }
  rewrite arith_mod by lia. cbn [rbind]. rewrite arith_mod by lia. cbn [rbind].
  wread Hw (mkSk (sk_data (gd_src g)) (sk_cursor (gd_src g) + 2 + 5 + 6)) (vec_with_len 8) (Z.shiftr z 2).
  rewrite Z.eqb_refl. cbn [negb].
  match goal with |- context [shr64 false ?a ?b] => destruct (shr64_rel a b) as (w & ->) end. cbn [rbind].
  right. do 2 eexists. split; [reflexivity|]. unfold lost. cbn [gd_src sk_data sk_cursor]. split; [exact Hw|split; [assumption|lia]].
Qed.

Lemma finish_lost g ts : lost g -> gd_finish false g ts = Panic \/ exists p g', gd_finish false g ts = Ok (Some p, g') /\ lost g'.
Proof.
  intros H. unfold gd_finish. destruct (values_lost g H) as [->|(v & g' & -> & H')]; cbn [rbind]; [left; reflexivity|].
  right. do 2 eexists. split; [reflexivity|exact H'].
Qed.

Lemma next_lost g : lost g -> gd_next false g = Panic \/ exists p g', gd_next false g = Ok (Some p, g') /\ lost g'.
Proof.
  intros (Hw & HF & Hc). pose proof Hw as Hw'. unfold wrapped, zlen in Hw'. unfold gd_next.
  destruct (gd_idx g =? 0).
  { wread Hw (gd_src g) (vec_with_len 16) 128. specialize (R ltac:(lia)). unfold zlen in R.
    change (128 =? 128) with true. cbn [negb].
    right. do 2 eexists. split; [reflexivity|]. unfold lost. cbn [gd_src sk_data sk_cursor]. split; [exact Hw|split; [assumption|lia]]. }
  destruct (gd_idx g =? 1).
  { wread Hw (gd_src g) (vec_with_len 8) 64. specialize (R ltac:(lia)). unfold zlen in R.
    change (64 =? 64) with true. cbn [negb].
    match goal with |- context [arith_s false 64 ?z] => destruct (arith_s_rel 64 z) as (d & ->) end. cbn [rbind].
    apply finish_lost. unfold lost. cbn [gd_src sk_data sk_cursor]. split; [exact Hw|split; [assumption|lia]]. }
  wread Hw (gd_src g) [0] 4. specialize (R ltac:(lia)). unfold zlen in R.
  change ((4 =? 0) || (4 <? 4)) with false. cbv iota.
  destruct (one_byte b L) as (f & ->). cbn [nth_error unwrap rbind sk_cursor sk_data].
  assert (Hwith : forall c, 0 <= c < 512 -> lost (gd_with_src g (mkSk (sk_data (gd_src g)) c))).
  { intros c H. unfold lost. cbn [gd_with_src gd_src sk_data sk_cursor]. split; [exact Hw|split; [assumption|lia]]. }
  assert (Hrange : forall r c, (r = 8 \/ r = 16 \/ r = 32 \/ r = 64) -> 0 <= c < 252 ->
    gd_timestamp false (gd_with_src g (mkSk (sk_data (gd_src g)) c)) r = Panic \/
    exists o g', gd_timestamp false (gd_with_src g (mkSk (sk_data (gd_src g)) c)) r = Ok (Some o, g') /\ lost g').
  { intros r c Hr H. unfold gd_timestamp. replace (existsb (Z.eqb r) [8; 16; 32; 64]) with true
      by (destruct Hr as [->|[->|[->| ->]]]; reflexivity). cbn [negb]. cbn [gd_with_src gd_src].
    wread Hw (mkSk (sk_data (gd_src g)) c) (vec_with_len (Z.to_nat (r / 8))) r.
    rewrite Z.eqb_refl. cbn [negb].
    match goal with |- context [arith_s false 64 ?z] => destruct (arith_s_rel 64 z) as (d & ->) end. cbn [rbind].
    rewrite arith_mod by lia. cbn [rbind].
    right. do 2 eexists. split; [reflexivity|]. unfold lost. cbn [gd_src sk_data sk_cursor]. split; [exact Hw|split; [assumption|lia]]. }
  assert (Hts : forall m, (m = Panic \/ exists o g', m = Ok (Some o, g') /\ lost g') ->
    (let* (ots, g2) := m in
      match ots with None => Ok (None, g2) | Some ts => gd_finish false (gd_with_t g2 ts) ts end) = Panic \/
    exists p g', (let* (ots, g2) := m in
      match ots with None => Ok (None, g2) | Some ts => gd_finish false (gd_with_t g2 ts) ts end) = Ok (Some p, g') /\ lost g').
  { intros m [->|(o & g2 & -> & Hg2)]; [left; reflexivity|]. cbn [rbind]. apply finish_lost. exact Hg2. }
  apply Hts. unfold sk_reset. cbn [sk_data sk_cursor].
  destruct (Z.land f 128 =? 0).
  { rewrite arith_mod by lia. cbn [rbind]. right. do 2 eexists. split; [reflexivity|]. apply Hwith. lia. }
  destruct (Z.land f 192 =? 128); [apply Hrange; lia|].
  destruct (Z.land f 224 =? 192); [apply Hrange; lia|].
  destruct (Z.land f 240 =? 224); apply Hrange; lia.
Qed.

Lemma collect_lost fuel : forall g, lost g -> gd_collect fuel false g = None \/ gd_collect fuel false g = Some Panic.
Proof.
  induction fuel as [|fuel IH]; intros g H; cbn [gd_collect]; [left; reflexivity|].
  destruct (next_lost g H) as [->|(p & g' & -> & H')]; [right; reflexivity|].
  destruct (IH g' H') as [->| ->]; [left|right]; reflexivity.
Qed.

(* ---- the byte strings a decompactor accepts ---- *)
Lemma accepted_shape data : Forall is_byte data -> (exists k, decompactor_from CGorilla data = Ok k) ->
  data = [1] \/ exists d r, data = d ++ [r; 1] /\ Forall is_byte d /\ is_byte r.
Proof.
  intros HF (k & Hk). unfold decompactor_from in Hk.
  destruct data as [|x data' _] using rev_ind; [discriminate|].
  rewrite pop_snoc in Hk. destruct (Z.eqb_spec x (ctag CGorilla)) as [->|]; [|discriminate].
  change (ctag CGorilla) with 1. apply Forall_app in HF. destruct HF as [HF _].
  destruct data' as [|r d _] using rev_ind; [left; reflexivity|right].
  apply Forall_app in HF. destruct HF as [HF Hr]. inversion Hr; subst.
  exists d, r. split; [rewrite <- app_assoc; reflexivity|split; assumption].
Qed.

Lemma decompress_shape dbg d r :
  decompress dbg CGorilla (d ++ [r; 1]) = gd_collect (S (8 * length d)) dbg (gd_new (mkBs d r)).
Proof.
  unfold decompress, decompactor_from. change (d ++ [r; 1]) with (d ++ ([r] ++ [1])). rewrite app_assoc, pop_snoc.
  change (1 =? ctag CGorilla) with true. cbv iota.
  assert (Hd : bs_from_bytes (d ++ [r]) = mkBs d r).
  { unfold bs_from_bytes. rewrite removelast_last, last_last. destruct d; reflexivity. }
  rewrite Hd. reflexivity.
Qed.

Lemma release_panics d r : Forall is_byte d -> is_byte r ->
  (8 * zlen d < r -> decompress false CGorilla (d ++ [r; 1]) = Some Panic) /\
  (r <= 8 * zlen d -> exists ps, decompress false CGorilla (d ++ [r; 1]) = Some (Ok ps)).
Proof.
  intros HF Hr. unfold is_byte in Hr.
  assert (HF' : Forall is_byte (d ++ [r; 1])).
  { apply Forall_app. split; [assumption|]. repeat constructor; unfold is_byte; lia. }
  destruct (decompress_total false _ HF') as (x & Ex & _).
  split; intros H; rewrite decompress_shape in *.
  - destruct (collect_lost (S (8 * length d)) (gd_new (mkBs d r))) as [E|E]; [|congruence|congruence].
    unfold lost, wrapped. cbn [gd_new gd_src sk_new sk_data sk_cursor bs_data bs_rem]. repeat split; try assumption; lia.
  - destruct (collect_safe (S (8 * length d)) (gd_new (mkBs d r))) as [N1 N2].
    { unfold safe, fits, width. cbn [gd_new gd_src sk_new sk_data sk_cursor bs_data bs_rem gd_leading gd_tailing].
      change ((64 - 0 - 0) mod 256) with 64. repeat split; try assumption; lia. }
    rewrite Ex in *. destruct x as [ps|e|]; [exists ps; reflexivity| |].
    + exfalso. exact (N2 e eq_refl).
    + exfalso. exact (N1 eq_refl).
Qed.

Lemma release_build data : Forall is_byte data -> (exists k, decompactor_from CGorilla data = Ok k) ->
  ((exists d r, data = d ++ [r; 1] /\ 8 * zlen d < r) /\ decompress false CGorilla data = Some Panic) \/
  (~ (exists d r, data = d ++ [r; 1] /\ 8 * zlen d < r) /\ exists ps, decompress false CGorilla data = Some (Ok ps)).
Proof.
  intros HF Hk. destruct (accepted_shape data HF Hk) as [->|(d & r & -> & Hd & Hr)].
  - right. split; [|exists []; vm_compute; reflexivity].
    intros (d & r & E & _). apply (f_equal (@length Z)) in E. rewrite app_length in E. cbn [length] in E. lia.
  - destruct (release_panics d r Hd Hr) as [H1 H2]. destruct (Z.lt_ge_cases (8 * zlen d) r) as [H|H].
    + left. split; [exists d, r; split; [reflexivity|assumption]|auto].
    + right. split; [|apply H2; lia]. intros (d' & r' & E & H').
      change [r; 1] with ([r] ++ [1]) in E. change [r'; 1] with ([r'] ++ [1]) in E. rewrite !app_assoc in E.
      apply app_inj_tail in E. destruct E as [E _]. apply app_inj_tail in E. destruct E as [-> ->]. lia.
Qed.

Lemma release_own dbg ps bytes k : Forall tp_ok ps ->
  compactor_compact_vec dbg (compactor_new CGorilla) ps = Ok (bytes, k) ->
  exists qs, decompress false CGorilla bytes = Some (Ok qs).
Proof.
  intros HF H. cbn [compactor_compact_vec compactor_new] in H. change gc_new with (gc_of st0 bs_new) in H.
  destruct (comp_all dbg ps st0 bs_new [] st0_ok HF holds_nil) as [[E _]|(bs & E & Hb & _)]; rewrite E in H; [discriminate|].
  cbn [rbind] in H. match type of H with Ok (?a, _) = Ok _ => assert (bytes = a) as -> by congruence end.
  unfold gc_as_bytes_vec, bs_as_bytes_vec. cbn [gc_of gc_bs]. rewrite <- app_assoc. cbn [app].
  pose proof (holds_len _ _ Hb) as Hlen. destruct Hb as (Hd & Hr & _).
  destruct (release_panics (bs_data bs) (bs_rem bs) Hd) as [_ H2]; [unfold is_byte; lia|].
  apply H2. unfold zlen in *. lia.
Qed.
