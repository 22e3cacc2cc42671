(* Proofs about chunk directory names. *)
From Coq Require Import ZifyBool ZifyNat.
From Verif Require Import Rust StringProofs Prog Storage Chunk ChunkProofs Utils DirSpec TiKvInit Db.
Ltac Zify.zify_post_hook ::= Z.div_mod_to_equations.


Lemma pack_value s e : u64 s -> u64 e -> Z.lor (Z.shiftl s 64) e = s * 2 ^ 64 + e.
Proof.
  intros Hs He. unfold u64 in *. rewrite <- Z.shiftl_mul_pow2 by lia.
  assert (Z.land (Z.shiftl s 64) e = 0) as D; [|rewrite <- Z.lxor_lor, Z.add_nocarry_lxor by exact D; reflexivity].
  apply Z.bits_inj'. intros n Hn.
  rewrite Z.bits_0, Z.land_spec. destruct (Z.lt_ge_cases n 64).
  - rewrite Z.shiftl_spec_low by lia. reflexivity.
  - rewrite (Z.bits_above_log2 e), andb_false_r; [reflexivity|lia|].
    destruct (Z.eq_dec e 0) as [->|Ne]; [cbn; lia|]. apply Z.log2_lt_pow2; [lia|].
    apply Z.lt_le_trans with (2 ^ 64); [lia|]. apply Z.pow_le_mono_r; lia.
Qed.

Lemma unpack_value v : 0 <= v < 2 ^ 128 ->
  Z.shiftr (Z.land v (2 ^ 128 - 1 - (2 ^ 64 - 1))) 64 = v / 2 ^ 64 /\ Z.land v (2 ^ 64 - 1) = v mod 2 ^ 64.
Proof.
  intros Hv. split.
  - rewrite Z.shiftr_land. rewrite !Z.shiftr_div_pow2 by lia.
    replace ((2 ^ 128 - 1 - (2 ^ 64 - 1)) / 2 ^ 64) with (Z.ones 64) by reflexivity.
    rewrite Z.land_ones by lia. apply Z.mod_small. change (2 ^ 128) with (2 ^ 64 * 2 ^ 64) in Hv.
    split; [apply Z.div_pos; lia|]. apply Z.div_lt_upper_bound; lia.
  - change (2 ^ 64 - 1) with (Z.ones 64). apply Z.land_ones. lia.
Qed.

Theorem decode_encode s e : u64 s -> u64 e -> decode_chunk_dir (encode_chunk_dir s e) = Ok (s, e).
Proof.
  intros Hs He. unfold decode_chunk_dir, encode_chunk_dir, to_hex. rewrite pack_value by assumption.
  assert (B: 0 <= s * 2 ^ 64 + e < 2 ^ 128) by (unfold u64 in *; change (2 ^ 128) with (2 ^ 64 * 2 ^ 64); nia).
  rewrite parse_to_radix by lia. cbv zeta. destruct (unpack_value _ B) as [-> ->].
  unfold u64 in *. f_equal. f_equal.
  - rewrite Z.div_add_l by lia. rewrite Z.div_small by lia. lia.
  - rewrite Z.add_comm, Z.mod_add by lia. apply Z.mod_small. lia.
Qed.

Theorem encode_inj s e s' e' : u64 s -> u64 e -> u64 s' -> u64 e' ->
  encode_chunk_dir s e = encode_chunk_dir s' e' -> s = s' /\ e = e'.
Proof.
  intros Hs He Hs' He' E. pose proof (decode_encode s e Hs He) as D. rewrite E, decode_encode in D by assumption.
  split; congruence.
Qed.

(** ** which names are accepted *)
Lemma char_digit_hex c d : char_digit 16 c = Some d <-> hex_digit c d.
Proof.
  unfold char_digit, hex_digit.
  destruct ((48 <=? c) && (c <=? 57)) eqn:E1; [|destruct ((97 <=? c) && (c <=? 122)) eqn:E2; [|destruct ((65 <=? c) && (c <=? 90)) eqn:E3]].
  - destruct (c - 48 <? 16) eqn:L; [|lia]. split; [intros [= <-]; lia|intros H; f_equal; lia].
  - destruct (c - 87 <? 16) eqn:L; (split; [intros [= <-]; lia|intros H; f_equal; lia]) || (split; [discriminate|lia]).
  - destruct (c - 55 <? 16) eqn:L; (split; [intros [= <-]; lia|intros H; f_equal; lia]) || (split; [discriminate|lia]).
  - split; [discriminate|lia].
Qed.
Lemma hex_digit_range c d : hex_digit c d -> 0 <= d < 16.
Proof. unfold hex_digit. lia. Qed.
Lemma hex_number_bound ds : Forall (fun d => 0 <= d < 16) ds -> 0 <= hex_number ds < 16 ^ Z.of_nat (length ds).
Proof.
  induction 1 as [|d ds Hd H IH]; [cbn; lia|]. cbn [hex_number length]. rewrite Nat2Z.inj_succ, Z.pow_succ_r by lia. nia.
Qed.
Lemma hex_digits_bound text ds : hex_digits text ds -> Forall (fun d => 0 <= d < 16) ds.
Proof. induction 1 as [|c d t ds H _ IH]; constructor; [eapply hex_digit_range; exact H|assumption]. Qed.

Lemma parse_digits_spec max text : forall acc v, 0 <= acc -> acc <= max ->
  (parse_digits 16 max acc text = Some v <->
   exists ds, hex_digits text ds /\ v = acc * 16 ^ Z.of_nat (length ds) + hex_number ds /\ v <= max).
Proof.
  induction text as [|c text IH]; intros acc v Ha Hm; cbn [parse_digits].
  - split.
    + intros [= <-]. exists []. split; [constructor|]. cbn. lia.
    + intros (ds & H & -> & _). inversion H; subst. cbn. f_equal. lia.
  - destruct (char_digit 16 c) as [d|] eqn:E.
    + apply char_digit_hex in E. pose proof (hex_digit_range _ _ E) as Rd.
      destruct (acc * 16 + d <=? max) eqn:L.
      * rewrite IH by lia. split; intros (ds & H & Hv & Hl).
        -- exists (d :: ds). split; [constructor; assumption|]. split; [|assumption]. cbn [hex_number length].
           rewrite Nat2Z.inj_succ, Z.pow_succ_r by lia. nia.
        -- inversion H as [|c' d' t' ds' H1 H2]; subst. exists ds'. split; [assumption|].
           assert (d' = d) as -> by (unfold hex_digit in *; lia). cbn [hex_number length] in *.
           rewrite Nat2Z.inj_succ, Z.pow_succ_r in * by lia. nia.
      * split; [discriminate|]. intros (ds & H & Hv & Hl). inversion H as [|c' d' t' ds' H1 H2]; subst.
        assert (d' = d) as -> by (unfold hex_digit in *; lia). cbn [hex_number length] in *.
        pose proof (hex_number_bound ds' (hex_digits_bound _ _ H2)). rewrite Nat2Z.inj_succ, Z.pow_succ_r in * by lia.
        assert (1 <= 16 ^ Z.of_nat (length ds')) by (apply (Z.pow_le_mono_r 16 0); lia). nia.
    + split; [discriminate|]. intros (ds & H & _). inversion H as [|c' d' t' ds' H1 H2]; subst.
      apply char_digit_hex in H1. congruence.
Qed.

Lemma parse_hex text v : parse_u 128 16 text = Some v <-> hex_text text v.
Proof.
  assert (P: forall body, body <> [] -> (parse_digits 16 (2 ^ 128 - 1) 0 body = Some v <->
    exists ds, hex_digits body ds /\ v = hex_number ds /\ v < 2 ^ 128)).
  { intros body _. rewrite parse_digits_spec by lia. split; intros (ds & H & Hv & Hl); exists ds; (split; [assumption|]); lia. }
  assert (NP: forall b ds, ~ hex_digits (43 :: b) ds).
  { intros b ds H. inversion H as [|c d t ds' H1 H2]; subst. unfold hex_digit in H1. lia. }
  unfold parse_u, hex_text. destruct text as [|c text].
  - split; [discriminate|]. intros (body & ds & [E|E] & N & _); [now subst|discriminate].
  - destruct (c =? 43) eqn:E.
    + assert (c = 43) as -> by lia. destruct text as [|c' text].
      * split; [discriminate|]. intros (body & ds & [Eb|Eb] & N & Hd & _).
        -- subst. now apply NP in Hd.
        -- congruence.
      * rewrite P by discriminate. split.
        -- intros (ds & H). exists (c' :: text), ds. split; [now right|]. split; [discriminate|]. assumption.
        -- intros (body & ds & [Eb|Eb] & N & Hd & Hv).
           ++ subst body. now apply NP in Hd.
           ++ assert (body = c' :: text) as -> by congruence. exists ds. auto.
    + rewrite P by discriminate. split.
      * intros (ds & H). exists (c :: text), ds. split; [now left|]. split; [discriminate|]. assumption.
      * intros (body & ds & [Eb|Eb] & N & Hd & Hv); [|injection Eb as -> _; lia]. subst body. exists ds. auto.
Qed.
Lemma hex_text_range text v : hex_text text v -> 0 <= v < 2 ^ 128.
Proof.
  intros (body & ds & _ & _ & H & -> & L). split; [|assumption].
  apply (hex_number_bound ds (hex_digits_bound _ _ H)).
Qed.

Theorem decode_exact text :
  (forall s e, decode_chunk_dir text = Ok (s, e) <-> u64 s /\ u64 e /\ hex_text text (s * 2 ^ 64 + e)) /\
  ((forall v, ~ hex_text text v) -> decode_chunk_dir text = Err ParseErr) /\
  decode_chunk_dir text <> Panic.
Proof.
  unfold decode_chunk_dir. destruct (parse_u 128 16 text) as [v|] eqn:E.
  - apply parse_hex in E. pose proof (hex_text_range _ _ E) as B. cbv zeta. destruct (unpack_value v B) as [-> ->].
    assert (U: u64 (v / 2 ^ 64) /\ u64 (v mod 2 ^ 64)).
    { unfold u64. change (2 ^ 128) with (2 ^ 64 * 2 ^ 64) in B. split; [|apply Z.mod_pos_bound; lia].
      split; [apply Z.div_pos; lia|apply Z.div_lt_upper_bound; lia]. }
    assert (V: v = v / 2 ^ 64 * 2 ^ 64 + v mod 2 ^ 64) by (pose proof (Z.div_mod v (2 ^ 64)); lia).
    split; [|split; [intros H; exfalso; eapply H; exact E|discriminate]]. intros s e. split.
    + intros Q. assert (s = v / 2 ^ 64) as -> by congruence. assert (e = v mod 2 ^ 64) as -> by congruence.
      split; [apply U|]. split; [apply U|]. now rewrite <- V.
    + intros (Hs & He & H). apply parse_hex in E. apply parse_hex in H. assert (v = s * 2 ^ 64 + e) by congruence.
      unfold u64 in *. subst v. f_equal. f_equal.
      * rewrite Z.div_add_l by lia. rewrite Z.div_small by lia. lia.
      * rewrite Z.add_comm, Z.mod_add by lia. apply Z.mod_small. lia.
  - split; [|split; [reflexivity|discriminate]]. intros s e. split; [discriminate|]. intros (_ & _ & H).
    apply parse_hex in H. congruence.
Qed.

(** ** paths *)
Lemma utf8_pos c : 1 <= utf8_len c.
Proof. unfold utf8_len. destruct (_ <? _); [lia|]. destruct (_ <? _); [lia|]. destruct (_ <? _); lia. Qed.
Lemma str_len_app a b : str_len (a ++ b) = str_len a + str_len b.
Proof. induction a as [|c a IH]; cbn [app str_len]; lia. Qed.
Lemma str_len_ge s : Z.of_nat (length s) <= str_len s.
Proof. induction s as [|c s IH]; cbn [length str_len]; [lia|]. pose proof (utf8_pos c). lia. Qed.
Lemma str_len_ascii s : ascii s -> str_len s = Z.of_nat (length s).
Proof. induction 1 as [|c s Hc H IH]; [reflexivity|]. cbn [str_len length]. unfold utf8_len. replace (c <? 128) with true by lia. lia. Qed.

Lemma rfind_none c s : ~ In c s -> rfind c s = None.
Proof.
  induction s as [|x s IH]; intros H; [reflexivity|]. cbn [rfind]. rewrite IH by (intros K; apply H; now right).
  destruct (x =? c) eqn:E; [|reflexivity]. exfalso. apply H. left. lia.
Qed.
Lemma rfind_last c a b : ~ In c b -> rfind c (a ++ c :: b) = Some (str_len a).
Proof.
  intros H. induction a as [|x a IH]; cbn [app rfind str_len].
  - rewrite rfind_none by assumption. now rewrite Z.eqb_refl.
  - now rewrite IH.
Qed.

Lemma join_shape dir name : dir <> [] -> exists d, join dir name = d ++ slash :: name /\ surplus d = surplus dir.
Proof.
  intros N. unfold join. destruct dir as [|x dir]; [contradiction|]. remember (x :: dir) as D.
  destruct (last D 0 =? slash) eqn:E.
  - destruct (@exists_last _ D) as (D' & y & ->); [now rewrite HeqD|]. rewrite last_last in E.
    assert (y = slash) as -> by lia. exists D'. split; [now rewrite <- app_assoc|].
    unfold surplus. rewrite str_len_app, app_length. cbn [str_len length]. change (utf8_len slash) with 1. lia.
  - exists D. split; reflexivity.
Qed.

Theorem extract_exact dir name : dir <> [] -> plain_name name ->
  extract_name (join dir name) = Ok (skipn (Z.to_nat (surplus dir)) name).
Proof.
  intros N H. destruct (join_shape dir name N) as (d & -> & <-). unfold extract_name. rewrite rfind_last by exact H.
  cbn [unwrap rbind]. rewrite str_len_app. cbn [str_len]. change (utf8_len slash) with 1.
  replace (str_len d + (1 + str_len name) - (str_len d + 1)) with (str_len name) by lia.
  pose proof (str_len_ge d). pose proof (str_len_ge name). unfold surplus.
  rewrite skipn_app. rewrite (skipn_all2 d) by lia. cbn [app].
  replace (Z.to_nat (str_len d + 1) - length d)%nat with (S (Z.to_nat (str_len d - Z.of_nat (length d)))) by lia.
  cbn [skipn]. f_equal. apply firstn_all2. rewrite skipn_length. lia.
Qed.
Corollary extract_ascii dir name : dir <> [] -> ascii dir -> plain_name name -> extract_name (join dir name) = Ok name.
Proof.
  intros N A H. rewrite extract_exact by assumption. unfold surplus. rewrite str_len_ascii by assumption.
  rewrite Z.sub_diag. reflexivity.
Qed.
Lemma surplus_pos dir : (exists c, In c dir /\ 128 <= c) -> 1 <= surplus dir.
Proof.
  unfold surplus. induction dir as [|x dir IH]; intros (c & H & L); [contradiction|]. cbn [str_len length].
  pose proof (utf8_pos x). pose proof (str_len_ge dir). destruct H as [->|H].
  - unfold utf8_len in *. replace (c <? 128) with false in * by lia. destruct (c <? 2048); [lia|]. destruct (c <? 65536); lia.
  - specialize (IH (ex_intro _ c (conj H L))). lia.
Qed.
Lemma hex_plain s e : 0 <= s -> 0 <= e -> plain_name (encode_chunk_dir s e).
Proof.
  intros Hs He H. unfold encode_chunk_dir, to_hex in H.
  assert (0 <= Z.lor (Z.shiftl s 64) e) as P by (apply Z.lor_nonneg; split; [apply Z.shiftl_nonneg; lia|lia]).
  destruct (to_radix_shape 16 _ ltac:(lia) P) as [_ F]. rewrite Forall_forall in F. apply F in H. unfold slash in H. lia.
Qed.

(** ** a shortened name never stands for the same window *)
Lemma to_radix_lead n : forall z acc, 0 < z < 2 ^ Z.of_nat n ->
  exists c t, to_radix_fuel n 16 z acc = c :: t /\ c <> 48 /\ (length acc <= length t)%nat.
Proof.
  induction n as [|n IH]; intros z acc H; [cbn in H; lia|]. cbn [to_radix_fuel]. destruct (z / 16 =? 0) eqn:E.
  - eexists _, acc. split; [reflexivity|]. split; [|lia]. unfold digit_char. destruct (z mod 16 <? 10); lia.
  - destruct (IH (z / 16) (digit_char (z mod 16) :: acc)) as (c & t & -> & H1 & H2).
    + rewrite Nat2Z.inj_succ, Z.pow_succ_r in H by lia. split; [lia|]. lia.
    + exists c, t. split; [reflexivity|]. split; [assumption|]. cbn [length] in H2. lia.
Qed.

Lemma hex_number_app a b : hex_number (a ++ b) = hex_number a * 16 ^ Z.of_nat (length b) + hex_number b.
Proof.
  induction a as [|d a IH]; [reflexivity|]. cbn [app hex_number]. rewrite IH, app_length, Nat2Z.inj_add, Z.pow_add_r by lia. ring.
Qed.

Theorem shortened_value s e k s' e' : u64 s -> u64 e -> (0 < k)%nat ->
  decode_chunk_dir (skipn k (encode_chunk_dir s e)) = Ok (s', e') ->
  exists m q, 1 <= q /\ s * 2 ^ 64 + e = q * 16 ^ Z.of_nat m + (s' * 2 ^ 64 + e') /\ s' * 2 ^ 64 + e' < 16 ^ Z.of_nat m.
Proof.
  intros Hs He Hk H. destruct (decode_exact (skipn k (encode_chunk_dir s e))) as [D _]. apply D in H. clear D.
  destruct H as (_ & _ & body & ds & Hb & Nb & Hds & Hv & _).
  assert (B: 0 <= s * 2 ^ 64 + e < 2 ^ 128) by (unfold u64 in *; change (2 ^ 128) with (2 ^ 64 * 2 ^ 64); nia).
  set (v := s * 2 ^ 64 + e) in *.
  assert (EN: encode_chunk_dir s e = to_radix 16 v) by (unfold encode_chunk_dir, to_hex; now rewrite pack_value).
  rewrite EN in Hb.
  assert (NP: Forall (fun c => 48 <= c <= 57 \/ 97 <= c <= 102) (to_radix 16 v)) by (apply to_radix_shape; lia).
  assert (Hb': skipn k (to_radix 16 v) = body).
  { destruct Hb as [Hb|Hb]; [assumption|]. exfalso. rewrite <- (firstn_skipn k (to_radix 16 v)), Hb in NP.
    apply Forall_app in NP. destruct NP as [_ NP]. inversion NP; lia. }
  clear Hb. destruct (decode_exact (encode_chunk_dir s e)) as [D _].
  pose proof (proj1 (D s e) (decode_encode s e Hs He)) as (_ & _ & body2 & ds2 & Hb2 & _ & Hds2 & Hv2 & _). fold v in Hv2.
  assert (Hb2': to_radix 16 v = body2).
  { rewrite EN in Hb2. destruct Hb2 as [Hb2|Hb2]; [assumption|]. exfalso. rewrite Hb2 in NP. inversion NP; lia. }
  clear Hb2 D. subst body2. destruct (Z.eq_dec v 0) as [Z0|NZ].
  { rewrite Z0 in Hb'. change (to_radix 16 0) with [48] in Hb'. destruct k as [|k]; [lia|]. cbn in Hb'. destruct k; cbn in Hb'; congruence. }
  destruct (to_radix_lead 129 v []) as (c & t & Et & Nc & _).
  { change (Z.of_nat 129) with 129. lia. }
  fold (to_radix 16 v) in Et. rewrite Et in Hb', Hds2. destruct k as [|k]; [lia|]. cbn [skipn] in Hb'.
  inversion Hds2 as [|? d ? ds3 Hd Hds3]; subst.
  rewrite <- (firstn_skipn k t) in Hds3. apply Forall2_app_inv_l in Hds3. destruct Hds3 as (da & db & Ha & Hb & ->).
  assert (db = ds).
  { clear - Hb Hds. unfold hex_digits in *. revert ds Hds. induction Hb as [|x y l l' H1 H2 IH]; intros ds Hds; inversion Hds; subst; [reflexivity|].
    f_equal; [|now apply IH]. unfold hex_digit in *. lia. }
  subst db. cbn [hex_number] in Hv2. rewrite hex_number_app, app_length, Nat2Z.inj_add, Z.pow_add_r in Hv2 by lia.
  pose proof (hex_number_bound da (hex_digits_bound _ _ Ha)).
  pose proof (hex_number_bound ds (hex_digits_bound _ _ Hds)).
  assert (1 <= d) by (unfold hex_digit in Hd; lia).
  assert (0 < 16 ^ Z.of_nat (length da)) by (apply Z.pow_pos_nonneg; lia).
  exists (length ds), (d * 16 ^ Z.of_nat (length da) + hex_number da). split; [nia|]. split; [|lia].
  rewrite Hv2, Hv. ring.
Qed.

Theorem shortened s e k : u64 s -> u64 e -> (0 < k)%nat ->
  decode_chunk_dir (skipn k (encode_chunk_dir s e)) <> Ok (s, e).
Proof.
  intros Hs He Hk H. destruct (shortened_value s e k s e Hs He Hk H) as (m & q & H1 & H2 & H3).
  assert (0 < 16 ^ Z.of_nat m) by (apply Z.pow_pos_nonneg; lia). nia.
Qed.

Theorem shortened_start s e k s' e' : u64 s -> u64 e -> (0 < k)%nat -> 0 < s ->
  decode_chunk_dir (skipn k (encode_chunk_dir s e)) = Ok (s', e') -> s' < s.
Proof.
  intros Hs He Hk H0 H. destruct (shortened_value s e k s' e' Hs He Hk H) as (m & q & H1 & H2 & H3).
  apply decode_exact in H. destruct H as (Hs' & He' & _). unfold u64 in *.
  destruct (Z_le_gt_dec (Z.of_nat m) 16) as [L|G].
  - assert (16 ^ Z.of_nat m <= 16 ^ 16) by (apply Z.pow_le_mono_r; lia). change (16 ^ 16) with (2 ^ 64) in *. nia.
  - replace (Z.of_nat m) with (16 + (Z.of_nat m - 16)) in H2 by lia. rewrite Z.pow_add_r in H2 by lia. change (16 ^ 16) with (2 ^ 64) in H2.
    assert (0 < 16 ^ (Z.of_nat m - 16)) by (apply Z.pow_pos_nonneg; lia).
    set (b := 16 ^ (Z.of_nat m - 16)) in *. nia.
Qed.

Theorem lost_entry cf s e f : u64 s -> u64 e -> 0 < s -> (exists c, In c (cf_base cf) /\ 128 <= c) ->
  match run fhandler (read_entry cf (encode_chunk_dir s e)) f with
  | Some (Ok (Some d), _) => c_start (dc_chunk d) < s
  | Some (Panic, _) | None => False
  | _ => True
  end.
Proof.
  intros Hs He H0 Hb. pose proof (surplus_pos _ Hb) as Hp.
  assert (N: cf_base cf <> []) by (destruct Hb as (c & Hc & _); intros E; rewrite E in Hc; contradiction).
  unfold read_entry. rewrite extract_exact by (try assumption; apply hex_plain; unfold u64 in *; lia).
  destruct (decode_chunk_dir _) as [[s' e']|x|] eqn:D; [|exact I|].
  2: { exfalso. exact (proj2 (proj2 (decode_exact _)) D). }
  apply shortened_start in D; try assumption; [|lia].
  unfold read_config_from_dir, qbind. rewrite !run_bind. cbn [call run fhandler].
  destruct (if hd false (f_faults f) then None else _) as [[|o]|]; cbn [run]; try exact I.
  rewrite run_bind. cbn [call run fhandler]. unfold read_storage, read_indexer.
  assert (R1: forall id, krun (tikv_storage_read id) [] = (Ok None, [])) by reflexivity.
  assert (R2: forall id, krun (tikv_indexer_read id) [] = (Ok None, [])) by reflexivity.
  destruct (cf_st cf), (cf_ix cf); rewrite ?R1, ?R2; cbn [rmap option_map].
  all: unfold qbind; repeat (rewrite run_bind; cbn [call run fhandler bind]; try (destruct (hd false _); cbn [run bind]; [exact I|])).
  all: try exact D; try exact I. cbn. destruct (hd false (tl (tl (f_faults f)))); [exact I|exact D].
Qed.
