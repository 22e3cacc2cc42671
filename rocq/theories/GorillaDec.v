(* The decoder against the bits the encoder emits. *)
From Verif Require Import Rust Bstream BitSpec BstreamProofs BitsProofs GorillaBits Gorilla GorillaSpec GorillaEnc.
From Coq Require Import ZifyBool ZifyNat.
Ltac Zify.zify_post_hook ::= Z.div_mod_to_equations.

Definition gd_of (s : st) (b : bstream) (c : Z) : gdec :=
  mkGd (mkSk b c) (s_t s) (s_v s) (fst (s_w s)) (snd (s_w s)) (s_d s) (s_n s).

(* reading at most 8 bits into a one-byte buffer *)
Lemma rd_byte dbg b pre rest n : holds b (pre ++ rest) -> (n <= 8)%nat ->
  exists y, let m := Nat.min n (length rest) in
    sk_read dbg (mkSk b (zlen pre)) [0] (Z.of_nat n)
      = Ok (Z.of_nat m, [y], mkSk b (zlen pre + Z.of_nat m)) /\
    is_byte y /\ byte_bits y = firstn m rest ++ repeat false (8 - m).
Proof.
  intros Hb Hn. destruct (rd_gen dbg b pre rest 1 n Hb ltac:(lia)) as (buf & E & L & F & R).
  destruct buf as [|y [|? ?]]; try discriminate. exists y. cbn zeta in *.
  change (repeat 0 1) with [0] in E. split; [exact E|]. inversion F; subst.
  split; [assumption|]. rewrite raw_single in R. exact R.
Qed.

(* reading a k-bit number, left aligned in a one-byte buffer *)
Lemma rd_small dbg b pre n z post : holds b (pre ++ zb n z ++ post) -> 0 <= n <= 8 ->
  exists y, sk_read dbg (mkSk b (zlen pre)) [0] n
      = Ok (n, [y], mkSk b (zlen (pre ++ zb n z))) /\ Z.shiftr y (8 - n) = z mod 2 ^ n.
Proof.
  intros Hb Hn. destruct (rd dbg b pre (zb n z) post 1 Hb) as (buf & E & L & F & R).
  { unfold zb. rewrite length_zbits. lia. }
  destruct buf as [|y [|? ?]]; try discriminate. exists y.
  assert (Hl : zlen (zb n z) = n) by (unfold zlen, zb; rewrite length_zbits; lia).
  change (repeat 0 1) with [0] in E. rewrite Hl in E. split; [exact E|].
  inversion F as [|? ? Hy _]; subst. rewrite raw_single in R.
  apply (f_equal bval) in R. rewrite byte_bits_zbits, bval_zbits in R.
  change (2 ^ Z.of_nat 8) with 256 in R. rewrite Z.mod_small in R by (destruct Hy; lia).
  rewrite R, bval_app, bval_zeros. unfold zb. rewrite bval_zbits, length_zbits, Z.add_0_r.
  unfold zlen. rewrite repeat_length.
  replace (Z.of_nat (8 * 1 - Z.to_nat n)) with (8 - n) by lia.
  rewrite Z.shiftr_div_pow2, Z.div_mul by lia. rewrite Z2Nat.id by lia. reflexivity.
Qed.

(* reading w bits into an 8-byte buffer as a left-aligned u64 *)
Lemma rd_u64 dbg b pre zs post : holds b (pre ++ zs ++ post) -> (length zs <= 64)%nat ->
  exists buf, sk_read dbg (mkSk b (zlen pre)) (vec_with_len 8) (zlen zs)
      = Ok (zlen zs, buf, mkSk b (zlen (pre ++ zs))) /\
    from_be buf = bval (zs ++ repeat false (64 - length zs)).
Proof.
  intros Hb Hl. destruct (rd dbg b pre zs post 8 Hb ltac:(lia)) as (buf & E & L & F & R).
  exists buf. split; [exact E|]. now rewrite from_be_raw, R by assumption.
Qed.

(* what the decoder reads for the XOR of a value *)
Definition xdec (n : Z) (w : Z * Z) (x : Z) : Z :=
  if x =? 0 then 0 else if reuses n w x then x
  else if opens_ok x then x
  else if leading_zeros64 x =? 0 then 0 else x * 2 ^ 32.

Lemma bits_hd y m rest a : byte_bits y = firstn m (a :: rest) ++ repeat false (8 - m) ->
  (1 <= m)%nat -> Z.testbit y 7 = a.
Proof. intros H Hm. destruct m; [lia|]. cbn [firstn app] in H. now injection H. Qed.

Lemma bits_hd2 y m rest a a2 : byte_bits y = firstn m (a :: a2 :: rest) ++ repeat false (8 - m) ->
  (2 <= m)%nat -> Z.testbit y 7 = a /\ Z.testbit y 6 = a2.
Proof. intros H Hm. destruct m as [|[|m]]; [lia|lia|]. cbn [firstn app] in H. injection H. auto. Qed.

Lemma values_spec dbg n w v v' t d b pre post :
  holds b (pre ++ encv n w (Z.lxor v' v) ++ post) -> 0 <= n -> win_ok w ->
  0 <= v < 2 ^ 64 -> 0 <= v' < 2 ^ 64 ->
  exists g', gd_values dbg (mkGd (mkSk b (zlen pre)) t v (fst w) (snd w) d n)
      = Ok (Some (Z.lxor v (xdec n w (Z.lxor v' v))), g') /\
    (n <> 0 -> val_ok n w v v' = true ->
     g' = mkGd (mkSk b (zlen (pre ++ encv n w (Z.lxor v' v)))) t v'
            (fst (next_win n w v v')) (snd (next_win n w v v')) d n).
Proof.
  intros Hb Hn Hw Hv Hv'. unfold gd_values. cbn [gd_src gd_t gd_v gd_leading gd_tailing gd_d gd_idx].
  unfold val_ok, next_win.
  pose proof (lxor_u64 v' v Hv' Hv) as Hx. pose proof (lxor_lxor v v') as Hback.
  set (x := Z.lxor v' v) in *. unfold encv, xdec in *.
  destruct (rd_byte dbg b pre _ 2 Hb ltac:(lia)) as (y & E & Hy & Hbits). cbn zeta in E, Hbits.
  change (Z.of_nat 2) with 2 in E. rewrite E. cbn [rbind].
  destruct (Z.eqb_spec x 0) as [Ex|Ex].
  - (* '0' *)
    set (m := Nat.min 2 (length ([false] ++ post))) in *.
    assert (Hm : (1 <= m <= 2)%nat) by (unfold m; cbn [app length]; lia).
    destruct (Z.ltb_spec 2 (Z.of_nat m)); [lia|]. destruct (Z.eqb_spec (Z.of_nat m) 0); [lia|].
    cbn [orb nth_error unwrap rbind].
    rewrite flag128 by assumption. rewrite (bits_hd y m post false Hbits ltac:(lia)).
    cbn [negb]. rewrite orb_true_r. rewrite Z.lxor_0_r. eexists. split; [reflexivity|].
    intros Hn0 _. rewrite orb_true_r. cbn [orb]. unfold sk_reset. cbn [sk_data sk_cursor].
    assert (v' = v) as -> by (rewrite <- Hback, Ex; apply Z.lxor_0_r).
    rewrite zlen_app. change (zlen [false]) with 1.
    f_equal. f_equal. lia.
  - pose proof (lz_bounds x ltac:(lia)) as [Hlz Hlzb].
    pose proof (tz_spec x ltac:(lia)) as [Htz _].
    pose proof (lz_tz x ltac:(lia)) as Hlt.
    destruct Hw as (Hw1 & Hw2 & Hw3).
    destruct (reuses n w x) eqn:Er.
    + (* '10' *)
      set (zs := zb (64 - fst w - snd w) (Z.shiftr x (snd w))) in *. clear E.
      match goal with |- context[Nat.min 2 ?l] =>
        replace (Nat.min 2 l) with 2%nat in * by (rewrite !app_length; cbn [length]; lia) end.
      rewrite <- app_assoc in Hb, Hbits.
      change ([true; false] ++ ?l) with (true :: false :: l) in Hbits.
      change (Z.of_nat 2) with 2 in *. cbn [Z.ltb Z.compare Pos.compare Pos.compare_cont Z.eqb Pos.eqb orb nth_error unwrap rbind].
      destruct (bits_hd2 y 2 _ _ _ Hbits ltac:(lia)) as [H7 H6].
      rewrite flag128, flag192, H7, H6 by assumption. cbn [negb andb orb].
      rewrite arith8_ok by lia. cbn [rbind]. rewrite arith8_ok by lia. cbn [rbind].
      assert (Hzl : zlen zs = 64 - fst w - snd w)
        by (unfold zs, zb, zlen; rewrite length_zbits; lia).
      change (true :: false :: zs ++ post) with ([true; false] ++ zs ++ post) in Hb.
      rewrite app_assoc in Hb.
      replace (zlen pre + 2) with (zlen (pre ++ [true; false])) by (rewrite zlen_app; reflexivity).
      destruct (rd_u64 dbg b (pre ++ [true; false]) zs post Hb) as (buf & E2 & Hv2).
      { unfold zlen in Hzl. lia. }
      rewrite Hzl in E2. rewrite E2. cbn [rbind].
      rewrite Z.eqb_refl. cbn [negb]. rewrite shr64_ok by lia. cbn [rbind].
      assert (Hshift : Z.shiftr (from_be buf) (fst w) = x).
      { rewrite Hv2. unfold zs, zb. rewrite length_zbits, window_bits.
        - rewrite Z.shiftr_div_pow2, Z.div_mul by lia. reflexivity.
        - lia.
        - unfold reuses, fits_window in Er. lia.
        - unfold reuses, fits_window in Er. lia.
        - lia. }
      rewrite Hshift. eexists. split; [reflexivity|].
      intros Hn0 _. rewrite orb_true_r. cbn [orb]. rewrite Hback.
      f_equal. f_equal. rewrite <- app_assoc. reflexivity.
    + (* '11' *)
      set (lz := leading_zeros64 x) in *. set (tz := trailing_zeros64 x) in *.
      set (sig := 64 - lz - tz) in *. set (zs := zb sig (Z.shiftr x tz)) in *.
      clear E.
      match goal with |- context[Nat.min 2 ?l] =>
        replace (Nat.min 2 l) with 2%nat in * by (rewrite !app_length; cbn [length]; lia) end.
      rewrite <- !app_assoc in Hb, Hbits.
      change ([true; true] ++ ?l) with (true :: true :: l) in Hbits.
      change (Z.of_nat 2) with 2 in *. cbn [Z.ltb Z.compare Pos.compare Pos.compare_cont Z.eqb Pos.eqb orb nth_error unwrap rbind].
      destruct (bits_hd2 y 2 _ _ _ Hbits ltac:(lia)) as [H7 H6].
      rewrite flag128, flag192, H7, H6 by assumption. cbn [negb andb orb].
      rewrite (app_assoc pre) in Hb.
      replace (zlen pre + 2) with (zlen (pre ++ [true; true])) by (rewrite zlen_app; reflexivity).
      destruct (rd_small dbg b _ 5 lz _ Hb ltac:(lia)) as (y1 & E1 & Hy1).
      rewrite E1. cbn [rbind]. cbn [Z.eqb Pos.eqb negb nth_error unwrap rbind].
      change (8 - 5) with 3 in Hy1. rewrite Hy1.
      rewrite (app_assoc (pre ++ [true; true])) in Hb.
      destruct (rd_small dbg b _ 6 sig _ Hb ltac:(lia)) as (y2 & E2 & Hy2).
      rewrite E2. cbn [rbind]. cbn [Z.eqb Pos.eqb negb nth_error unwrap rbind].
      change (8 - 6) with 2 in Hy2. rewrite Hy2.
      rewrite (app_assoc ((pre ++ [true; true]) ++ _)) in Hb.
      change (2 ^ 5) with 32. change (2 ^ 6) with 64.
      set (pre3 := ((pre ++ [true; true]) ++ zb 5 lz) ++ zb 6 sig) in *.
      assert (Hzl : zlen zs = sig) by (unfold zs, zb, zlen; rewrite length_zbits; lia).
      assert (Hwb : bval (zs ++ repeat false (64 - length zs)) = x * 2 ^ lz).
      { unfold zs, zb. rewrite length_zbits. unfold sig. apply window_bits; lia. }
      rewrite arith8_ok by lia. cbn [rbind]. rewrite arith8_ok by lia. cbn [rbind].
      unfold opens_ok. fold lz. fold tz.
      destruct (Z.eqb_spec lz 0) as [Hl0|Hl0]; [destruct (Z.eqb_spec tz 0) as [Ht0|Ht0]|].
      * (* 64 significant bits: the length field is 0 *)
        replace (sig mod 64) with 0 by (unfold sig; lia).
        assert (Hb0 : holds b (pre3 ++ [] ++ (zs ++ post))) by exact Hb.
        destruct (rd_u64 dbg b pre3 [] (zs ++ post) Hb0 ltac:(cbn; lia)) as (buf & E3 & Hv3).
        change (zlen []) with 0 in E3. rewrite E3. cbn [rbind Z.eqb negb].
        rewrite shr64_ok by lia. cbn [rbind]. rewrite Hv3.
        cbn [app length Nat.sub]. rewrite bval_zeros, Z.shiftr_0_l.
        cbn [andb negb]. rewrite !andb_false_r. eexists. split; [reflexivity|].
        intros Hn0. destruct (Z.eqb_spec n 0); [lia|]. discriminate.
      * cbn [andb negb]. rewrite andb_true_r.
        destruct (Z.ltb_spec lz 32); [|lia].
        replace (sig mod 64) with sig by (unfold sig; lia).
        replace (lz mod 32) with lz by lia.
        destruct (rd_u64 dbg b pre3 zs post Hb ltac:(unfold zlen in Hzl; lia)) as (buf & E3 & Hv3).
        rewrite Hzl in E3. rewrite E3. cbn [rbind]. rewrite Z.eqb_refl. cbn [negb].
        rewrite shr64_ok by lia. cbn [rbind]. rewrite Hv3, Hwb.
        rewrite Z.shiftr_div_pow2, Z.div_mul by lia. eexists. split; [reflexivity|].
        intros Hn0 _. destruct (Z.eqb_spec n 0); [lia|]. cbn [orb fst snd]. rewrite Hback.
        unfold pre3. rewrite <- !app_assoc. cbn [app]. f_equal. unfold sig. lia.
      * cbn [andb negb]. rewrite andb_true_r.
        destruct (Z.ltb_spec lz 32) as [H32|H32].
        -- replace (sig mod 64) with sig by (unfold sig; lia).
           replace (lz mod 32) with lz by lia.
           destruct (rd_u64 dbg b pre3 zs post Hb ltac:(unfold zlen in Hzl; lia)) as (buf & E3 & Hv3).
           rewrite Hzl in E3. rewrite E3. cbn [rbind]. rewrite Z.eqb_refl. cbn [negb].
           rewrite shr64_ok by lia. cbn [rbind]. rewrite Hv3, Hwb.
           rewrite Z.shiftr_div_pow2, Z.div_mul by lia. eexists. split; [reflexivity|].
           intros Hn0 _. destruct (Z.eqb_spec n 0); [lia|]. cbn [orb fst snd]. rewrite Hback.
           unfold pre3. rewrite <- !app_assoc. cbn [app]. f_equal. unfold sig. lia.
        -- replace (sig mod 64) with sig by (unfold sig; lia).
           replace (lz mod 32) with (lz - 32) by lia.
           destruct (rd_u64 dbg b pre3 zs post Hb ltac:(unfold zlen in Hzl; lia)) as (buf & E3 & Hv3).
           rewrite Hzl in E3. rewrite E3. cbn [rbind]. rewrite Z.eqb_refl. cbn [negb].
           rewrite shr64_ok by lia. cbn [rbind]. rewrite Hv3, Hwb.
           rewrite Z.shiftr_div_pow2 by lia.
           replace (2 ^ lz) with (2 ^ 32 * 2 ^ (lz - 32))
             by (rewrite <- Z.pow_add_r by lia; f_equal; lia).
           rewrite Z.mul_assoc, Z.div_mul by lia. eexists. split; [reflexivity|].
           intros Hn0. destruct (Z.eqb_spec n 0); [lia|]. discriminate.
Qed.

Lemma xdec_ok n w v v' : n <> 0 -> val_ok n w v v' = true ->
  xdec n w (Z.lxor v' v) = Z.lxor v' v.
Proof.
  intros Hn H. unfold val_ok, xdec in *. set (x := Z.lxor v' v) in *.
  destruct (Z.eqb_spec x 0); [now symmetry|].
  destruct (Z.eqb_spec n 0); [lia|]. cbn [orb] in H.
  destruct (reuses n w x); [reflexivity|]. cbn [orb] in H. now rewrite H.
Qed.

Lemma xdec_bad n w v v' : 0 <= v < 2 ^ 64 -> 0 <= v' < 2 ^ 64 ->
  val_ok n w v v' = false -> xdec n w (Z.lxor v' v) <> Z.lxor v' v.
Proof.
  intros Hv Hv' H. unfold val_ok, xdec in *. pose proof (lxor_u64 v' v Hv' Hv) as Hx.
  set (x := Z.lxor v' v) in *.
  destruct (Z.eqb_spec x 0); [rewrite orb_true_r in H; discriminate|].
  destruct (reuses n w x); [rewrite orb_true_r in H; discriminate|].
  destruct (opens_ok x); [rewrite orb_true_r in H; discriminate|].
  destruct (leading_zeros64 x =? 0); [lia|]. lia.
Qed.
