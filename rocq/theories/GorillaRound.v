(* Round trip of the Gorilla codec, exactly on the admissible series. *)
From Verif Require Import Rust Bstream BitSpec BstreamProofs BitsProofs GorillaBits Gorilla GorillaSpec GorillaEnc GorillaDec.
From Coq Require Import ZifyBool ZifyNat.
Ltac Zify.zify_post_hook ::= Z.div_mod_to_equations.

Lemma wraps_mod r z : 0 < r -> wraps r (z mod 2 ^ r) = wraps r z.
Proof.
  intros Hr. unfold wraps. assert (0 < 2 ^ r) by (apply Z.pow_pos_nonneg; lia).
  rewrite Z.mod_mod by lia. reflexivity.
Qed.

Lemma zlen_zb n z : 0 <= n -> zlen (zb n z) = n.
Proof. intros. unfold zlen, zb. rewrite length_zbits. lia. Qed.

Lemma timestamp_spec dbg b pre r z post t v l tt d i :
  holds b (pre ++ zb r z ++ post) -> (r = 8 \/ r = 16 \/ r = 32 \/ r = 64) ->
  gd_timestamp dbg (mkGd (mkSk b (zlen pre)) t v l tt d i) r =
  (let* d' := arith_s dbg 64 (wraps r z + d) in
   let* t' := arith_u dbg 64 (t + wrapu 64 d') in
   Ok (Some t', mkGd (mkSk b (zlen (pre ++ zb r z))) t v l tt d' i)).
Proof.
  intros Hb Hr. unfold gd_timestamp. cbn [gd_src gd_t gd_v gd_leading gd_tailing gd_d gd_idx].
  assert (Hex : existsb (Z.eqb r) [8; 16; 32; 64] = true)
    by (destruct Hr as [->|[->|[->| ->]]]; reflexivity).
  rewrite Hex. cbn [negb].
  destruct (rd dbg b pre (zb r z) post (Z.to_nat (r / 8)) Hb) as (buf & E & L & F & R).
  { unfold zb. rewrite length_zbits. destruct Hr as [->|[->|[->| ->]]]; cbn; lia. }
  rewrite zlen_zb in E by lia. unfold vec_with_len. rewrite E. cbn [rbind].
  rewrite Z.eqb_refl. cbn [negb].
  assert (Hv : wraps r (from_be buf) = wraps r z).
  { rewrite from_be_raw, R by assumption. unfold zb. rewrite length_zbits.
    replace (8 * Z.to_nat (r / 8) - Z.to_nat r)%nat with O by (destruct Hr as [->|[->|[->| ->]]]; cbn; lia).
    cbn [repeat]. rewrite app_nil_r, bval_zbits, Z2Nat.id by lia. apply wraps_mod. lia. }
  rewrite Hv. reflexivity.
Qed.

(* what the decoder reads for a delta of delta *)
Definition ddec (z : Z) : Z :=
  if z =? 0 then 0 else if in8 z then wraps 8 z else if in16 z then wraps 16 z
  else if in32 z then wraps 32 z else wraps 64 z.

Definition z_ok (z : Z) : bool := negb (z =? 128) && negb (z =? 32768) && negb (z =? 2147483648).

Lemma wraps_cases n z : 0 < n -> - 2 ^ (n - 1) < z <= 2 ^ (n - 1) ->
  wraps n z = if z =? 2 ^ (n - 1) then z - 2 ^ n else z.
Proof.
  intros Hn Hz. destruct (Z.eqb_spec z (2 ^ (n - 1))) as [->|Hne].
  - assert (Hp : 2 ^ n = 2 * 2 ^ (n - 1)) by (rewrite <- Z.pow_succ_r by lia; f_equal; lia).
    assert (0 < 2 ^ (n - 1)) by (apply Z.pow_pos_nonneg; lia).
    unfold wraps. rewrite Z.mod_small by lia.
    destruct (Z.ltb_spec (2 ^ (n - 1)) (2 ^ (n - 1))); lia.
  - apply wraps_in; [assumption|]. unfold in_s. lia.
Qed.

Lemma ddec_ok z : z_ok z = true -> - 2 ^ 63 <= z < 2 ^ 63 -> ddec z = z.
Proof.
  intros H Hr. unfold ddec, z_ok in *. destruct (Z.eqb_spec z 0); [lia|].
  destruct (in8 z) eqn:E8.
  { unfold in8 in E8. rewrite wraps_cases by (change (2 ^ (8 - 1)) with 128; lia).
    change (2 ^ (8 - 1)) with 128. destruct (Z.eqb_spec z 128); [lia|reflexivity]. }
  destruct (in16 z) eqn:E16.
  { unfold in16 in E16. rewrite wraps_cases by (change (2 ^ (16 - 1)) with 32768; lia).
    change (2 ^ (16 - 1)) with 32768. destruct (Z.eqb_spec z 32768); [lia|reflexivity]. }
  destruct (in32 z) eqn:E32.
  { unfold in32 in E32. rewrite wraps_cases by (change (2 ^ (32 - 1)) with 2147483648; lia).
    change (2 ^ (32 - 1)) with 2147483648. destruct (Z.eqb_spec z 2147483648); [lia|reflexivity]. }
  apply wraps_in; [lia|]. unfold in_s. change (64 - 1) with 63. lia.
Qed.

Lemma ddec_bad z : z_ok z = false -> (ddec z - z) mod 2 ^ 64 <> 0.
Proof.
  intros H. unfold z_ok in H.
  assert (Hc : z = 128 \/ z = 32768 \/ z = 2147483648) by lia.
  destruct Hc as [->|[->| ->]]; vm_compute; discriminate.
Qed.

Lemma arith_s_cong dbg n z y : 0 < n -> arith_s dbg n z = Ok y -> (y - z) mod 2 ^ n = 0.
Proof.
  intros Hn H. assert (0 < 2 ^ n) by (apply Z.pow_pos_nonneg; lia). unfold arith_s in H.
  destruct (in_s n z); [injection H as ->; rewrite Z.sub_diag; apply Z.mod_0_l; lia|].
  destruct dbg; [discriminate|]. injection H as <-. unfold wraps.
  destruct (_ <? _); rewrite Zminus_mod.
  - rewrite Z.mod_mod by lia. rewrite Z.sub_diag. apply Z.mod_0_l. lia.
  - rewrite (Zminus_mod (z mod 2 ^ n) (2 ^ n)), Z.mod_mod, Z_mod_same_full, Z.sub_0_r, Z.mod_mod by lia.
    rewrite Z.sub_diag. apply Z.mod_0_l. lia.
Qed.

Lemma arith_u_cong dbg n z y : 0 < n -> arith_u dbg n z = Ok y -> (y - z) mod 2 ^ n = 0.
Proof.
  intros Hn H. assert (0 < 2 ^ n) by (apply Z.pow_pos_nonneg; lia). unfold arith_u in H.
  destruct (in_u n z); [injection H as ->; rewrite Z.sub_diag; apply Z.mod_0_l; lia|].
  destruct dbg; [discriminate|]. injection H as <-. unfold wrapu.
  rewrite Zminus_mod, Z.mod_mod, Z.sub_diag by lia. apply Z.mod_0_l. lia.
Qed.

Lemma encv_nonnil n w x : exists a l, encv n w x = a :: l.
Proof. unfold encv. destruct (x =? 0); [|destruct (reuses n w x)]; cbn [app]; eauto. Qed.

Lemma bits_hd4 y rest a a2 a3 a4 :
  byte_bits y = firstn 4 (a :: a2 :: a3 :: a4 :: rest) ++ repeat false (8 - 4) ->
  Z.testbit y 7 = a /\ Z.testbit y 6 = a2 /\ Z.testbit y 5 = a3 /\ Z.testbit y 4 = a4.
Proof. intros H. cbn [firstn app] in H. injection H. auto. Qed.

Lemma bits_hd3 y rest a a2 a3 m :
  byte_bits y = firstn m (a :: a2 :: a3 :: rest) ++ repeat false (8 - m) -> (3 <= m)%nat ->
  Z.testbit y 7 = a /\ Z.testbit y 6 = a2 /\ Z.testbit y 5 = a3.
Proof. intros H Hm. destruct m as [|[|[|m]]]; try lia. cbn [firstn app] in H. injection H. auto. Qed.

Lemma next_dod dbg b pre z rest t v l tt d i :
  holds b (pre ++ enc_dod z ++ rest) -> rest <> [] -> 1 < i ->
  gd_next dbg (mkGd (mkSk b (zlen pre)) t v l tt d i) =
  (let* d' := (if z =? 0 then Ok d else arith_s dbg 64 (ddec z + d)) in
   let* t' := arith_u dbg 64 (t + wrapu 64 d') in
   gd_finish dbg (mkGd (mkSk b (zlen (pre ++ enc_dod z))) t' v l tt d' i) t').
Proof.
  intros Hb Hne Hi. unfold gd_next. cbn [gd_src gd_t gd_v gd_leading gd_tailing gd_d gd_idx].
  destruct (Z.eqb_spec i 0); [lia|]. destruct (Z.eqb_spec i 1); [lia|].
  destruct (rd_byte dbg b pre _ 4 Hb ltac:(lia)) as (y & E & Hy & Hbits). cbn zeta in E, Hbits.
  change (Z.of_nat 4) with 4 in E. rewrite E. cbn [rbind].
  set (m := Nat.min 4 (length (enc_dod z ++ rest))) in *.
  assert (Hm : (2 <= m <= 4)%nat).
  { unfold m. rewrite app_length. assert (1 <= length rest)%nat by (destruct rest; [congruence|cbn [length]; lia]).
    unfold enc_dod. destruct (z =? 0); [cbn [length]; lia|]. destruct (in8 z); [rewrite app_length; cbn [length]; lia|].
    destruct (in16 z); [rewrite app_length; cbn [length]; lia|]. destruct (in32 z); rewrite app_length; cbn [length]; lia. }
  destruct (Z.eqb_spec (Z.of_nat m) 0); [lia|]. destruct (Z.ltb_spec 4 (Z.of_nat m)); [lia|].
  cbn [orb nth_error unwrap rbind].
  rewrite flag128, flag192, flag224, flag240 by assumption.
  unfold gd_with_src, gd_with_t, sk_reset. cbn [gd_src gd_t gd_v gd_leading gd_tailing gd_d gd_idx sk_data sk_cursor].
  unfold enc_dod, ddec in *.
  destruct (Z.eqb_spec z 0) as [Ez|Ez].
  { cbn [app] in Hbits. rewrite (bits_hd y m rest false Hbits ltac:(lia)). cbn [negb].
    rewrite zlen_app. change (zlen [false]) with 1.
    replace (zlen pre + Z.of_nat m + (4 - Z.of_nat m) - 3) with (zlen pre + 1) by lia.
    cbn [rbind]. destruct (arith_u dbg 64 (t + wrapu 64 d)); reflexivity. }
  assert (Hfin : forall r fl, holds b (pre ++ (fl ++ zb r z) ++ rest) ->
    (r = 8 \/ r = 16 \/ r = 32 \/ r = 64) -> forall c, c = zlen pre + zlen fl ->
    (let* (ots, g2) := gd_timestamp dbg (mkGd (mkSk b c) t v l tt d i) r in
       match ots with
       | None => Ok (None, g2)
       | Some ts => gd_finish dbg (mkGd (gd_src g2) ts (gd_v g2) (gd_leading g2) (gd_tailing g2) (gd_d g2) (gd_idx g2)) ts
       end) =
    (let* d' := arith_s dbg 64 (wraps r z + d) in
     let* t' := arith_u dbg 64 (t + wrapu 64 d') in
     gd_finish dbg (mkGd (mkSk b (zlen (pre ++ fl ++ zb r z))) t' v l tt d' i) t')).
  { intros r fl Hb' Hr c ->. rewrite <- app_assoc, app_assoc in Hb'.
    rewrite <- zlen_app. rewrite (timestamp_spec dbg b (pre ++ fl) r z rest t v l tt d i Hb' Hr).
    destruct (arith_s dbg 64 (wraps r z + d)) as [d'| |]; cbn [rbind]; try reflexivity.
    destruct (arith_u dbg 64 (t + wrapu 64 d')) as [t'| |]; cbn [rbind]; try reflexivity.
    cbn [gd_src gd_t gd_v gd_leading gd_tailing gd_d gd_idx]. now rewrite <- app_assoc. }
  destruct (in8 z).
  { assert (m = 4%nat) as Em by (unfold m; rewrite !app_length; unfold zb; rewrite length_zbits; cbn [length]; lia).
    clearbody m. subst m. rewrite <- app_assoc in Hbits. cbn [app] in Hbits.
    destruct (bits_hd2 y 4 _ _ _ Hbits ltac:(lia)) as [H7 H6]. rewrite H7, H6. cbn [negb andb].
    apply Hfin; [assumption|lia|]. change (zlen [true; false]) with 2. lia. }
  destruct (in16 z).
  { assert (m = 4%nat) as Em by (unfold m; rewrite !app_length; unfold zb; rewrite length_zbits; cbn [length]; lia).
    clearbody m. subst m. rewrite <- app_assoc in Hbits. cbn [app] in Hbits.
    destruct (bits_hd3 y _ _ _ _ 4 Hbits ltac:(lia)) as (H7 & H6 & H5). rewrite H7, H6, H5. cbn [negb andb].
    apply Hfin; [assumption|lia|]. change (zlen [true; true; false]) with 3. lia. }
  assert (m = 4%nat) as Em.
  { unfold m. destruct (in32 z); rewrite !app_length; unfold zb; rewrite length_zbits; cbn [length]; lia. }
  clearbody m. subst m.
  destruct (in32 z); rewrite <- app_assoc in Hbits; cbn [app] in Hbits;
  destruct (bits_hd4 y _ _ _ _ _ Hbits) as (H7 & H6 & H5 & H4); rewrite H7, H6, H5, H4; cbn [negb andb].
  - apply Hfin; [assumption|lia|]. change (zlen [true; true; true; false]) with 4. lia.
  - apply Hfin; [assumption|lia|]. change (zlen [true; true; true; true]) with 4. lia.
Qed.

Lemma finish_spec dbg b pre n w v v' t d ts post :
  holds b (pre ++ encv n w (Z.lxor v' v) ++ post) -> 0 < n -> win_ok w ->
  0 <= v < 2 ^ 64 -> 0 <= v' < 2 ^ 64 ->
  exists v2 g', gd_finish dbg (mkGd (mkSk b (zlen pre)) t v (fst w) (snd w) d n) ts
      = Ok (Some (mkTp ts v2), g') /\
    (if val_ok n w v v' then
       v2 = v' /\
       g' = mkGd (mkSk b (zlen (pre ++ encv n w (Z.lxor v' v)))) t v'
            (fst (next_win n w v v')) (snd (next_win n w v v')) d (n + 1)
     else v2 <> v').
Proof.
  intros Hb Hn Hw Hv Hv'. unfold gd_finish.
  destruct (values_spec dbg n w v v' t d b pre post Hb ltac:(lia) Hw Hv Hv') as (g' & E & Hg).
  rewrite E. cbn [rbind]. eexists. eexists. split; [reflexivity|].
  destruct (val_ok n w v v') eqn:Eok.
  - rewrite xdec_ok by (lia || assumption). rewrite lxor_lxor. split; [reflexivity|].
    rewrite Hg by (lia || reflexivity). reflexivity.
  - intros Heq. apply (xdec_bad n w v v' Hv Hv' Eok).
    apply (lxor_cancel v). rewrite Heq. symmetry. apply lxor_lxor.
Qed.

Lemma interval_ts dbg t t' : 0 <= t < 2 ^ 64 -> 0 <= t' < 2 ^ 64 -> (dbg = true -> t <= t') ->
  arith_u dbg 64 (t + wrapu 64 (interval t t')) = Ok t'.
Proof.
  intros Ht Ht' H.
  assert (Hw : wrapu 64 (interval t t') = (t' - t) mod 2 ^ 64).
  { unfold wrapu, interval, wraps. destruct (_ <? _).
    - rewrite Z.mod_mod by lia. reflexivity.
    - replace ((t' - t) mod 2 ^ 64 - 2 ^ 64) with ((t' - t) mod 2 ^ 64 + (-1) * 2 ^ 64) by ring.
      rewrite Z.mod_add, Z.mod_mod by lia. reflexivity. }
  rewrite Hw. destruct (Z_le_gt_dec t t') as [Hle|Hgt].
  - rewrite Z.mod_small by lia. unfold arith_u, in_u.
    replace (t + (t' - t)) with t' by lia.
    destruct (Z.leb_spec 0 t'); [|lia]. destruct (Z.ltb_spec t' (2 ^ 64)); [reflexivity|lia].
  - destruct dbg; [specialize (H eq_refl); lia|].
    replace ((t' - t) mod 2 ^ 64) with (t' - t + 2 ^ 64)
      by (apply (Z.mod_unique (t' - t) (2 ^ 64) (-1)); lia).
    unfold arith_u, in_u.
    replace (t + (t' - t + 2 ^ 64)) with (t' + 2 ^ 64) by lia.
    destruct (Z.ltb_spec (t' + 2 ^ 64) (2 ^ 64)); [lia|]. rewrite andb_false_r.
    unfold wrapu. replace (t' + 2 ^ 64) with (t' + 1 * 2 ^ 64) by ring.
    rewrite Z.mod_add, Z.mod_small by lia. reflexivity.
Qed.

Lemma wraps_cong n a b : 0 < n -> (a - b) mod 2 ^ n = 0 -> wraps n a = wraps n b.
Proof.
  intros Hn H. assert (0 < 2 ^ n) by (apply Z.pow_pos_nonneg; lia).
  unfold wraps. assert (a mod 2 ^ n = b mod 2 ^ n) as ->; [|reflexivity].
  apply Z.mod_divide in H; [|lia]. destruct H as [k Hk].
  replace a with (b + k * 2 ^ n) by lia. apply Z.mod_add. lia.
Qed.

Lemma wraps_idem n a : 0 < n -> (wraps n a - a) mod 2 ^ n = 0.
Proof.
  intros Hn. assert (0 < 2 ^ n) by (apply Z.pow_pos_nonneg; lia).
  unfold wraps. pose proof (Z.div_mod a (2 ^ n) ltac:(lia)) as Hd.
  destruct (_ <? _).
  - replace (a mod 2 ^ n - a) with ((- (a / 2 ^ n)) * 2 ^ n) by lia. apply Z.mod_mul. lia.
  - replace (a mod 2 ^ n - 2 ^ n - a) with ((- (a / 2 ^ n) - 1) * 2 ^ n) by lia. apply Z.mod_mul. lia.
Qed.

Lemma cong_add n a b c d : 0 < n -> (a - b) mod 2 ^ n = 0 -> (c - d) mod 2 ^ n = 0 ->
  (a + c - (b + d)) mod 2 ^ n = 0.
Proof.
  intros Hn H1 H2. assert (0 < 2 ^ n) by (apply Z.pow_pos_nonneg; lia).
  replace (a + c - (b + d)) with ((a - b) + (c - d)) by ring.
  rewrite Zplus_mod, H1, H2. apply Z.mod_0_l. lia.
Qed.

Lemma wraps64_id z : - 2 ^ 63 <= z < 2 ^ 63 -> wraps 64 z = z.
Proof. intros H. apply wraps_in; [lia|]. unfold in_s. change (64 - 1) with 63. lia. Qed.

(* one decoding step *)
Lemma step_dec dbg s p b pre post : st_ok s -> tp_ok p -> holds b (pre ++ encp s p ++ post) ->
  (dbg = true -> 0 < s_n s -> s_t s <= tp_ts p) ->
  (dbg = true -> 1 < s_n s -> in16 (st_dod s p) = true /\
                 st_dod s p = interval (s_t s) (tp_ts p) - s_d s) ->
  if ts_ok dbg (s_n s) (s_t s) (s_d s) (tp_ts p) && val_ok (s_n s) (s_w s) (s_v s) (tp_val p)
  then gd_next dbg (gd_of s b (zlen pre)) =
       Ok (Some p, gd_of (st_next s p) b (zlen (pre ++ encp s p)))
  else forall g', gd_next dbg (gd_of s b (zlen pre)) <> Ok (Some p, g').
Proof.
  intros (Hn & Ht & Hd & Hv & Hw & Hd0) (Hpt & Hpv) Hb Hdbg1 Hdbg2.
  unfold ts_ok, encp, gd_of, st_next in *. cbn [s_n s_t s_d s_v s_w].
  destruct (Z.eqb_spec (s_n s) 0) as [E0|E0].
  - (* first point *)
    unfold val_ok. destruct (Z.eqb_spec (s_n s) 0); [|lia]. cbn [orb andb].
    unfold gd_next. cbn [gd_src gd_t gd_v gd_leading gd_tailing gd_d gd_idx].
    destruct (Z.eqb_spec (s_n s) 0); [|lia].
    destruct (rd dbg b pre (zb 64 (tp_ts p) ++ zb 64 (tp_val p)) post 16 Hb) as (buf & E & L & F & R).
    { rewrite app_length. unfold zb. rewrite !length_zbits. cbn. lia. }
    assert (Hzl : zlen (zb 64 (tp_ts p) ++ zb 64 (tp_val p)) = 128)
      by (rewrite zlen_app, !zlen_zb by lia; lia).
    rewrite Hzl in E. unfold vec_with_len. rewrite E. cbn [rbind Z.eqb Pos.eqb negb].
    assert (Hlz : (8 * 16 - length (zb 64 (tp_ts p) ++ zb 64 (tp_val p)) = 0)%nat)
      by (unfold zlen in Hzl; lia).
    rewrite Hlz in R. cbn [repeat] in R. rewrite app_nil_r in R.
    rewrite <- (firstn_skipn 8 buf), raw_bits_app in R.
    apply app_eq_len in R.
    2:{ rewrite length_raw_bits, firstn_length, L. unfold zb. rewrite length_zbits. reflexivity. }
    destruct R as [R1 R2].
    assert (Hts : from_be (firstn 8 buf) = tp_ts p).
    { rewrite from_be_raw, R1 by (now apply Forall_firstn). unfold zb.
      rewrite bval_zbits. change (Z.of_nat (Z.to_nat 64)) with 64. apply Z.mod_small. lia. }
    assert (Hvs : from_be (skipn 8 buf) = tp_val p).
    { rewrite from_be_raw, R2 by (now apply Forall_skipn). unfold zb.
      rewrite bval_zbits. change (Z.of_nat (Z.to_nat 64)) with 64. apply Z.mod_small. lia. }
    rewrite Hts, Hvs. unfold next_win. rewrite E0, (Hd0 E0). cbn [Z.eqb orb].
    destruct p; reflexivity.
  - destruct (Z.eqb_spec (s_n s) 1) as [E1|E1].
    + (* second point *)
      rewrite <- app_assoc in Hb.
      unfold gd_next. cbn [gd_src gd_t gd_v gd_leading gd_tailing gd_d gd_idx].
      destruct (Z.eqb_spec (s_n s) 0); [lia|]. destruct (Z.eqb_spec (s_n s) 1); [|lia].
      set (iv := interval (s_t s) (tp_ts p)) in *.
      destruct (rd_u64 dbg b pre (zb 64 iv) _ Hb) as (buf & E & Hv2).
      { unfold zb. rewrite length_zbits. cbn. lia. }
      rewrite zlen_zb in E by lia. rewrite E. cbn [rbind Z.eqb Pos.eqb negb].
      assert (Hiv : wraps 64 (from_be buf) = iv).
      { rewrite Hv2. unfold zb. rewrite length_zbits. change (64 - Z.to_nat 64)%nat with O.
        cbn [repeat]. rewrite app_nil_r, bval_zbits. change (Z.of_nat (Z.to_nat 64)) with 64.
        rewrite wraps_mod by lia. apply wraps64_id. apply wraps64_range. }
      rewrite Hiv. rewrite app_assoc in Hb.
      assert (Hexact : dbg = true -> iv + wraps 64 (s_t s) =
        if (2 ^ 63 <=? s_t s) then tp_ts p - 2 ^ 64
        else if 2 ^ 63 <=? tp_ts p - s_t s then tp_ts p - 2 ^ 64 else tp_ts p).
      { intros Hdb. specialize (Hdbg1 Hdb ltac:(lia)). unfold iv, interval, wraps.
        change (2 ^ (64 - 1)) with (2 ^ 63). rewrite !Z.mod_small by lia.
        destruct (Z.ltb_spec (tp_ts p - s_t s) (2 ^ 63)), (Z.ltb_spec (s_t s) (2 ^ 63)),
          (Z.leb_spec (2 ^ 63) (s_t s)), (Z.leb_spec (2 ^ 63) (tp_ts p - s_t s)); lia. }
      set (okb := (if dbg then (s_t s <=? tp_ts p) &&
          ((tp_ts p <? 2 ^ 63) || (2 ^ 63 <=? s_t s) || (2 ^ 63 <=? tp_ts p - s_t s)) else true)).
      assert (Har : if okb then exists tsi, arith_s dbg 64 (iv + wraps 64 (s_t s)) = Ok tsi /\ wrapu 64 tsi = tp_ts p
                    else arith_s dbg 64 (iv + wraps 64 (s_t s)) = Panic).
      { unfold okb. destruct dbg.
        - specialize (Hexact eq_refl). specialize (Hdbg1 eq_refl ltac:(lia)).
          rewrite Hexact. unfold arith_s, in_s. change (64 - 1) with 63.
          destruct (Z.leb_spec (s_t s) (tp_ts p)); [|lia]. cbn [andb].
          destruct (Z.ltb_spec (tp_ts p) (2 ^ 63)), (Z.leb_spec (2 ^ 63) (s_t s)),
            (Z.leb_spec (2 ^ 63) (tp_ts p - s_t s)); try lia; cbn [orb];
          repeat match goal with
            | |- context[?a <=? ?b] => destruct (Z.leb_spec a b); try lia
            | |- context[?a <? ?b] => destruct (Z.ltb_spec a b); try lia
            end; cbn [andb];
          try reflexivity; eexists; (split; [reflexivity|]); unfold wrapu.
          + apply Z.mod_small. lia.
          + symmetry. apply (Z.mod_unique _ _ (-1)); lia.
          + symmetry. apply (Z.mod_unique _ _ (-1)); lia.
        - assert (Hc : exists tsi, arith_s false 64 (iv + wraps 64 (s_t s)) = Ok tsi)
            by (unfold arith_s; destruct (in_s _ _); eauto).
          destruct Hc as (tsi & Htsi). exists tsi. split; [assumption|].
          apply arith_s_cong in Htsi; [|lia].
          assert (H2 : (iv + wraps 64 (s_t s) - (tp_ts p - s_t s + s_t s)) mod 2 ^ 64 = 0)
            by (apply cong_add; [lia|apply wraps_idem; lia|apply wraps_idem; lia]).
          assert (H3 : (tsi - tp_ts p) mod 2 ^ 64 = 0).
          { replace (tsi - tp_ts p) with ((tsi - (iv + wraps 64 (s_t s))) + (iv + wraps 64 (s_t s) - (tp_ts p - s_t s + s_t s))) by ring.
            rewrite Zplus_mod, Htsi, H2. reflexivity. }
          unfold wrapu. apply Z.mod_divide in H3; [|lia]. destruct H3 as [k Hk].
          replace tsi with (tp_ts p + k * 2 ^ 64) by lia. rewrite Z.mod_add by lia. apply Z.mod_small. lia. }
      destruct okb.
      * destruct Har as (tsi & Htsi & Hwts). rewrite Htsi. cbn [rbind]. rewrite Hwts.
        destruct (finish_spec dbg b (pre ++ zb 64 iv) (s_n s) (s_w s) (s_v s) (tp_val p) (tp_ts p) iv (tp_ts p) post Hb ltac:(lia) Hw Hv Hpv)
          as (v2 & g' & Ef & Hfv). cbn [andb].
        rewrite Ef. destruct (val_ok _ _ _ _).
        -- destruct Hfv as [-> ->]. rewrite <- app_assoc. destruct p; reflexivity.
        -- intros g2 Heq. apply Hfv. injection Heq as Heq _. apply (f_equal tp_val) in Heq. exact Heq.
      * cbn [andb]. rewrite Har. cbn [rbind]. discriminate.
    + (* later points *)
      rewrite <- app_assoc in Hb.
      destruct (encv_nonnil (s_n s) (s_w s) (Z.lxor (tp_val p) (s_v s))) as (a & l0 & Hev).
      rewrite (next_dod dbg b pre (st_dod s p) _ _ _ _ _ _ _ Hb) by (rewrite ?Hev; cbn [app]; (discriminate || lia)).
      rewrite app_assoc in Hb.
      set (iv := interval (s_t s) (tp_ts p)) in *. set (z := st_dod s p) in *.
      assert (Hivr : - 2 ^ 63 <= iv < 2 ^ 63) by apply wraps64_range.
      assert (Hzr : - 2 ^ 63 <= z < 2 ^ 63) by apply wraps64_range.
      assert (Hok : (if dbg then (s_t s <=? tp_ts p) && dod_ok dbg (iv - s_d s)
                     else dod_ok dbg (wraps 64 (iv - s_d s))) = z_ok z).
      { destruct dbg.
        - specialize (Hdbg1 eq_refl ltac:(lia)). destruct (Hdbg2 eq_refl ltac:(lia)) as [H16 Hz].
          fold z in H16. rewrite <- Hz. unfold dod_ok, z_ok. unfold in16 in H16. lia.
        - reflexivity. }
      rewrite Hok. clear Hok.
      destruct (z_ok z) eqn:Ezk.
      * assert (Hd' : (if z =? 0 then Ok (s_d s) else arith_s dbg 64 (ddec z + s_d s)) = Ok iv).
        { rewrite ddec_ok by assumption.
          assert (Hsum : arith_s dbg 64 (z + s_d s) = Ok iv).
          { destruct dbg.
            - destruct (Hdbg2 eq_refl ltac:(lia)) as [_ Hz]. fold z in Hz. rewrite Hz.
              replace (iv - s_d s + s_d s) with iv by lia. unfold arith_s, in_s.
              change (64 - 1) with 63.
              destruct (Z.leb_spec (- 2 ^ 63) iv); [|lia]. destruct (Z.ltb_spec iv (2 ^ 63)); [reflexivity|lia].
            - assert (Hc : exists y, arith_s false 64 (z + s_d s) = Ok y /\ y = wraps 64 (z + s_d s)).
              { unfold arith_s. destruct (in_s _ _) eqn:Ei; [|eauto].
                eexists. split; [reflexivity|]. symmetry. apply wraps_in; [lia|assumption]. }
              destruct Hc as (y & -> & ->). f_equal. rewrite <- (wraps64_id iv Hivr).
              apply wraps_cong; [lia|].
              replace (z + s_d s - iv) with (z - (iv - s_d s)) by ring. apply wraps_idem. lia. }
          destruct (Z.eqb_spec z 0) as [Ez0|]; [|assumption].
          rewrite Ez0, Z.add_0_l in Hsum. unfold arith_s in Hsum.
          replace (in_s 64 (s_d s)) with true in Hsum; [assumption|].
          unfold in_s. change (64 - 1) with 63. lia. }
        rewrite Hd'. cbn [rbind].
        assert (Hts : arith_u dbg 64 (s_t s + wrapu 64 iv) = Ok (tp_ts p))
          by (apply interval_ts; (assumption || (intros; apply Hdbg1; [assumption|lia]))).
        rewrite Hts. cbn [rbind].
        destruct (finish_spec dbg b (pre ++ enc_dod z) (s_n s) (s_w s) (s_v s) (tp_val p) (tp_ts p) iv (tp_ts p) post Hb ltac:(lia) Hw Hv Hpv)
          as (v2 & g' & Ef & Hfv). cbn [andb].
        rewrite Ef. destruct (val_ok _ _ _ _).
        -- destruct Hfv as [-> ->]. rewrite <- app_assoc. destruct p; reflexivity.
        -- intros g2 Heq. apply Hfv. injection Heq as Heq _. apply (f_equal tp_val) in Heq. exact Heq.
      * cbn [andb]. intros g2 Heq.
        assert (Ez0 : (z =? 0) = false) by (unfold z_ok in Ezk; lia).
        rewrite Ez0 in Heq.
        destruct (arith_s dbg 64 (ddec z + s_d s)) as [d'| |] eqn:Ed; cbn [rbind] in Heq; try discriminate.
        destruct (arith_u dbg 64 (s_t s + wrapu 64 d')) as [t'| |] eqn:Et; cbn [rbind] in Heq; try discriminate.
        destruct (finish_spec dbg b (pre ++ enc_dod z) (s_n s) (s_w s) (s_v s) (tp_val p) t' d' t' post Hb ltac:(lia) Hw Hv Hpv)
          as (v2 & g' & Ef & _).
        rewrite Ef in Heq. injection Heq as Heq _. apply (f_equal tp_ts) in Heq. cbn [tp_ts] in Heq. subst t'.
        apply arith_s_cong in Ed; [|lia]. apply arith_u_cong in Et; [|lia].
        assert (Hwu : (wrapu 64 d' - d') mod 2 ^ 64 = 0).
        { unfold wrapu. rewrite Zminus_mod, Z.mod_mod, Z.sub_diag by lia. reflexivity. }
        assert (Hziv : (z - (iv - s_d s)) mod 2 ^ 64 = 0) by (apply wraps_idem; lia).
        assert (Hiv' : (iv - (tp_ts p - s_t s)) mod 2 ^ 64 = 0) by (apply wraps_idem; lia).
        apply (ddec_bad z Ezk).
        apply Z.mod_divide in Ed, Et, Hwu, Hziv, Hiv'; try lia.
        apply Z.mod_divide; [lia|].
        destruct Ed as [k1 K1], Et as [k2 K2], Hwu as [k3 K3], Hziv as [k4 K4], Hiv' as [k5 K5].
        exists (- k1 - k2 - k3 - k4 - k5). lia.
Qed.
