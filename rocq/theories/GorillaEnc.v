(* The encoder emits the bits described here. *)
From Verif Require Import Rust Bstream BitSpec BstreamProofs BitsProofs GorillaBits Gorilla GorillaSpec.
From Coq Require Import ZifyBool ZifyNat.
Ltac Zify.zify_post_hook ::= Z.div_mod_to_equations.

Definition zb (n z : Z) : list bool := zbits (Z.to_nat n) z.

Definition encv (n : Z) (w : Z * Z) (x : Z) : list bool :=
  if x =? 0 then [false]
  else if reuses n w x then
    [true; false] ++ zb (64 - fst w - snd w) (Z.shiftr x (snd w))
  else
    [true; true] ++ zb 5 (leading_zeros64 x) ++ zb 6 (64 - leading_zeros64 x - trailing_zeros64 x)
      ++ zb (64 - leading_zeros64 x - trailing_zeros64 x) (Z.shiftr x (trailing_zeros64 x)).

Definition in8 (z : Z) : bool := (-127 <=? z) && (z <=? 128).
Definition in16 (z : Z) : bool := (-32767 <=? z) && (z <=? 32768).
Definition in32 (z : Z) : bool := (-2147483647 <=? z) && (z <=? 2147483648).

Definition enc_dod (z : Z) : list bool :=
  if z =? 0 then [false]
  else if in8 z then [true; false] ++ zb 8 z
  else if in16 z then [true; true; false] ++ zb 16 z
  else if in32 z then [true; true; true; false] ++ zb 32 z
  else [true; true; true; true] ++ zb 64 z.

(* codec state *)
Record st := mkSt { s_n : Z; s_t : Z; s_d : Z; s_v : Z; s_w : Z * Z }.
Definition st0 : st := mkSt 0 0 0 0 (0, 0).
Definition st_next (s : st) (p : tp) : st :=
  mkSt (s_n s + 1) (tp_ts p) (if s_n s =? 0 then 0 else interval (s_t s) (tp_ts p)) (tp_val p)
       (next_win (s_n s) (s_w s) (s_v s) (tp_val p)).

Definition win_ok (w : Z * Z) : Prop := 0 <= fst w /\ 0 <= snd w /\ fst w + snd w <= 63.
Definition st_ok (s : st) : Prop :=
  0 <= s_n s /\ 0 <= s_t s < 2 ^ 64 /\ - 2 ^ 63 <= s_d s < 2 ^ 63 /\ 0 <= s_v s < 2 ^ 64 /\
  win_ok (s_w s) /\ (s_n s = 0 -> s_d s = 0).

Definition st_dod (s : st) (p : tp) : Z := wraps 64 (interval (s_t s) (tp_ts p) - s_d s).

Definition encp (s : st) (p : tp) : list bool :=
  if s_n s =? 0 then zb 64 (tp_ts p) ++ zb 64 (tp_val p)
  else
    (if s_n s =? 1 then zb 64 (interval (s_t s) (tp_ts p)) else enc_dod (st_dod s p))
    ++ encv (s_n s) (s_w s) (Z.lxor (tp_val p) (s_v s)).

Lemma wraps64_range z : - 2 ^ 63 <= wraps 64 z < 2 ^ 63.
Proof.
  unfold wraps. pose proof (Z.mod_pos_bound z (2 ^ 64) ltac:(lia)).
  destruct (Z.ltb_spec (z mod 2 ^ 64) (2 ^ (64 - 1))); lia.
Qed.

Lemma win_next n w v v' : win_ok w -> 0 <= v < 2 ^ 64 -> 0 <= v' < 2 ^ 64 -> win_ok (next_win n w v v').
Proof.
  intros Hw Hv Hv'. unfold next_win. pose proof (lxor_u64 v' v Hv' Hv) as Hx.
  destruct (Z.eqb_spec (Z.lxor v' v) 0) as [E|E]; [now rewrite orb_true_r|].
  destruct (_ || _ || _); [assumption|]. unfold win_ok. cbn [fst snd].
  pose proof (lz_bounds (Z.lxor v' v) ltac:(lia)) as [? _].
  pose proof (tz_spec (Z.lxor v' v) ltac:(lia)) as [? _].
  pose proof (lz_tz (Z.lxor v' v) ltac:(lia)). lia.
Qed.

Lemma st_next_ok s p : st_ok s -> tp_ok p -> st_ok (st_next s p).
Proof.
  intros (Hn & Ht & Hd & Hv & Hw & H0) (Hpt & Hpv). unfold st_ok, st_next. cbn [s_n s_t s_d s_v s_w].
  repeat split; try lia.
  - destruct (s_n s =? 0); [lia|apply wraps64_range].
  - destruct (s_n s =? 0); [lia|apply wraps64_range].
  - apply win_next; assumption.
  - apply win_next; assumption.
  - apply win_next; assumption.
Qed.

Lemma shr64_ok dbg x s : s < 64 -> shr64 dbg x s = Ok (Z.shiftr x s).
Proof. intros. unfold shr64. destruct (Z.ltb_spec s 64); [reflexivity|lia]. Qed.

Lemma wb dbg s xs v n : holds s xs -> 1 <= n <= 64 ->
  exists s', bs_write_bits dbg s v n = Ok s' /\ holds s' (xs ++ zb n v).
Proof. apply write_bits_holds. Qed.

Lemma compact_value_ok dbg bs t v w d n value bits :
  holds bs bits -> 1 <= n -> 0 <= v < 2 ^ 64 -> 0 <= value < 2 ^ 64 -> win_ok w ->
  exists bs', gc_compact_value dbg (mkGc bs t v (fst w) (snd w) d n) value =
      Ok (mkGc bs' t v (fst (next_win n w v value)) (snd (next_win n w v value)) d n) /\
    holds bs' (bits ++ encv n w (Z.lxor value v)).
Proof.
  intros Hb Hn Hv Hv' Hw. unfold gc_compact_value. cbn [gc_len gc_v gc_bs gc_leading gc_tailing gc_t gc_d].
  destruct (Z.eqb_spec n 0); [lia|]. unfold encv, next_win.
  destruct (Z.eqb_spec n 0); [lia|]. cbn [orb].
  pose proof (lxor_u64 value v Hv' Hv) as Hx. set (x := Z.lxor value v) in *.
  destruct (Z.eqb_spec x 0) as [E|E]; cbn [orb].
  - destruct (write_holds dbg bs bits false Hb) as (b1 & E1 & H1).
    unfold bs_write_zero. rewrite E1. cbn [rbind]. exists b1. now split.
  - destruct (write_holds dbg bs bits true Hb) as (b1 & E1 & H1).
    unfold bs_write_one. rewrite E1. cbn [rbind].
    pose proof (lz_bounds x ltac:(lia)) as [Hlz _].
    pose proof (tz_spec x ltac:(lia)) as [Htz _].
    pose proof (lz_tz x ltac:(lia)) as Hlt.
    destruct Hw as (Hw1 & Hw2 & Hw3).
    unfold reuses, fits_window. rewrite andb_assoc.
    destruct ((1 <? n) && (fst w <=? leading_zeros64 x) && (snd w <=? trailing_zeros64 x)).
    + destruct (write_holds dbg b1 _ false H1) as (b2 & E2 & H2).
      unfold bs_write_zero. rewrite E2. cbn [rbind]. rewrite shr64_ok by lia. cbn [rbind].
      rewrite arith8_ok by lia. cbn [rbind]. rewrite arith8_ok by lia. cbn [rbind].
      destruct (wb dbg b2 _ (Z.shiftr x (snd w)) (64 - fst w - snd w) H2 ltac:(lia)) as (b3 & E3 & H3).
      rewrite E3. cbn [rbind]. exists b3. split; [reflexivity|].
      rewrite <- !app_assoc in H3. exact H3.
    + destruct (write_holds dbg b1 _ true H1) as (b2 & E2 & H2). rewrite E2. cbn [rbind].
      destruct (wb dbg b2 _ (leading_zeros64 x) 5 H2 ltac:(lia)) as (b3 & E3 & H3).
      rewrite E3. cbn [rbind].
      rewrite arith8_ok by lia. cbn [rbind]. rewrite arith8_ok by lia. cbn [rbind].
      destruct (wb dbg b3 _ (64 - leading_zeros64 x - trailing_zeros64 x) 6 H3 ltac:(lia)) as (b4 & E4 & H4).
      rewrite E4. cbn [rbind]. rewrite shr64_ok by lia. cbn [rbind].
      destruct (wb dbg b4 _ (Z.shiftr x (trailing_zeros64 x)) (64 - leading_zeros64 x - trailing_zeros64 x) H4 ltac:(lia)) as (b5 & E5 & H5).
      rewrite E5. cbn [rbind fst snd]. exists b5. split; [reflexivity|].
      rewrite <- !app_assoc in H5. exact H5.
Qed.

Lemma range8 dbg z : in_bit_range dbg z 8 = Ok (in8 z).
Proof. unfold in_bit_range, in8. destruct dbg; reflexivity. Qed.
Lemma range16 dbg z : in_bit_range dbg z 16 = Ok (in16 z).
Proof. unfold in_bit_range, in16. destruct dbg; reflexivity. Qed.
Lemma range32 z : in_bit_range false z 32 = Ok (in32 z).
Proof. reflexivity. Qed.
Lemma range32_dbg z : in_bit_range true z 32 = Panic.
Proof. reflexivity. Qed.

Lemma zbits_wrap n z : (n <= 64)%nat -> zbits n (wrapu 64 z) = zbits n z.
Proof. intros H. unfold wrapu. change 64 with (Z.of_nat 64). now apply zbits_mod. Qed.

Lemma write_flag dbg bs bits x u fl n z : holds bs bits -> is_byte x -> 0 <= u < 8 ->
  byte_bits x = fl ++ repeat false (Z.to_nat u) -> 1 <= n <= 64 ->
  exists b', (let* b1 := bs_append_bytes dbg bs [x] u in bs_write_bits dbg b1 (wrapu 64 z) n) = Ok b' /\
    holds b' (bits ++ fl ++ zb n z).
Proof.
  intros Hb Hx Hu Hfl Hn. destruct (append_one dbg bs bits x u fl Hb Hx Hu Hfl) as (b1 & E1 & H1).
  rewrite E1. cbn [rbind]. destruct (wb dbg b1 _ (wrapu 64 z) n H1 Hn) as (b2 & E2 & H2).
  exists b2. split; [assumption|]. unfold zb in *. rewrite zbits_wrap in H2 by lia.
  now rewrite app_assoc.
Qed.

Lemma write_dod_ok dbg bs bits z : holds bs bits -> (dbg = false \/ in16 z = true) ->
  exists bs', gc_write_dod dbg bs z = Ok bs' /\ holds bs' (bits ++ enc_dod z).
Proof.
  intros Hb Hr. unfold gc_write_dod, enc_dod.
  destruct (Z.eqb_spec z 0).
  { apply append_one; [assumption|unfold is_byte; lia|lia|reflexivity]. }
  rewrite range8. cbn [rbind]. destruct (in8 z).
  { apply write_flag; [assumption|unfold is_byte; lia|lia|reflexivity|lia]. }
  rewrite range16. cbn [rbind]. destruct (in16 z).
  { apply write_flag; [assumption|unfold is_byte; lia|lia|reflexivity|lia]. }
  destruct Hr as [->|]; [|discriminate].
  rewrite range32. cbn [rbind]. destruct (in32 z).
  { apply write_flag; [assumption|unfold is_byte; lia|lia|reflexivity|lia]. }
  apply write_flag; [assumption|unfold is_byte; lia|lia|reflexivity|lia].
Qed.

Lemma write_dod_panic bs z : in16 z = false -> gc_write_dod true bs z = Panic.
Proof.
  intros H. unfold gc_write_dod.
  destruct (Z.eqb_spec z 0) as [->|]; [discriminate|].
  rewrite range8. cbn [rbind].
  destruct (in8 z) eqn:E8; [unfold in8, in16 in *; lia|].
  rewrite range16. cbn [rbind]. rewrite H, range32_dbg. reflexivity.
Qed.

(* encoder state and description state *)
Definition gc_of (s : st) (bs : bstream) : gcomp :=
  mkGc bs (s_t s) (s_v s) (fst (s_w s)) (snd (s_w s)) (s_d s) (s_n s).

Lemma raw8 z : raw_bits (be_bytes 8 z) = zb 64 z.
Proof. apply raw_be_bytes. Qed.

(* result of compressing one point: panic only on an inadmissible timestamp *)
Lemma interval_eq dbg t t' : 0 <= t < 2 ^ 64 -> 0 <= t' < 2 ^ 64 ->
  (t <= t' \/ dbg = false) ->
  exists u, arith_u dbg 64 (t' - t) = Ok u /\ wraps 64 u = interval t t'.
Proof.
  intros Ht Ht' H. unfold arith_u, in_u, interval, wrapu.
  destruct (Z.leb_spec 0 (t' - t)); cbn [andb].
  - destruct (Z.ltb_spec (t' - t) (2 ^ 64)); [|lia]. eexists. split; reflexivity.
  - destruct H as [H| ->]; [lia|]. eexists. split; [reflexivity|].
    unfold wraps. now rewrite Z.mod_mod by lia.
Qed.

Lemma arith_u_neg n z : z < 0 -> arith_u true n z = Panic.
Proof. intros H. unfold arith_u, in_u. destruct (Z.leb_spec 0 z); [lia|reflexivity]. Qed.

Lemma wraps_in n z : 0 < n -> in_s n z = true -> wraps n z = z.
Proof.
  intros Hn H. unfold in_s in H. unfold wraps.
  assert (Hp : 2 ^ n = 2 * 2 ^ (n - 1)) by (rewrite <- Z.pow_succ_r by lia; f_equal; lia).
  assert (0 < 2 ^ (n - 1)) by (apply Z.pow_pos_nonneg; lia).
  destruct (Z_lt_le_dec z 0).
  - replace (z mod 2 ^ n) with (z + 2 ^ n)
      by (apply (Z.mod_unique z (2 ^ n) (-1)); lia).
    destruct (Z.ltb_spec (z + 2 ^ n) (2 ^ (n - 1))); lia.
  - rewrite Z.mod_small by lia. destruct (Z.ltb_spec z (2 ^ (n - 1))); lia.
Qed.

Lemma compact_ok dbg s bs bits p : st_ok s -> tp_ok p -> holds bs bits ->
  (gc_compact dbg (gc_of s bs) p = Panic /\
   ts_ok dbg (s_n s) (s_t s) (s_d s) (tp_ts p) = false) \/
  (exists bs', gc_compact dbg (gc_of s bs) p = Ok (gc_of (st_next s p) bs') /\
     holds bs' (bits ++ encp s p) /\
     (dbg = true -> 0 < s_n s -> s_t s <= tp_ts p) /\
     (dbg = true -> 1 < s_n s -> in16 (st_dod s p) = true /\
                    st_dod s p = interval (s_t s) (tp_ts p) - s_d s)).
Proof.
  intros (Hn & Ht & Hd & Hv & Hw & Hd0) (Hpt & Hpv) Hb.
  unfold gc_compact, gc_of, encp, ts_ok, st_next.
  cbn [gc_len gc_v gc_bs gc_leading gc_tailing gc_t gc_d s_n s_t s_d s_v s_w].
  destruct (Z.eqb_spec (s_n s) 0) as [E0|E0].
  { right. destruct (append_full dbg bs bits (be_bytes 8 (tp_ts p)) Hb (be_bytes_byte _ _)) as (b1 & E1 & H1).
    rewrite E1. cbn [rbind].
    destruct (append_full dbg b1 _ (be_bytes 8 (tp_val p)) H1 (be_bytes_byte _ _)) as (b2 & E2 & H2).
    rewrite E2. cbn [rbind]. exists b2. unfold gc_with_bs.
    cbn [gc_len gc_v gc_bs gc_leading gc_tailing gc_t gc_d].
    split; [|split; [|split; lia]].
    - unfold next_win. rewrite E0, (Hd0 E0). reflexivity.
    - rewrite !raw8, <- app_assoc in H2. exact H2. }
  destruct (Z.eqb_spec (s_n s) 1) as [E1|E1].
  - destruct (Z_lt_le_dec (tp_ts p) (s_t s)) as [Hlt|Hle]; [destruct dbg|].
    + left. rewrite arith_u_neg by lia. cbn [rbind]. split; [reflexivity|].
      destruct (Z.leb_spec (s_t s) (tp_ts p)); [lia|reflexivity].
    + right. destruct (interval_eq false (s_t s) (tp_ts p) Ht Hpt (or_intror eq_refl)) as (u & Eu & Hu).
      rewrite Eu. cbn [rbind]. rewrite Hu.
      destruct (append_full false bs bits (be_bytes 8 (wrapu 64 (interval (s_t s) (tp_ts p)))) Hb (be_bytes_byte _ _)) as (b1 & F1 & H1).
      rewrite F1. cbn [rbind]. unfold gc_with_bs.
      cbn [gc_len gc_v gc_bs gc_leading gc_tailing gc_t gc_d].
      destruct (compact_value_ok false b1 (s_t s) (s_v s) (s_w s) (s_d s) (s_n s) (tp_val p) _ H1 ltac:(lia) Hv Hpv Hw)
        as (b2 & F2 & H2).
      rewrite F2. cbn [rbind]. exists b2. unfold gc_with_d. cbn [gc_len gc_v gc_bs gc_leading gc_tailing gc_t gc_d].
      split; [reflexivity|]. split; [|split; [discriminate|lia]].
      rewrite raw8 in H2. unfold zb in *. rewrite zbits_wrap in H2 by lia. rewrite app_assoc. exact H2.
    + right. destruct (interval_eq dbg (s_t s) (tp_ts p) Ht Hpt (or_introl Hle)) as (u & Eu & Hu).
      rewrite Eu. cbn [rbind]. rewrite Hu.
      destruct (append_full dbg bs bits (be_bytes 8 (wrapu 64 (interval (s_t s) (tp_ts p)))) Hb (be_bytes_byte _ _)) as (b1 & F1 & H1).
      rewrite F1. cbn [rbind]. unfold gc_with_bs.
      cbn [gc_len gc_v gc_bs gc_leading gc_tailing gc_t gc_d].
      destruct (compact_value_ok dbg b1 (s_t s) (s_v s) (s_w s) (s_d s) (s_n s) (tp_val p) _ H1 ltac:(lia) Hv Hpv Hw)
        as (b2 & F2 & H2).
      rewrite F2. cbn [rbind]. exists b2. unfold gc_with_d. cbn [gc_len gc_v gc_bs gc_leading gc_tailing gc_t gc_d].
      split; [reflexivity|]. split; [|split; [lia|lia]].
      rewrite raw8 in H2. unfold zb in *. rewrite zbits_wrap in H2 by lia. rewrite app_assoc. exact H2.
  - assert (Hfin : forall (dod : Z), dod = st_dod s p -> (dbg = false \/ in16 dod = true) ->
       exists bs',
         (let* g1 := (let* b1 := gc_write_dod dbg bs dod in
            gc_compact_value dbg (gc_with_d (gc_with_bs
              (mkGc bs (s_t s) (s_v s) (fst (s_w s)) (snd (s_w s)) (s_d s) (s_n s)) b1)
              (interval (s_t s) (tp_ts p))) (tp_val p)) in
          Ok (mkGc (gc_bs g1) (tp_ts p) (tp_val p) (gc_leading g1) (gc_tailing g1) (gc_d g1) (gc_len g1 + 1)))
         = Ok (gc_of (st_next s p) bs') /\ holds bs' (bits ++ encp s p)).
    { intros dod Hdod Hr. destruct (write_dod_ok dbg bs bits dod Hb Hr) as (b1 & F1 & H1).
      rewrite F1. cbn [rbind]. unfold gc_with_bs, gc_with_d.
      cbn [gc_len gc_v gc_bs gc_leading gc_tailing gc_t gc_d].
      destruct (compact_value_ok dbg b1 (s_t s) (s_v s) (s_w s) (interval (s_t s) (tp_ts p)) (s_n s) (tp_val p) _ H1 ltac:(lia) Hv Hpv Hw)
        as (b2 & F2 & H2).
      rewrite F2. cbn [rbind gc_len gc_v gc_bs gc_leading gc_tailing gc_t gc_d]. exists b2.
      unfold gc_of, st_next, encp. cbn [s_n s_t s_d s_v s_w].
      destruct (Z.eqb_spec (s_n s) 0); [lia|]. destruct (Z.eqb_spec (s_n s) 1); [lia|].
      split; [reflexivity|]. rewrite <- Hdod, app_assoc. exact H2. }
    unfold gc_of, st_next, encp in Hfin. cbn [s_n s_t s_d s_v s_w] in Hfin.
    destruct (Z.eqb_spec (s_n s) 0); [lia|]. destruct (Z.eqb_spec (s_n s) 1); [lia|].
    destruct dbg.
    + destruct (Z_lt_le_dec (tp_ts p) (s_t s)) as [Hlt|Hle].
      * left. rewrite arith_u_neg by lia. cbn [rbind]. split; [reflexivity|].
        destruct (Z.leb_spec (s_t s) (tp_ts p)); [lia|reflexivity].
      * destruct (interval_eq true (s_t s) (tp_ts p) Ht Hpt (or_introl Hle)) as (u & Eu & Hu).
        rewrite Eu. cbn [rbind]. rewrite Hu. cbv zeta.
        destruct (in16 (interval (s_t s) (tp_ts p) - s_d s)) eqn:E16.
        -- right. assert (Hin : in_s 64 (interval (s_t s) (tp_ts p) - s_d s) = true)
             by (unfold in16, in_s in *; change (2 ^ (64 - 1)) with 9223372036854775808; lia).
           assert (Hdd : st_dod s p = interval (s_t s) (tp_ts p) - s_d s)
             by (unfold st_dod; apply wraps_in; [lia|assumption]).
           unfold arith_s at 1. rewrite Hin. cbn [rbind].
           destruct (Hfin _ (eq_sym Hdd) (or_intror E16)) as (b' & F & H).
           exists b'. split; [exact F|]. split; [exact H|]. split; [lia|].
           intros _ _. split; [now rewrite Hdd|assumption].
        -- left. split.
           ++ unfold arith_s at 1. destruct (in_s 64 _); [|reflexivity]. cbn [rbind].
              rewrite write_dod_panic by assumption. reflexivity.
           ++ destruct (Z.leb_spec (s_t s) (tp_ts p)); [|lia]. cbn [andb].
              unfold in16, dod_ok in *. lia.
    + right. destruct (interval_eq false (s_t s) (tp_ts p) Ht Hpt (or_intror eq_refl)) as (u & Eu & Hu).
      rewrite Eu. cbn [rbind]. rewrite Hu. cbv zeta.
      assert (Hdd : arith_s false 64 (interval (s_t s) (tp_ts p) - s_d s) = Ok (st_dod s p)).
      { unfold arith_s, st_dod. destruct (in_s 64 _) eqn:Ein; [|reflexivity].
        now rewrite wraps_in by (lia || assumption). }
      rewrite Hdd. cbn [rbind].
      destruct (Hfin _ eq_refl (or_introl eq_refl)) as (b' & F & H).
      exists b'. split; [exact F|]. split; [exact H|]. split; discriminate.
Qed.
