(* Whole-series results about the Gorilla codec and the public compaction API. *)
From Verif Require Import Rust Bstream BitSpec BstreamProofs BitsProofs GorillaBits Gorilla GorillaSpec GorillaEnc GorillaDec GorillaRound Compactor.
From Coq Require Import ZifyBool ZifyNat.
Ltac Zify.zify_post_hook ::= Z.div_mod_to_equations.

(* ---- termination and bound on arbitrary bytes ---- *)
Lemma read_loop_first k b c n cur buf r :
  read_loop k b c n cur buf = Ok r -> cur = 0 -> 0 < n -> 0 <= c -> c < 8 * zlen (bs_data b).
Proof.
  intros H -> Hn Hc. destruct k; cbn [read_loop] in H; destruct (Z.ltb_spec (0 * 8) n); try lia; try discriminate.
  unfold read_one, bs_read_byte in H.
  destruct (Z.ltb_spec (c / 8 + 0) (zlen (bs_data b))); [|discriminate]. lia.
Qed.

Lemma sk_read_mono dbg sk buf n l buf' sk' : sk_read dbg sk buf n = Ok (l, buf', sk') ->
  0 <= n -> 0 <= sk_cursor sk ->
  sk_data sk' = sk_data sk /\ sk_cursor sk' = sk_cursor sk + l /\ 0 <= l <= n /\
  (0 < l -> sk_cursor sk < 8 * zlen (bs_data (sk_data sk))).
Proof.
  intros H Hn Hc. unfold sk_read in H.
  destruct (bs_bitlen dbg (sk_data sk)) as [len| |]; cbn [rbind] in H; try discriminate.
  destruct (Z.ltb_spec len (sk_cursor sk)).
  - injection H as <- <- <-. repeat split; lia.
  - set (n' := if len <? sk_cursor sk + n then len - sk_cursor sk else n) in *.
    assert (0 <= n' <= n) by (unfold n'; destruct (Z.ltb_spec len (sk_cursor sk + n)); lia).
    destruct (read_loop _ _ _ _ _ _) as [[cur buf1]| |] eqn:E; cbn [rbind] in H; try discriminate.
    destruct (if cur =? 0 then Ok buf1 else _) as [buf2| |]; cbn [rbind] in H; try discriminate.
    injection H as <- <- <-. cbn [sk_data sk_cursor].
    split; [reflexivity|]. split; [reflexivity|]. split; [assumption|].
    intros. eapply read_loop_first; eauto.
Qed.

Definition gcur (g : gdec) : Z := sk_cursor (gd_src g).
Definition glen (g : gdec) : Z := 8 * zlen (bs_data (sk_data (gd_src g))).

Ltac bind_inv H :=
  match type of H with
  | rbind ?m _ = Ok _ => let E := fresh "E" in destruct m as [?|?|] eqn:E; cbn [rbind] in H; [|discriminate H|discriminate H]
  end.

Ltac ok2 H :=
  match type of H with Ok (_, ?a) = Ok (_, ?b) =>
    let E := fresh in assert (E : b = a) by congruence; rewrite E in *; clear H E end.

Lemma u8_nonneg dbg z y : arith_u dbg 8 z = Ok y -> 0 <= y.
Proof.
  unfold arith_u, in_u, wrapu. destruct ((0 <=? z) && (z <? 2 ^ 8)) eqn:E.
  - intros [= <-]. lia.
  - destruct dbg; [discriminate|]. intros [= <-]. apply Z.mod_pos_bound. lia.
Qed.

Lemma read_byte_byte b i : Forall is_byte (bs_data b) ->
  is_byte (match bs_read_byte b i with Some x => x | None => 0 end).
Proof.
  intros HF. unfold bs_read_byte. destruct (i <? zlen (bs_data b)); [|unfold is_byte; lia].
  destruct (nth_error (bs_data b) (Z.to_nat i)) eqn:En; [|unfold is_byte; lia].
  eapply nth_Forall; eauto.
Qed.

Lemma sk_read_buf dbg sk buf n l buf' sk' : sk_read dbg sk buf n = Ok (l, buf', sk') ->
  Forall is_byte (bs_data (sk_data sk)) -> Forall is_byte buf -> Forall is_byte buf'.
Proof.
  assert (Hset : forall l i v l', set_nth l i v = Ok l' -> is_byte v -> Forall is_byte l -> Forall is_byte l').
  { clear. induction l as [|x l IH]; intros [|i] v l' H Hv HF; cbn in H; try discriminate.
    - injection H as <-. inversion HF; subst. constructor; assumption.
    - inversion HF; subst. destruct (set_nth l i v) eqn:E; try discriminate. cbn in H. injection H as <-.
      constructor; [assumption|]. eapply IH; eauto. }
  intros H HF Hb. unfold sk_read in H.
  destruct (bs_bitlen dbg (sk_data sk)) as [len| |]; cbn [rbind] in H; try discriminate.
  destruct (len <? sk_cursor sk); [injection H as <- <- <-; assumption|].
  set (n' := if len <? sk_cursor sk + n then len - sk_cursor sk else n) in *.
  destruct (read_loop _ _ _ _ _ _) as [[cur buf1]| |] eqn:E; cbn [rbind] in H; try discriminate.
  assert (Hb1 : Forall is_byte buf1).
  { revert E Hb. generalize (S (length buf)) as k, 0 as c0. intros k. revert buf.
    induction k as [|k IH]; intros buf c0 E Hb; cbn [read_loop] in E; destruct (c0 * 8 <? n'); try discriminate;
      try (injection E as <- <-; assumption).
    destruct (read_one _ _ _) as [x| |] eqn:Ex; cbn [rbind] in E; try discriminate.
    destruct (set_nth buf (Z.to_nat c0) x) as [b2| |] eqn:Es; cbn [rbind] in E; try discriminate.
    eapply IH; [exact E|]. eapply Hset; [exact Es| |assumption].
    unfold read_one in Ex. destruct (bs_read_byte _ (_ + c0)) as [f|]; cbn [unwrap rbind] in Ex; try discriminate.
    match type of Ex with Ok ?e = Ok x => assert (x = e) as -> by congruence end. apply lor_byte; [apply wrapu8_byte|].
    destruct (sk_cursor sk mod 8 =? 0); [unfold is_byte; lia|]. apply shiftr_byte; [|pose proof (Z.mod_pos_bound (sk_cursor sk) 8 eq_refl); lia].
    apply read_byte_byte. assumption. }
  destruct (cur =? 0); cbn [rbind] in H; [injection H as <- <- <-; assumption|].
  destruct (nth_error buf1 _) as [x|] eqn:En; cbn [unwrap rbind] in H; try discriminate.
  destruct (set_nth buf1 _ _) as [b2| |] eqn:Es; cbn [rbind] in H; try discriminate.
  injection H as <- <- <-. eapply Hset; [exact Es| |assumption].
  apply land_byte; [|eapply nth_Forall; eauto].
  destruct (n' mod 8 =? 0); [unfold is_byte; lia|apply wrapu8_byte].
Qed.

Lemma shr_small x s : 0 <= x -> 0 <= Z.shiftr x s.
Proof. intros. now apply Z.shiftr_nonneg. Qed.

Definition gwf (g : gdec) : Prop := 0 <= gcur g /\ Forall is_byte (bs_data (sk_data (gd_src g))).

Lemma values_progress dbg g v g' : gd_values dbg g = Ok (Some v, g') -> gwf g ->
  gcur g < glen g /\ gcur g < gcur g' /\ sk_data (gd_src g') = sk_data (gd_src g).
Proof.
  unfold gwf, gcur, glen. intros H [Hc HF]. unfold gd_values in H.
  assert (B1 : Forall is_byte [0]) by (apply Forall1; unfold is_byte; lia).
  assert (B8 : Forall is_byte (vec_with_len 8)) by apply Forall_repeat0.
  bind_inv H. destruct a as [[rl nb] sk1].
  destruct (sk_read_mono _ _ _ _ _ _ _ E ltac:(lia) Hc) as (D1 & C1 & L1 & R1).
  destruct (Z.ltb_spec 2 rl); [discriminate|]. destruct (Z.eqb_spec rl 0); [discriminate|]. cbn [orb] in H.
  bind_inv H. destruct ((rl =? 1) || _) eqn:E1.
  { ok2 H. cbn [gd_src sk_reset sk_cursor sk_data].
    split; [apply R1; lia|]. split; [lia|assumption]. }
  destruct (Z.land _ 192 =? 128).
  - bind_inv H. bind_inv H. bind_inv H. destruct a2 as [[l b2] sk2].
    apply u8_nonneg in E3.
    destruct (sk_read_mono _ _ _ _ _ _ _ E4 ltac:(lia) ltac:(lia)) as (D2 & C2 & L2 & _).
    destruct (negb _); [discriminate|]. bind_inv H. ok2 H. cbn [gd_src].
    split; [apply R1; lia|]. split; [lia|congruence].
  - bind_inv H. destruct a0 as [[l b2] sk2].
    destruct (sk_read_mono _ _ _ _ _ _ _ E2 ltac:(lia) ltac:(lia)) as (D2 & C2 & L2 & _).
    destruct (negb _); [discriminate|]. bind_inv H. bind_inv H. destruct a1 as [[l3 b3] sk3].
    destruct (sk_read_mono _ _ _ _ _ _ _ E4 ltac:(lia) ltac:(lia)) as (D3 & C3 & L3 & _).
    destruct (negb _); [discriminate|].
    bind_inv H. bind_inv H. bind_inv H. bind_inv H. destruct a4 as [[l4 b4] sk4].
    assert (Hs : 0 <= Z.shiftr a1 2).
    { apply shr_small. destruct (nth_error b3 0) eqn:En; [|discriminate]. injection E5 as ->.
      eapply (nth_Forall is_byte) in En; [unfold is_byte in En; lia|].
      eapply sk_read_buf; [exact E4| |assumption]. rewrite D2, D1. assumption. }
    destruct (sk_read_mono _ _ _ _ _ _ _ E8 ltac:(lia) ltac:(lia)) as (D4 & C4 & L4 & _).
    destruct (negb _); [discriminate|]. bind_inv H. ok2 H. cbn [gd_src].
    split; [apply R1; lia|]. split; [lia|congruence].
Qed.

Lemma finish_progress dbg g ts p g' : gd_finish dbg g ts = Ok (Some p, g') -> gwf g ->
  gcur g < glen g /\ gcur g < gcur g' /\ sk_data (gd_src g') = sk_data (gd_src g).
Proof.
  unfold gd_finish. intros H Hw. bind_inv H. destruct a as [[v|] g1]; [|discriminate].
  ok2 H. exact (values_progress _ _ _ _ E Hw).
Qed.

Lemma timestamp_mono dbg g r t g' : gd_timestamp dbg g r = Ok (Some t, g') -> gwf g -> 0 <= r ->
  gcur g <= gcur g' /\ sk_data (gd_src g') = sk_data (gd_src g).
Proof.
  unfold gd_timestamp, gwf, gcur. intros H [Hc HF] Hr.
  destruct (negb _); [discriminate|]. bind_inv H. destruct a as [[l b] sk1].
  destruct (sk_read_mono _ _ _ _ _ _ _ E ltac:(lia) Hc) as (D & C & L & _).
  destruct (negb _); [discriminate|]. bind_inv H. bind_inv H. ok2 H. cbn [gd_src].
  split; [lia|assumption].
Qed.

Lemma next_progress dbg g p g' : gd_next dbg g = Ok (Some p, g') -> gwf g ->
  gcur g < glen g /\ gcur g < gcur g' /\ sk_data (gd_src g') = sk_data (gd_src g).
Proof.
  unfold gd_next. intros H Hw. pose proof Hw as [Hc HF]. unfold gwf, gcur, glen in *.
  destruct (gd_idx g =? 0).
  { bind_inv H. destruct a as [[l b] sk1].
    destruct (sk_read_mono _ _ _ _ _ _ _ E ltac:(lia) Hc) as (D & C & L & R).
    destruct (Z.eqb_spec l 128); [|discriminate]. cbn [negb] in H. ok2 H. cbn [gd_src].
    split; [apply R; lia|]. split; [lia|assumption]. }
  destruct (gd_idx g =? 1).
  { bind_inv H. destruct a as [[l b] sk1].
    destruct (sk_read_mono _ _ _ _ _ _ _ E ltac:(lia) Hc) as (D & C & L & R).
    destruct (Z.eqb_spec l 64); [|discriminate]. cbn [negb] in H. bind_inv H.
    apply finish_progress in H.
    2:{ unfold gwf, gcur. cbn [gd_src]. rewrite D. split; [lia|assumption]. }
    unfold gcur, glen in H. cbn [gd_src] in H. destruct H as (H1 & H2 & H3).
    split; [apply R; lia|]. split; [lia|congruence]. }
  bind_inv H. destruct a as [[l fb] sk1].
  destruct (sk_read_mono _ _ _ _ _ _ _ E ltac:(lia) Hc) as (D & C & L & R).
  destruct (Z.eqb_spec l 0); [discriminate|]. cbn [orb] in H. destruct (4 <? l); [discriminate|].
  bind_inv H. bind_inv H. destruct a0 as [ots g2].
  destruct ots as [ts|]; [|discriminate].
  assert (Hg2 : sk_cursor (gd_src g) + 1 <= sk_cursor (gd_src g2) /\ sk_data (gd_src g2) = sk_data (gd_src g)).
  { destruct (Z.land a 128 =? 0).
    { bind_inv E1. ok2 E1. cbn [gd_src gd_with_src sk_reset sk_cursor sk_data]. split; [lia|assumption]. }
    assert (Hts : forall c r sk, sk_data sk = sk_data sk1 -> sk_cursor sk = c -> sk_cursor (gd_src g) + 1 <= c -> 0 <= r ->
      gd_timestamp dbg (gd_with_src g sk) r = Ok (Some ts, g2) ->
      sk_cursor (gd_src g) + 1 <= sk_cursor (gd_src g2) /\ sk_data (gd_src g2) = sk_data (gd_src g)).
    { intros c r sk Hd Hcc Hle Hr Ht. apply timestamp_mono in Ht; [|split|assumption].
      - unfold gcur in Ht. cbn [gd_with_src gd_src] in Ht. split; [lia|]. destruct Ht as [_ ->]. congruence.
      - unfold gcur. cbn [gd_with_src gd_src]. lia.
      - cbn [gd_with_src gd_src]. rewrite Hd, D. assumption. }
    destruct (Z.land a 192 =? 128).
    { eapply Hts; [| | | |exact E1]; cbn [sk_reset sk_cursor sk_data]; try reflexivity; lia. }
    destruct (Z.land a 224 =? 192).
    { eapply Hts; [| | | |exact E1]; cbn [sk_reset sk_cursor sk_data]; try reflexivity; lia. }
    destruct (Z.land a 240 =? 224); (eapply Hts; [| | | |exact E1]; try reflexivity; lia). }
  destruct Hg2 as [G1 G2].
  apply finish_progress in H.
  2:{ unfold gwf, gcur. cbn [gd_src gd_with_t]. rewrite G2. split; [lia|assumption]. }
  unfold gcur, glen in H. cbn [gd_src gd_with_t] in H. destruct H as (H1 & H2 & H3).
  split; [apply R; lia|]. split; [lia|congruence].
Qed.

Lemma collect_bound fuel : forall dbg g, gwf g -> Z.max 0 (glen g - gcur g) < Z.of_nat fuel ->
  exists r, gd_collect fuel dbg g = Some r /\
    forall ps, r = Ok ps -> Z.of_nat (length ps) <= Z.max 0 (glen g - gcur g).
Proof.
  induction fuel as [|fuel IH]; intros dbg g Hw Hf; [lia|].
  cbn [gd_collect]. destruct (gd_next dbg g) as [[[p|] g']|e|] eqn:E.
  - destruct (next_progress _ _ _ _ E Hw) as (H1 & H2 & H3). destruct Hw as [Hc HF].
    assert (Hl : glen g' = glen g) by (unfold glen; now rewrite H3).
    destruct (IH dbg g') as (r & Er & Hr).
    { split; [lia|]. now rewrite H3. }
    { rewrite Hl. lia. }
    rewrite Er. eexists. split; [reflexivity|].
    intros ps Hps. destruct r as [qs| |]; try discriminate. injection Hps as <-.
    specialize (Hr qs eq_refl). cbn [length]. rewrite Hl in Hr. lia.
  - eexists. split; [reflexivity|]. intros ps [= <-]. cbn [length]. lia.
  - eexists. split; [reflexivity|]. discriminate.
  - eexists. split; [reflexivity|]. discriminate.
Qed.

(* ---- round trip ---- *)
Fixpoint enc_all (s : st) (ps : list tp) : list bool :=
  match ps with [] => [] | p :: ps' => encp s p ++ enc_all (st_next s p) ps' end.
Fixpoint st_all (s : st) (ps : list tp) : st :=
  match ps with [] => s | p :: ps' => st_all (st_next s p) ps' end.
Fixpoint facts (dbg : bool) (s : st) (ps : list tp) : Prop :=
  match ps with
  | [] => True
  | p :: ps' =>
     (dbg = true -> 0 < s_n s -> s_t s <= tp_ts p) /\
     (dbg = true -> 1 < s_n s -> in16 (st_dod s p) = true /\
                    st_dod s p = interval (s_t s) (tp_ts p) - s_d s) /\
     facts dbg (st_next s p) ps'
  end.
Definition adm (dbg : bool) (s : st) (ps : list tp) : bool :=
  admissible_from dbg (s_n s) (s_t s) (s_d s) (s_v s) (s_w s) ps.

Lemma comp_all dbg ps : forall s bs bits, st_ok s -> Forall tp_ok ps -> holds bs bits ->
  (gc_compact_all dbg (gc_of s bs) ps = Panic /\ adm dbg s ps = false) \/
  (exists bs', gc_compact_all dbg (gc_of s bs) ps = Ok (gc_of (st_all s ps) bs') /\
     holds bs' (bits ++ enc_all s ps) /\ facts dbg s ps).
Proof.
  induction ps as [|p ps IH]; intros s bs bits Hs HF Hb.
  - right. exists bs. cbn. rewrite app_nil_r. auto.
  - inversion HF as [|? ? Hp HF']; subst. unfold adm. cbn [gc_compact_all admissible_from].
    destruct (compact_ok dbg s bs bits p Hs Hp Hb) as [[E T]|(bs1 & E & H1 & F1 & F2)].
    + left. rewrite E, T. cbn. auto.
    + rewrite E. cbn [rbind].
      destruct (IH _ _ _ (st_next_ok _ _ Hs Hp) HF' H1) as [[E2 A2]|(bs2 & E2 & H2 & F3)].
      * left. split; [assumption|]. unfold adm in A2. cbn in A2. rewrite A2. apply andb_false_r.
      * right. exists bs2. split; [exact E2|]. split; [|cbn [facts]; auto].
        cbn [enc_all]. now rewrite app_assoc.
Qed.

Lemma next_end dbg s b pre : st_ok s -> holds b pre ->
  exists g', gd_next dbg (gd_of s b (zlen pre)) = Ok (None, g').
Proof.
  intros Hs Hb. rewrite <- (app_nil_r pre) in Hb.
  assert (R : forall k n, (n <= 8 * k)%nat -> exists buf sk, sk_read dbg (mkSk b (zlen pre)) (repeat 0 k) (Z.of_nat n) = Ok (0, buf, sk)).
  { intros k n Hn. destruct (rd_gen dbg b pre [] k n Hb Hn) as (buf & E & _).
    cbn zeta in E. cbn [length] in E. rewrite Nat.min_0_r in E. eauto. }
  unfold gd_next, gd_of. cbn [gd_src gd_t gd_v gd_leading gd_tailing gd_d gd_idx].
  destruct (s_n s =? 0).
  { destruct (R 16%nat 128%nat ltac:(lia)) as (buf & sk & E). change (Z.of_nat 128) with 128 in E.
    unfold vec_with_len. rewrite E. cbn. eauto. }
  destruct (s_n s =? 1).
  { destruct (R 8%nat 64%nat ltac:(lia)) as (buf & sk & E). change (Z.of_nat 64) with 64 in E.
    unfold vec_with_len. rewrite E. cbn. eauto. }
  destruct (R 1%nat 4%nat ltac:(lia)) as (buf & sk & E). change (Z.of_nat 4) with 4 in E.
  change (repeat 0 1) with [0] in E. rewrite E. cbn. eauto.
Qed.

Lemma dec_all dbg ps : forall fuel s b pre r, st_ok s -> Forall tp_ok ps ->
  holds b (pre ++ enc_all s ps) -> facts dbg s ps ->
  gd_collect fuel dbg (gd_of s b (zlen pre)) = Some r ->
  (r = Ok ps <-> adm dbg s ps = true).
Proof.
  induction ps as [|p ps IH]; intros fuel s b pre r Hs HF Hb Hfa Hr.
  - cbn [enc_all] in Hb. rewrite app_nil_r in Hb.
    destruct (next_end dbg s b pre Hs Hb) as (g' & E).
    destruct fuel; cbn [gd_collect] in Hr; [discriminate|]. rewrite E in Hr. injection Hr as <-.
    cbn. tauto.
  - inversion HF as [|? ? Hp HF']; subst. cbn [enc_all] in Hb.
    destruct Hfa as (F1 & F2 & F3).
    pose proof (step_dec dbg s p b pre _ Hs Hp Hb F1 F2) as Hstep.
    unfold adm. cbn [admissible_from].
    destruct fuel as [|fuel]; cbn [gd_collect] in Hr; [discriminate|].
    destruct (ts_ok _ _ _ _ _ && val_ok _ _ _ _).
    + rewrite Hstep in Hr. cbn [andb].
      destruct (gd_collect fuel dbg _) as [r'|] eqn:E; [|discriminate].
      injection Hr as <-. rewrite app_assoc in Hb.
      specialize (IH fuel (st_next s p) b (pre ++ encp s p) r' (st_next_ok _ _ Hs Hp) HF' Hb F3 E).
      unfold adm in IH. cbn [s_n s_t s_d s_v s_w st_next] in IH. rewrite <- IH.
      destruct r'; cbn [rmap rbind]; split; intros Hx; try discriminate; congruence.
    + cbn [andb]. split; [|discriminate]. intros ->. exfalso.
      destruct (gd_next dbg (gd_of s b (zlen pre))) as [[[q|] g']| |] eqn:E; try discriminate.
      destruct (gd_collect fuel dbg g') as [[qs| |]|]; cbn [rmap rbind] in Hr; try discriminate.
      injection Hr as -> ->. exact (Hstep _ eq_refl).
Qed.

Lemma from_as_bytes b : bs_from_bytes (bs_as_bytes_vec b) = b.
Proof.
  unfold bs_from_bytes, bs_as_bytes_vec. destruct b as [d r]. cbn [bs_data bs_rem].
  rewrite removelast_last, last_last. destruct d; reflexivity.
Qed.

Lemma pop_snoc l x : pop_or0 (l ++ [x]) = (x, l).
Proof. unfold pop_or0. rewrite removelast_last, last_last. destruct l; reflexivity. Qed.

Lemma st0_ok : st_ok st0.
Proof. unfold st_ok, st0, win_ok. cbn. repeat split; lia. Qed.

Lemma pop_facts data : Forall is_byte data ->
  Forall is_byte (snd (pop_or0 data)) /\ (length (snd (pop_or0 data)) <= length data)%nat.
Proof.
  intros HF. destruct data as [|x data']; [split; [constructor|apply le_n]|].
  pose proof (@app_removelast_last Z (x :: data') 0 ltac:(discriminate)) as Hs.
  change (snd (pop_or0 (x :: data'))) with (removelast (x :: data')).
  revert HF Hs. generalize (x :: data') as l. intros l HF Hs. split.
  - rewrite Hs in HF. apply Forall_app in HF. apply HF.
  - apply (f_equal (@length Z)) in Hs. rewrite app_length in Hs. lia.
Qed.

Lemma decompress_total dbg data : Forall is_byte data ->
  exists r, decompress dbg CGorilla data = Some r /\
    forall ps, r = Ok ps -> (length ps <= 8 * length data)%nat.
Proof.
  intros HF. unfold decompress, decompactor_from. destruct (pop_or0 data) as [t d] eqn:Ep.
  destruct (t =? ctag CGorilla); [|eexists; split; [reflexivity|discriminate]].
  cbn [decompactor_decompact gd_new gd_src sk_new sk_data].
  assert (Hd : Forall is_byte d /\ (length d <= length data)%nat).
  { assert (d = snd (pop_or0 data)) as -> by now rewrite Ep. now apply pop_facts. }
  assert (Hb : Forall is_byte (bs_data (bs_from_bytes d)) /\ (length (bs_data (bs_from_bytes d)) <= length d)%nat).
  { destruct Hd as [Hd _]. destruct d as [|x d']; [split; [constructor|apply le_n]|].
    now apply (pop_facts (x :: d')). }
  destruct (collect_bound (S (8 * length (bs_data (bs_from_bytes d)))) dbg (gd_new (bs_from_bytes d))) as (r & E & Hr).
  { split; [unfold gcur; cbn; lia|]. apply Hb. }
  { unfold glen, gcur. cbn [gd_new gd_src sk_new sk_data sk_cursor]. unfold zlen. lia. }
  exists r. split; [exact E|]. intros ps Hps. specialize (Hr ps Hps).
  unfold glen, gcur in Hr. cbn [gd_new gd_src sk_new sk_data sk_cursor] in Hr. unfold zlen in Hr. lia.
Qed.

(* the central statement: compress, then decompress *)
Lemma roundtrip_iff dbg ps : Forall tp_ok ps ->
  ((exists bytes k, compactor_compact_vec dbg (compactor_new CGorilla) ps = Ok (bytes, k) /\
      decompress dbg CGorilla bytes = Some (Ok ps)) <-> admissible dbg ps = true).
Proof.
  intros HF. change (admissible dbg ps) with (adm dbg st0 ps).
  destruct (comp_all dbg ps st0 bs_new [] st0_ok HF holds_nil) as [[E A]|(bs & E & H & F)].
  - rewrite A. split; [|discriminate]. intros (bytes & k & E2 & _). exfalso.
    cbn [compactor_compact_vec compactor_new] in E2.
    change gc_new with (gc_of st0 bs_new) in E2. rewrite E in E2. discriminate.
  - cbn [app] in H. cbn [compactor_compact_vec compactor_new].
    change gc_new with (gc_of st0 bs_new). rewrite E. cbn [rbind].
    assert (Hd : decompress dbg CGorilla (gc_as_bytes_vec (gc_of (st_all st0 ps) bs) ++ [ctag CGorilla]) =
                 gd_collect (S (8 * length (bs_data bs))) dbg (gd_of st0 bs (zlen (@nil bool)))).
    { unfold decompress, decompactor_from. rewrite pop_snoc, Z.eqb_refl.
      unfold gc_as_bytes_vec. cbn [gc_of gc_bs]. rewrite from_as_bytes. reflexivity. }
    destruct (collect_bound (S (8 * length (bs_data bs))) dbg (gd_of st0 bs (zlen (@nil bool)))) as (r & Er & _).
    { split; [unfold gcur; cbn; lia|apply H]. }
    { unfold glen, gcur. cbn [gd_of gd_src sk_data sk_cursor]. unfold zlen. cbn [length]. lia. }
    pose proof (dec_all dbg ps _ st0 bs [] r st0_ok HF H F Er) as Hiff.
    rewrite <- Hiff. split.
    + intros (bytes & k & Ek & Ed). match type of Ek with Ok (?a, _) = Ok _ => assert (bytes = a) as -> by congruence end.
      rewrite Hd, Er in Ed. congruence.
    + intros ->. do 2 eexists. split; [reflexivity|]. rewrite Hd. assumption.
Qed.
