(* Proofs about the public compaction API. *)
From Verif Require Import Rust Bstream BitSpec BstreamProofs BitsProofs GorillaBits Gorilla GorillaSpec GorillaEnc GorillaDec GorillaRound Compactor CompactorSpec GorillaProofs.
From Coq Require Import ZifyBool ZifyNat.
Ltac Zify.zify_post_hook ::= Z.div_mod_to_equations.

Lemma adm_app dbg ps : forall qs n t d v w,
  admissible_from dbg n t d v w (ps ++ qs) = true -> admissible_from dbg n t d v w ps = true.
Proof.
  induction ps as [|p ps IH]; intros qs n t d v w H; [reflexivity|].
  cbn [app admissible_from] in *. apply andb_true_iff in H as [H1 H2]. rewrite H1.
  cbn [andb]. eauto.
Qed.

Lemma compact_all_app dbg ps : forall qs g, gc_compact_all dbg g (ps ++ qs) =
  rbind (gc_compact_all dbg g ps) (fun g' => gc_compact_all dbg g' qs).
Proof.
  induction ps as [|p ps IH]; intros qs g; [reflexivity|]. cbn [app gc_compact_all].
  destruct (gc_compact dbg g p); cbn [rbind]; auto.
Qed.

Lemma take_ok dbg ps g : Forall tp_ok ps -> admissible dbg ps = true ->
  gc_compact_all dbg gc_new ps = Ok g ->
  exists b, compactor_bytes (KGorilla g) = Ok b /\ decompress dbg CGorilla b = Some (Ok ps).
Proof.
  intros HF HA E. apply roundtrip_iff in HA as (b & k & Ek & Ed); [|assumption].
  cbn [compactor_compact_vec compactor_new] in Ek. rewrite E in Ek. cbn [rbind] in Ek.
  exists b. split; [|assumption]. cbn [compactor_bytes]. congruence.
Qed.

Lemma script_ok dbg os : forall ps g, Forall tp_ok (ps ++ fed os) ->
  admissible dbg (ps ++ fed os) = true -> gc_compact_all dbg gc_new ps = Ok g ->
  exists outs, cops_run dbg (KGorilla g) os = Ok outs /\
    map (decompress dbg CGorilla) outs = map (fun q => Some (Ok q)) (fed_before_takes ps os).
Proof.
  induction os as [|[p|] os IH]; intros ps g HF HA E.
  - exists []. auto.
  - cbn [fed flat_map app] in HF, HA. fold (fed os) in HF, HA.
    assert (Hc : ps ++ p :: fed os = (ps ++ [p]) ++ fed os) by (now rewrite <- app_assoc).
    rewrite Hc in HF, HA.
    assert (HA1 : admissible dbg (ps ++ [p]) = true) by (eapply adm_app; exact HA).
    assert (HF1 : Forall tp_ok (ps ++ [p])) by (apply Forall_app in HF; apply HF).
    apply roundtrip_iff in HA1 as (b & k & Ek & _); [|assumption].
    cbn [compactor_compact_vec compactor_new] in Ek. rewrite compact_all_app, E in Ek.
    cbn [rbind gc_compact_all] in Ek.
    destruct (gc_compact dbg g p) as [g'| |] eqn:Eg; cbn [rbind] in Ek; try discriminate.
    destruct (IH (ps ++ [p]) g' HF HA) as (outs & Eo & Ho).
    { rewrite compact_all_app, E. cbn [rbind gc_compact_all]. rewrite Eg. reflexivity. }
    exists outs. cbn [cops_run compactor_compact fed_before_takes]. rewrite Eg. cbn [rmap rbind]. auto.
  - cbn [fed flat_map app] in HF, HA. fold (fed os) in HF, HA.
    destruct (take_ok dbg ps g) as (b & Eb & Ed); try assumption.
    { apply Forall_app in HF. apply HF. }
    { eapply adm_app. exact HA. }
    destruct (IH ps g HF HA E) as (outs & Eo & Ho).
    exists (b :: outs). cbn [cops_run fed_before_takes map]. rewrite Eb. cbn [rbind]. rewrite Eo. cbn [rbind].
    split; [reflexivity|]. now rewrite Ed, Ho.
Qed.

Lemma script_new dbg os : Forall tp_ok (fed os) -> admissible dbg (fed os) = true ->
  exists outs, cops_run dbg (compactor_new CGorilla) os = Ok outs /\
    map (decompress dbg CGorilla) outs = map (fun q => Some (Ok q)) (fed_before_takes [] os).
Proof. intros. apply script_ok; auto. Qed.

(* ---- gentle series are admissible ---- *)
Lemma lz_lt32 x : 2 ^ 32 <= x < 2 ^ 64 -> leading_zeros64 x < 32.
Proof.
  intros H. unfold leading_zeros64. destruct (Z.eqb_spec x 0); [lia|].
  assert (32 <= Z.log2 x) by (apply Z.log2_le_pow2; lia). lia.
Qed.

Lemma lz_pos x : 0 < x < 2 ^ 63 -> 0 < leading_zeros64 x.
Proof.
  intros H. unfold leading_zeros64. destruct (Z.eqb_spec x 0); [lia|].
  assert (Z.log2 x < 63) by (apply Z.log2_lt_pow2; lia). lia.
Qed.

Lemma tz_pos x : 0 < x < 2 ^ 64 -> Z.even x = true -> 0 < trailing_zeros64 x.
Proof.
  intros H He. destruct (tz_spec x H) as (H1 & H2 & H3).
  destruct (Z_lt_le_dec 0 (trailing_zeros64 x)); [assumption|]. exfalso.
  assert (E : trailing_zeros64 x = 0) by lia. rewrite E, Z.bit0_odd in H2.
  rewrite <- Z.negb_odd, H2 in He. discriminate.
Qed.

Lemma gentle_val n w a b : tp_ok a -> tp_ok b -> gentle_step a b -> val_ok n w (tp_val a) (tp_val b) = true.
Proof.
  intros [_ Ha] [_ Hb] [_ H]. unfold val_ok.
  destruct H as [H|[H1 H2]].
  - rewrite H, Z.lxor_nilpotent. cbn. now rewrite orb_true_r.
  - pose proof (lxor_u64 _ _ Hb Ha) as Hx. set (x := Z.lxor (tp_val b) (tp_val a)) in *.
    pose proof (lz_lt32 x ltac:(lia)).
    assert (opens_ok x = true) as ->; [|now rewrite orb_true_r].
    unfold opens_ok. pose proof (lz_bounds x ltac:(lia)). 
    destruct H2 as [H2|H2].
    + pose proof (lz_pos x ltac:(lia)). lia.
    + pose proof (tz_pos x ltac:(lia) H2). lia.
Qed.

Lemma interval_small t t' : 0 <= t <= t' -> t' < 2 ^ 63 -> interval t t' = t' - t.
Proof. intros. unfold interval. apply wraps64_id. lia. Qed.

Lemma gentle_adm_from dbg ps : forall a b n w, 1 < n -> Forall tp_ok (a :: b :: ps) -> gentle (a :: b :: ps) ->
  admissible_from dbg n (tp_ts b) (interval (tp_ts a) (tp_ts b)) (tp_val b) w ps = true.
Proof.
  induction ps as [|c ps IH]; intros a b n w Hn HF HG; [reflexivity|].
  inversion HF as [|? ? Ha HF1]; subst. inversion HF1 as [|? ? Hb HF2]; subst. inversion HF2 as [|? ? Hc _]; subst.
  cbn [gentle] in HG. destruct HG as (Hab & Hbend & HG1).
  pose proof HG1 as (Hbc & _).
  cbn [admissible_from]. rewrite (gentle_val n w b c Hb Hc Hbc), andb_true_r.
  destruct (Z.eqb_spec n 0); [lia|].
  rewrite (IH b c) by (lia || assumption). rewrite andb_true_r.
  unfold ts_ok. destruct (Z.eqb_spec n 0); [lia|]. destruct (Z.eqb_spec n 1); [lia|].
  destruct Ha as [Ha _], Hb as [Hb _], Hc as [Hc _]. destruct Hab as [Hab _], Hbc as [Hbc _].
  rewrite !interval_small by lia. unfold gentle_bend in Hbend.
  set (bend := tp_ts c - tp_ts b - (tp_ts b - tp_ts a)) in *.
  destruct dbg; unfold dod_ok.
  - lia.
  - rewrite wraps64_id by lia. lia.
Qed.

Lemma gentle_adm dbg ps : Forall tp_ok ps -> gentle ps -> admissible dbg ps = true.
Proof.
  intros HF HG. destruct ps as [|a [|b ps]]; [reflexivity|reflexivity|].
  inversion HF as [|? ? Ha HF1]; subst. inversion HF1 as [|? ? Hb HF2]; subst.
  pose proof HG as (Hab & _ & _).
  unfold admissible. cbn [admissible_from ts_ok Z.eqb Z.add].
  change (1 =? 0) with false. change (1 =? 1) with true. change (1 + 1) with 2. cbn iota.
  rewrite (gentle_val _ _ a b Ha Hb Hab). cbn [val_ok andb orb Z.eqb].
  rewrite (gentle_adm_from dbg ps a b) by (lia || assumption).
  destruct Ha as [Ha _], Hb as [Hb _], Hab as [Hab _]. change (1 =? 1)%positive with true; cbn iota; destruct dbg; lia.
Qed.

(* ---- type tags ---- *)
Lemma from_tag c data : c <> CSimple ->
  (exists d, decompactor_from c data = Ok d) /\ data <> [] /\ last data 0 = ctag c \/
  decompactor_from c data = Err (CompactionTypeDontMatch (ctag c) (last data 0)) /\
  last data 0 <> ctag c.
Proof.
  intros Hc. unfold decompactor_from.
  assert (Hp : fst (pop_or0 data) = last data 0) by (destruct data; reflexivity).
  destruct (pop_or0 data) as [t d]. cbn [fst] in Hp. subst t.
  assert (Hne : forall c, last data 0 = ctag c -> data <> [])
    by (intros c' E ->; destruct c'; discriminate).
  destruct c; try congruence.
  - destruct (Z.eqb_spec (last data 0) (ctag CGorilla)) as [E|E]; [left|right; auto].
    split; [eauto|]. split; [eauto|assumption].
  - destruct (Z.eqb_spec (last data 0) (ctag CNone)) as [E|E]; [left|right; auto].
    split; [eauto|]. split; [eauto|assumption].
Qed.

(* ---- the None mode ---- *)
Definition none_bytes (ps : list tp) : bytes :=
  flat_map (fun p => be_bytes 8 (tp_ts p) ++ be_bytes 8 (tp_val p)) ps.

Lemma none_feed dbg ps : forall v, compactor_feed dbg (KNone v) ps = Ok (KNone (v ++ none_bytes ps)).
Proof.
  induction ps as [|p ps IH]; intros v; cbn [compactor_feed none_bytes flat_map].
  - now rewrite app_nil_r.
  - cbn [compactor_compact rbind]. rewrite IH. fold (none_bytes ps). now rewrite !app_assoc.
Qed.

Lemma none_decode p : tp_ok p -> decode_none_chunk (be_bytes 8 (tp_ts p) ++ be_bytes 8 (tp_val p)) = Ok p.
Proof.
  intros [H1 H2]. unfold decode_none_chunk.
  rewrite app_length, !length_be_bytes.
  rewrite skipn_cut, firstn_cut by apply length_be_bytes. rewrite length_be_bytes. cbn [Nat.ltb Nat.leb Nat.add negb Nat.eqb].
  rewrite !from_be_be_bytes. change (8 * Z.of_nat 8) with 64. rewrite !Z.mod_small by lia. destruct p; reflexivity.
Qed.

Lemma none_bytes_len ps : length (none_bytes ps) = (16 * length ps)%nat.
Proof.
  induction ps as [|p ps IH]; [reflexivity|]. cbn [none_bytes flat_map]. fold (none_bytes ps).
  rewrite !app_length, !length_be_bytes, IH. cbn [length]. lia.
Qed.

Lemma none_result dbg ps : Forall tp_ok ps ->
  exists k b, compactor_feed dbg (compactor_new CNone) ps = Ok k /\ compactor_bytes k = Ok b /\
    decompress dbg CNone b = Some (if (length ps <=? 1)%nat then Ok ps else Panic).
Proof.
  intros HF. cbn [compactor_new]. rewrite none_feed. do 2 eexists. split; [reflexivity|].
  split; [reflexivity|]. cbn [app]. unfold decompress, decompactor_from. rewrite pop_snoc, Z.eqb_refl.
  cbn [decompactor_decompact]. f_equal. unfold chunks, none_chunk_size.
  destruct ps as [|p [|q ps]]; [reflexivity| |].
  - inversion HF; subst. cbn [none_bytes flat_map]. rewrite app_nil_r.
    rewrite app_length, !length_be_bytes. 
    set (c := be_bytes 8 (tp_ts p) ++ be_bytes 8 (tp_val p)).
    assert (Lc : length c = 16%nat) by (unfold c; now rewrite app_length, !length_be_bytes).
    change (8 + 8)%nat with (S 15). cbn [chunks_fuel].
    destruct c as [|c0 c'] eqn:Ec; [discriminate|]. rewrite <- Ec in *.
    rewrite firstn_all2, skipn_all2 by lia. cbn [chunks_fuel mapM].
    rewrite Ec at 1. rewrite <- Ec.
    assert (Hd : decode_none_chunk c = Ok p) by (rewrite Ec; rewrite <- Ec; apply none_decode; assumption).
    rewrite Hd. reflexivity.
  - (* the first piece is longer than 16 bytes *)
    pose proof (none_bytes_len (p :: q :: ps)) as L. cbn [length] in L.
    change (length (p :: q :: ps) <=? 1)%nat with false. cbn iota.
    destruct (none_bytes (p :: q :: ps)) as [|x l] eqn:El; [discriminate|]. rewrite <- El in *.
    assert (Hl : length (none_bytes (p :: q :: ps)) = S (length l)) by (rewrite El; reflexivity).
    rewrite Hl. cbn [chunks_fuel]. rewrite El at 1. cbn [mapM].
    assert (Hd : decode_none_chunk (firstn 72 (none_bytes (p :: q :: ps))) = Panic).
    { unfold decode_none_chunk. destruct (_ <? 8)%nat; [reflexivity|].
      assert (Hn : (length (skipn 8 (firstn 72 (none_bytes (p :: q :: ps)))) =? 8)%nat = false).
      { apply Nat.eqb_neq. rewrite skipn_length, firstn_length, L. lia. }
      rewrite Hn. reflexivity. }
    rewrite Hd. reflexivity.
Qed.
