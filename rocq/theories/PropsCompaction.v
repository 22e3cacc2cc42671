(* Properties C01-C08: bit streams and the compaction API. *)
From Verif Require Import Rust Bstream BitSpec BstreamProofs BitsProofs Gorilla GorillaSpec
  Compactor CompactorSpec GorillaProofs CompactorProofs EdgeProofs GorillaSafe.

(** C01 *)
Theorem C01_bit_writes : forall dbg os, Forall bop_ok os ->
  exists s, bops_run dbg bs_new os = Ok s /\ holds s (flat_map bop_bits os) /\
    bs_bitlen dbg s = Ok (zlen (flat_map bop_bits os)).
Proof. exact bops_from_empty. Qed.
Print Assumptions C01_bit_writes.
Example C01_case :
  let os := [OWrite true; OBits 37 6; OPart 192 5; OBytes [7; 200]; OBits 1 64; ODelta (-2) 16; ODelta 5 7] in
  Forall bop_ok os /\
  bops_run true bs_new os = Ok (mkBs [203; 129; 242; 0; 0; 0; 0; 0; 0; 0; 0; 127; 255; 128] 6).
Proof.
  split; [|vm_compute; reflexivity].
  repeat (constructor; try (cbn; unfold is_byte; lia)).
Qed.

(** C02 *)
Theorem C02_seeker_read : forall dbg b xs c n buf,
  holds b xs -> 0 <= c <= zlen xs -> 0 <= n -> n <= 8 * zlen buf ->
  exists buf', let m := avail xs c n in
    sk_read dbg (mkSk b c) buf n = Ok (m, buf', mkSk b (c + m)) /\
    length buf' = length buf /\
    skipn (nbytes m) buf' = skipn (nbytes m) buf /\
    Forall is_byte (firstn (nbytes m) buf') /\
    raw_bits (firstn (nbytes m) buf') =
      firstn (Z.to_nat m) (skipn (Z.to_nat c) xs) ++ repeat false (8 * nbytes m - Z.to_nat m).
Proof. exact sk_read_ok. Qed.
Print Assumptions C02_seeker_read.
Example C02_case :
  let b := mkBs [203; 129; 240] 4 in
  holds b (firstn 20 (raw_bits [203; 129; 240])) /\
  sk_read true (mkSk b 3) [9; 9; 9] 10 = Ok (10, [92; 0; 9], mkSk b 13) /\
  sk_read true (mkSk b 13) [9] 8 = Ok (7, [62], mkSk b 20) /\
  sk_read true (mkSk b 20) [9] 8 = Ok (0, [9], mkSk b 20).
Proof.
  split; [|vm_compute; repeat split; reflexivity].
  split; [repeat constructor; unfold is_byte; lia|]. split; [cbn; lia|vm_compute; reflexivity].
Qed.

(** C03 *)
Theorem C03_append_exact : forall dbg s b xs ys, holds s xs -> holds b ys ->
  exists s', bs_append dbg s b = Ok s' /\ Forall is_byte (bs_data s') /\
    (append_domain s b -> holds s' (xs ++ ys)) /\
    (~ append_domain s b -> ~ holds s' (xs ++ ys)).
Proof. exact append_result. Qed.
Print Assumptions C03_append_exact.
(* bytes with a number of unused bits given are appended likewise, if that is a number of unused bits *)
Theorem C03_append_bytes : forall dbg s bs rem xs, holds s xs ->
  (forall ys, holds (mkBs bs rem) ys -> bs_append_bytes dbg s bs rem = bs_append dbg s (mkBs bs rem)) /\
  (~ 0 <= rem <= 8 -> bs_append_bytes dbg s bs rem = Panic).
Proof. exact append_bytes_result. Qed.
Print Assumptions C03_append_bytes.
(* outside the domain: 7 free bits + 1 free bit, two bytes appended *)
Example C03_case_bad :
  bs_append true (mkBs [128] 7) (mkBs [255; 254] 1) = Ok (mkBs [255; 255; 0] 8) /\
  holds (mkBs [128] 7) [true] /\ wf_bs (mkBs [255; 254] 1) /\
  ~ append_domain (mkBs [128] 7) (mkBs [255; 254] 1).
Proof.
  split; [vm_compute; reflexivity|]. split; [|split].
  - split; [repeat constructor; unfold is_byte; lia|]. split; [cbn; lia|reflexivity].
  - exists (repeat true 15). split; [repeat constructor; unfold is_byte; lia|]. split; [cbn; lia|reflexivity].
  - unfold append_domain. cbn. lia.
Qed.
Example C03_case_good :
  append_domain (mkBs [128] 6) (mkBs [255; 254] 1) /\
  bs_append true (mkBs [128] 6) (mkBs [255; 254] 1) = Ok (mkBs [191; 255; 128] 7).
Proof. split; [unfold append_domain; cbn; lia|vm_compute; reflexivity]. Qed.

(** C04 *)
Theorem C04_gorilla_lossless_iff : forall dbg ps, Forall tp_ok ps ->
  ((exists bytes k, compactor_compact_vec dbg (compactor_new CGorilla) ps = Ok (bytes, k) /\
      decompress dbg CGorilla bytes = Some (Ok ps)) <-> admissible dbg ps = true).
Proof. exact roundtrip_iff. Qed.
Print Assumptions C04_gorilla_lossless_iff.

Theorem C04_gorilla_lossless_gentle : forall dbg ps, Forall tp_ok ps -> gentle ps ->
  exists bytes k, compactor_compact_vec dbg (compactor_new CGorilla) ps = Ok (bytes, k) /\
    decompress dbg CGorilla bytes = Some (Ok ps).
Proof. intros dbg ps H1 H2. apply roundtrip_iff; [exact H1|]. exact (gentle_adm dbg ps H1 H2). Qed.
Print Assumptions C04_gorilla_lossless_gentle.

Definition v15 := 4609434218613702656. (* 1.5 *)
Definition v25 := 4612811918334230528. (* 2.5 *)
Definition series_good := [mkTp 1000 v15; mkTp 1010 v15; mkTp 1021 v25; mkTp 1500 v15; mkTp 1500 v25].
Example C04_case : Forall tp_ok series_good /\ gentle series_good /\
  admissible true series_good = true /\ admissible false series_good = true.
Proof.
  split; [|split; [|split; vm_compute; reflexivity]].
  - repeat (constructor; [unfold tp_ok; cbn [tp_ts tp_val]; unfold v15, v25; lia|]). constructor.
  - cbn [gentle series_good]. unfold gentle_step, gentle_bend. cbn [tp_ts tp_val].
    assert (H : 2 ^ 32 <= Z.lxor v15 v25 < 2 ^ 63) by (vm_compute; split; congruence).
    rewrite (Z.lxor_comm v25 v15). lia.
Qed.

(* each proviso is needed *)
Definition survives (dbg : bool) (ps : list tp) : Prop :=
  exists bytes k, compactor_compact_vec dbg (compactor_new CGorilla) ps = Ok (bytes, k) /\
    decompress dbg CGorilla bytes = Some (Ok ps).
Definition three t v := [mkTp 0 v; mkTp 10 v; mkTp (20 + t) v].
Theorem C04_provisos_needed :
  (forall dbg, ~ survives dbg (three 128 v15)) /\
  (forall dbg, ~ survives dbg (three 32768 v15)) /\
  (forall dbg, ~ survives dbg (three (2 ^ 31) v15)) /\
  (forall dbg, ~ survives dbg [mkTp 0 0; mkTp 10 1]) /\
  (forall dbg, ~ survives dbg [mkTp 0 0; mkTp 10 (2 ^ 63 + 1)]) /\
  ~ survives true (three 40000 v15) /\ survives false (three 40000 v15) /\
  ~ survives true [mkTp 10 v15; mkTp 0 v15] /\ survives false [mkTp 10 v15; mkTp 0 v15].
Proof.
  assert (T : forall t v, 0 <= t < 2 ^ 62 -> 0 <= v < 2 ^ 64 -> Forall tp_ok (three t v)).
  { intros t v Ht Hv. unfold three. repeat (constructor; [unfold tp_ok; cbn [tp_ts tp_val]; lia|]). constructor. }
  assert (P : forall a b v w, 0 <= a < 2 ^ 64 -> 0 <= b < 2 ^ 64 -> 0 <= v < 2 ^ 64 -> 0 <= w < 2 ^ 64 ->
     Forall tp_ok [mkTp a v; mkTp b w]).
  { intros. repeat (constructor; [unfold tp_ok; cbn [tp_ts tp_val]; lia|]). constructor. }
  unfold survives.
  split; [intros dbg; rewrite roundtrip_iff by (apply T; vm_compute; split; congruence); destruct dbg; vm_compute; discriminate|].
  split; [intros dbg; rewrite roundtrip_iff by (apply T; vm_compute; split; congruence); destruct dbg; vm_compute; discriminate|].
  split; [intros dbg; rewrite roundtrip_iff by (apply T; vm_compute; split; congruence); destruct dbg; vm_compute; discriminate|].
  split; [intros dbg; rewrite roundtrip_iff by (apply P; vm_compute; split; congruence); destruct dbg; vm_compute; discriminate|].
  split; [intros dbg; rewrite roundtrip_iff by (apply P; vm_compute; split; congruence); destruct dbg; vm_compute; discriminate|].
  split; [rewrite roundtrip_iff by (apply T; vm_compute; split; congruence); vm_compute; discriminate|].
  split; [rewrite roundtrip_iff by (apply T; vm_compute; split; congruence); vm_compute; reflexivity|].
  split; [rewrite roundtrip_iff by (apply P; vm_compute; split; congruence); vm_compute; discriminate|].
  rewrite roundtrip_iff by (apply P; vm_compute; split; congruence); vm_compute; reflexivity.
Qed.
Print Assumptions C04_provisos_needed.

(** C05 *)
Theorem C05_bytes_any_time : forall dbg os, Forall tp_ok (fed os) -> admissible dbg (fed os) = true ->
  exists outs, cops_run dbg (compactor_new CGorilla) os = Ok outs /\
    map (decompress dbg CGorilla) outs = map (fun q => Some (Ok q)) (fed_before_takes [] os).
Proof. exact script_new. Qed.
Print Assumptions C05_bytes_any_time.
Example C05_case :
  let os := [Take; Feed (mkTp 1000 v15); Take; Feed (mkTp 1010 v25); Feed (mkTp 1019 v25); Take; Take] in
  Forall tp_ok (fed os) /\ admissible true (fed os) = true /\
  map (@length tp) (fed_before_takes [] os) = [0; 1; 3; 3]%nat.
Proof.
  split; [|vm_compute; auto].
  repeat (constructor; [unfold tp_ok; cbn [tp_ts tp_val]; unfold v15, v25; lia|]). constructor.
Qed.

(** C06 *)
Theorem C06_tag_checked : forall c data, c <> CSimple ->
  (exists d, decompactor_from c data = Ok d) /\ data <> [] /\ last data 0 = ctag c \/
  decompactor_from c data = Err (CompactionTypeDontMatch (ctag c) (last data 0)) /\
  last data 0 <> ctag c.
Proof. exact from_tag. Qed.
Print Assumptions C06_tag_checked.
Theorem C06_simple_rejected : forall data, decompactor_from CSimple data = Err InternalErr.
Proof. intros data. exact eq_refl. Qed.
Print Assumptions C06_simple_rejected.
Example C06_case : decompactor_from CGorilla [] = Err (CompactionTypeDontMatch 1 0) /\
  decompactor_from CGorilla [9; 3] = Err (CompactionTypeDontMatch 1 3) /\
  decompactor_from CNone [9; 3] = Ok (DNone [9]).
Proof. vm_compute. auto. Qed.

(** C07 *)
Theorem C07_none_mode : forall dbg ps, Forall tp_ok ps ->
  exists k b, compactor_feed dbg (compactor_new CNone) ps = Ok k /\ compactor_bytes k = Ok b /\
    decompress dbg CNone b = Some (if (length ps <=? 1)%nat then Ok ps else Panic).
Proof. exact none_result. Qed.
Print Assumptions C07_none_mode.
Theorem C07_none_compact_vec_refuted : forall dbg ps, exists b k,
  compactor_compact_vec dbg (compactor_new CNone) ps = Ok (b, k) /\ decompress dbg CNone b = Some (Ok []).
Proof. intros dbg ps. exists [3], (KNone []). exact (conj eq_refl eq_refl). Qed.
Print Assumptions C07_none_compact_vec_refuted.
Example C07_case : Forall tp_ok series_good.
Proof. exact (proj1 C04_case). Qed.

(** C08 *)
Theorem C08_decompress_terminates : forall dbg data, Forall is_byte data ->
  exists r, decompress dbg CGorilla data = Some r /\
    forall ps, r = Ok ps -> (length ps <= 8 * length data)%nat.
Proof. exact decompress_total. Qed.
Print Assumptions C08_decompress_terminates.
Theorem C08_never_panics_refuted : exists data, Forall is_byte data /\
  decompress true CGorilla data = Some Panic.
Proof.
  exists [5; 1]. split; [repeat constructor; unfold is_byte; lia|vm_compute; reflexivity].
Qed.
Print Assumptions C08_never_panics_refuted.
(* in a release build: the accepted strings on which decompression panics are exactly those
   whose trailer byte claims more unused bits than the stream has *)
Theorem C08_release_build : forall data, Forall is_byte data ->
  (exists k, decompactor_from CGorilla data = Ok k) ->
  ((exists d r, data = d ++ [r; 1] /\ 8 * zlen d < r) /\ decompress false CGorilla data = Some Panic) \/
  (~ (exists d r, data = d ++ [r; 1] /\ 8 * zlen d < r) /\
   exists ps, decompress false CGorilla data = Some (Ok ps)).
Proof. exact release_build. Qed.
Print Assumptions C08_release_build.
(* so what a compactor produced, in either build, never makes a release build panic *)
Theorem C08_release_own_output : forall dbg ps bytes k, Forall tp_ok ps ->
  compactor_compact_vec dbg (compactor_new CGorilla) ps = Ok (bytes, k) ->
  exists qs, decompress false CGorilla bytes = Some (Ok qs).
Proof. exact release_own. Qed.
Print Assumptions C08_release_own_output.
Example C08_release_case :
  (exists k, decompactor_from CGorilla [9; 9; 17; 1] = Ok k) /\
  decompress false CGorilla [9; 9; 17; 1] = Some Panic /\
  decompress false CGorilla [9; 9; 16; 1] = Some (Ok []) /\
  decompress false CGorilla (repeat 255 20 ++ [161; 1]) = Some Panic /\
  (exists ps, decompress false CGorilla (repeat 255 80 ++ [161; 1]) = Some (Ok ps) /\ length ps = 3%nat).
Proof. split; [eexists; vm_compute; reflexivity|]. vm_compute. repeat split; eexists; repeat split. Qed.
Example C08_case : exists ps, decompress false CGorilla (repeat 0 40 ++ [0; 1]) = Some (Ok ps) /\
  (length ps = 65)%nat.
Proof. eexists. vm_compute. split; reflexivity. Qed.
