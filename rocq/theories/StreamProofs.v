(* Proofs about the messages of streamed answers. *)
From Coq Require Import ZifyBool ZifyNat.
From Verif Require Import Rust Storage StorageSpec Proto ProtoSpec ProtoProofs ProtoRound Stream StreamSpec.

Ltac sunk_tac :=
  let m := fresh "m" in let Hn := fresh in let Hw := fresh in let number := fresh in let wt := fresh in let b := fresh in
  intros ? number wt b m Hn Hw; destruct m;
  unfold plabels_field, pchunk_field, cseries_field, cresponse_field;
  repeat match goal with |- context [number =? ?k] => replace (number =? k) with false by lia end;
  rewrite unknown_field by exact Hw; cbn match; destruct (read_unknown wt b) as [[? ?]|]; cbn match; rewrite ?app_nil_r; reflexivity.

(** ** Labels *)
Lemma plabels_length m : plabels_ok m -> Z.of_nat (length (plabels_write m)) = plabels_size m.
Proof.
  intros (Hl & Hu). rewrite Forall_forall in Hl. unfold plabels_write, plabels_size. rewrite !app_length, !Nat2Z.inj_add.
  rewrite (unknowns_length 1) by (try assumption; lia).
  rewrite (repeated_length 1 plabel_write plabel_size) by (try lia; intros x Hx; apply plabel_length; auto). lia.
Qed.
Lemma plabels_eats m : plabels_ok m -> plabels_size m < 2 ^ 32 -> eats plabels_field (plabels_write m) plabels_new m.
Proof.
  intros (Hl & Hu) Hsz. destruct m as [l u]. rewrite Forall_forall in Hl. unfold plabels_write, plabels_size in *.
  cbn [pls_labels pls_unk] in *. pose proof (repeated_nonneg plabel_size l plabel_size_nonneg). pose proof (unknowns_size_nonneg u).
  apply eats_app with (m2 := mkPLabels l []).
  { pose proof (eats_repeated plabels_field 1 plabel_read plabel_new plabel_write plabel_size (fun x => x)
                  (fun l => mkPLabels l []) [] l ltac:(lia)) as X.
    rewrite map_id in X. apply X; clear X.
    - intros short wt b l'. reflexivity.
    - intros a Ha. pose proof (repeated_size plabel_size l a plabel_size_nonneg Ha).
      split; [apply plabel_length; auto|]. split; [lia|]. intros short Hsh. apply plabel_round; auto. lia. }
  apply (eats_unknowns plabels_field 1 (fun m u' => mkPLabels (pls_labels m) (pls_unk m ++ u')) pls_unk u (mkPLabels l [])); try assumption; try lia.
  - sunk_tac.
  - intros [a b]. cbn. rewrite app_nil_r. reflexivity.
  - intros [a b] x y. cbn. rewrite app_assoc. reflexivity.
Qed.

(** ** Chunk *)
Lemma encoding_range t : 0 <= encoding_value t < 2 ^ 31.
Proof. destruct t; cbn; lia. Qed.
Lemma read_data_ok s rest old : Z.of_nat (length s) < 2 ^ 32 ->
  read_data WLen (varint32 (Z.of_nat (length s)) ++ s ++ rest) old = (s, Some rest).
Proof.
  intros H. unfold read_data. change (WLen =? WLen) with true. cbn match. rewrite read_varint32_ok by lia.
  unfold read_bytes. rewrite app_length. replace (Z.of_nat (length s + length rest) <? Z.of_nat (length s)) with false by lia.
  rewrite Nat2Z.id, firstn_app, Nat.sub_diag, firstn_all, skipn_app, Nat.sub_diag, skipn_all. cbn [firstn skipn app]. rewrite app_nil_r. reflexivity.
Qed.
Lemma eats_data {M} (field : Z -> Z -> Z -> bytes -> M -> M * option bytes) number s (set : bytes -> M) m :
  0 < number < 2 ^ 29 -> Z.of_nat (length s) < 2 ^ 32 ->
  (forall short b, field short number WLen b m = let '(s', r) := read_data WLen b [] in (set s', r)) -> m = set [] ->
  eats field (opt (nonempty s) (w_string number s)) m (set s).
Proof.
  intros Hn Hl Hf Hm. apply eats_opt with (m' := set s).
  - unfold w_string. apply eats_field; [assumption|wires; lia|]. intros short rest Hs. rewrite Hf, <- app_assoc, read_data_ok by assumption. reflexivity.
  - reflexivity.
  - destruct s; [intros _; symmetry; exact Hm|discriminate].
Qed.
Lemma pchunk_length m : pchunk_ok m -> Z.of_nat (length (pchunk_write m)) = pchunk_size m.
Proof.
  intros (_ & _ & _ & Hu). unfold pchunk_write, pchunk_size. rewrite !app_length, !Nat2Z.inj_add.
  rewrite (unknowns_length 4) by (try assumption; lia).
  rewrite (opt_length _ _ _ (int64_length 1 (pc_min m) ltac:(lia))), (opt_length _ _ _ (int64_length 2 (pc_max m) ltac:(lia))),
    (opt_length _ _ _ (enum_length 3 (encoding_value (pc_type m)) ltac:(lia) (encoding_range _))),
    (opt_length _ _ _ (string_length 4 (pc_data m) ltac:(lia))). lia.
Qed.
Lemma pchunk_eats m : pchunk_ok m -> pchunk_size m < 2 ^ 32 -> eats pchunk_field (pchunk_write m) pchunk_new m.
Proof.
  intros (H1 & H2 & H3 & Hu) Hsz. destruct m as [lo hi t d u]. unfold pchunk_write, pchunk_size in *. cbn [pc_min pc_max pc_type pc_data pc_unk] in *.
  pose proof (optz_nonneg (nonempty d) _ (string_size_nonneg 4 d)). pose proof (optz_nonneg (negb (lo =? 0)) _ (int64_size_nonneg 1 lo)).
  pose proof (optz_nonneg (negb (hi =? 0)) _ (int64_size_nonneg 2 hi)). pose proof (optz_nonneg (not_unknown t) _ (enum_size_nonneg 3 (encoding_value t))).
  pose proof (unknowns_size_nonneg u).
  apply eats_app with (m2 := mkPChunk lo 0 UNKNOWN [] []).
  { apply (eats_int64 pchunk_field 1 lo (fun z => mkPChunk z 0 UNKNOWN [] [])); try assumption; try lia; reflexivity. }
  apply eats_app with (m2 := mkPChunk lo hi UNKNOWN [] []).
  { apply (eats_int64 pchunk_field 2 hi (fun z => mkPChunk lo z UNKNOWN [] [])); try assumption; try lia; reflexivity. }
  apply eats_app with (m2 := mkPChunk lo hi t [] []).
  { apply eats_opt with (m' := mkPChunk lo hi t [] []).
    - unfold w_enum. apply eats_field; [lia|wires; lia|]. intros short rest Hs. cbn [pchunk_field].
      change (3 =? 1) with false. change (3 =? 2) with false. change (3 =? 3) with true. change (WVarint =? WVarint) with true. cbn match.
      rewrite read_int32_ok by apply encoding_range. destruct t; reflexivity.
    - reflexivity.
    - destruct t; try discriminate. reflexivity. }
  apply eats_app with (m2 := mkPChunk lo hi t d []).
  { apply (eats_data pchunk_field 4 d (fun z => mkPChunk lo hi t z [])); try assumption; try lia; try reflexivity. apply (optz_string 4); lia. }
  apply (eats_unknowns pchunk_field 4 (fun m u' => mkPChunk (pc_min m) (pc_max m) (pc_type m) (pc_data m) (pc_unk m ++ u')) pc_unk u
           (mkPChunk lo hi t d [])); try assumption; try lia.
  - sunk_tac.
  - intros [a b c e g]. cbn. rewrite app_nil_r. reflexivity.
  - intros [a b c e g] x y. cbn. rewrite app_assoc. reflexivity.
Qed.
Lemma pchunk_round m short : pchunk_ok m -> pchunk_size m < 2 ^ 32 -> 0 <= short -> pchunk_read short (pchunk_write m) pchunk_new = (m, true).
Proof. intros H Hs H0. apply eats_reads; [assumption|]. apply pchunk_eats; assumption. Qed.
Lemma pchunk_size_nonneg m : 0 <= pchunk_size m.
Proof.
  unfold pchunk_size. pose proof (optz_nonneg (nonempty (pc_data m)) _ (string_size_nonneg 4 (pc_data m))).
  pose proof (optz_nonneg (negb (pc_min m =? 0)) _ (int64_size_nonneg 1 (pc_min m))). pose proof (optz_nonneg (negb (pc_max m =? 0)) _ (int64_size_nonneg 2 (pc_max m))).
  pose proof (optz_nonneg (not_unknown (pc_type m)) _ (enum_size_nonneg 3 (encoding_value (pc_type m)))). pose proof (unknowns_size_nonneg (pc_unk m)). lia.
Qed.

(** ** ChunkedSeries *)
Lemma cseries_length m : cseries_ok m -> Z.of_nat (length (cseries_write m)) = cseries_size m.
Proof.
  intros (Hl & Hc & Hu). rewrite Forall_forall in Hl, Hc. unfold cseries_write, cseries_size. rewrite !app_length, !Nat2Z.inj_add.
  rewrite (unknowns_length 2) by (try assumption; lia).
  rewrite (repeated_length 1 plabel_write plabel_size) by (try lia; intros x Hx; apply plabel_length; auto).
  rewrite (repeated_length 2 pchunk_write pchunk_size) by (try lia; intros x Hx; apply pchunk_length; auto). lia.
Qed.
Lemma cseries_eats m : cseries_ok m -> cseries_size m < 2 ^ 32 -> eats cseries_field (cseries_write m) cseries_new m.
Proof.
  intros (Hl & Hc & Hu) Hsz. destruct m as [l c u]. rewrite Forall_forall in Hl, Hc. unfold cseries_write, cseries_size in *.
  cbn [cs_labels cs_chunks cs_unk] in *. pose proof (repeated_nonneg plabel_size l plabel_size_nonneg). pose proof (repeated_nonneg pchunk_size c pchunk_size_nonneg).
  pose proof (unknowns_size_nonneg u).
  apply eats_app with (m2 := mkCSeries l [] []).
  { pose proof (eats_repeated cseries_field 1 plabel_read plabel_new plabel_write plabel_size (fun x => x)
                  (fun l => mkCSeries l [] []) [] l ltac:(lia)) as X.
    rewrite map_id in X. apply X; clear X.
    - intros short wt b l'. reflexivity.
    - intros a Ha. pose proof (repeated_size plabel_size l a plabel_size_nonneg Ha).
      split; [apply plabel_length; auto|]. split; [lia|]. intros short Hsh. apply plabel_round; auto. lia. }
  apply eats_app with (m2 := mkCSeries l c []).
  { pose proof (eats_repeated cseries_field 2 pchunk_read pchunk_new pchunk_write pchunk_size (fun x => x)
                  (fun c => mkCSeries l c []) [] c ltac:(lia)) as X.
    rewrite map_id in X. apply X; clear X.
    - intros short wt b l'. reflexivity.
    - intros a Ha. pose proof (repeated_size pchunk_size c a pchunk_size_nonneg Ha).
      split; [apply pchunk_length; auto|]. split; [lia|]. intros short Hsh. apply pchunk_round; auto. lia. }
  apply (eats_unknowns cseries_field 2 (fun m u' => mkCSeries (cs_labels m) (cs_chunks m) (cs_unk m ++ u')) cs_unk u (mkCSeries l c [])); try assumption; try lia.
  - sunk_tac.
  - intros [a b d]. cbn. rewrite app_nil_r. reflexivity.
  - intros [a b d] x y. cbn. rewrite app_assoc. reflexivity.
Qed.
Lemma cseries_size_nonneg m : 0 <= cseries_size m.
Proof.
  unfold cseries_size. pose proof (repeated_nonneg plabel_size (cs_labels m) plabel_size_nonneg). pose proof (repeated_nonneg pchunk_size (cs_chunks m) pchunk_size_nonneg).
  pose proof (unknowns_size_nonneg (cs_unk m)). lia.
Qed.

(** ** ChunkedReadResponse *)
Lemma cresponse_length m : cresponse_ok m -> Z.of_nat (length (cresponse_write m)) = cresponse_size m.
Proof.
  intros (Hl & Hi & Hu). rewrite Forall_forall in Hl. unfold cresponse_write, cresponse_size. rewrite !app_length, !Nat2Z.inj_add.
  rewrite (unknowns_length 2) by (try assumption; lia).
  rewrite (repeated_length 1 cseries_write cseries_size) by (try lia; intros x Hx; apply cseries_length; auto).
  rewrite (opt_length _ _ _ (int64_length 2 (cr_index m) ltac:(lia))). lia.
Qed.
Lemma cresponse_eats m : cresponse_ok m -> cresponse_size m < 2 ^ 32 -> eats cresponse_field (cresponse_write m) cresponse_new m.
Proof.
  intros (Hl & Hi & Hu) Hsz. destruct m as [l i u]. rewrite Forall_forall in Hl. unfold cresponse_write, cresponse_size in *.
  cbn [cr_series cr_index cr_unk] in *. pose proof (repeated_nonneg cseries_size l cseries_size_nonneg). pose proof (optz_nonneg (negb (i =? 0)) _ (int64_size_nonneg 2 i)).
  pose proof (unknowns_size_nonneg u).
  apply eats_app with (m2 := mkCResp l 0 []).
  { pose proof (eats_repeated cresponse_field 1 cseries_read cseries_new cseries_write cseries_size (fun x => x)
                  (fun l => mkCResp l 0 []) [] l ltac:(lia)) as X.
    rewrite map_id in X. apply X; clear X.
    - intros short wt b l'. reflexivity.
    - intros a Ha. pose proof (repeated_size cseries_size l a cseries_size_nonneg Ha).
      split; [apply cseries_length; auto|]. split; [lia|]. intros short Hsh. apply eats_reads; [assumption|]. apply cseries_eats; auto. lia. }
  apply eats_app with (m2 := mkCResp l i []).
  { apply (eats_int64 cresponse_field 2 i (fun z => mkCResp l z [])); try assumption; try lia; reflexivity. }
  apply (eats_unknowns cresponse_field 2 (fun m u' => mkCResp (cr_series m) (cr_index m) (cr_unk m ++ u')) cr_unk u (mkCResp l i [])); try assumption; try lia.
  - sunk_tac.
  - intros [a b d]. cbn. rewrite app_nil_r. reflexivity.
  - intros [a b d] x y. cbn. rewrite app_assoc. reflexivity.
Qed.
Lemma plabels_whole m : plabels_ok m -> plabels_size m < 2 ^ 32 -> merge_from plabels_read (plabels_write m) plabels_new = (m, true).
Proof. intros H Hs. apply merge_eats; [rewrite plabels_length by assumption; lia|]. exact (plabels_eats m H Hs). Qed.
Lemma pchunk_whole m : pchunk_ok m -> pchunk_size m < 2 ^ 32 -> merge_from pchunk_read (pchunk_write m) pchunk_new = (m, true).
Proof. intros H Hs. apply merge_eats; [rewrite pchunk_length by assumption; lia|]. exact (pchunk_eats m H Hs). Qed.
Lemma cseries_whole m : cseries_ok m -> cseries_size m < 2 ^ 32 -> merge_from cseries_read (cseries_write m) cseries_new = (m, true).
Proof. intros H Hs. apply merge_eats; [rewrite cseries_length by assumption; lia|]. exact (cseries_eats m H Hs). Qed.
Lemma cresponse_whole m : cresponse_ok m -> cresponse_size m < 2 ^ 32 -> merge_from cresponse_read (cresponse_write m) cresponse_new = (m, true).
Proof. intros H Hs. apply merge_eats; [rewrite cresponse_length by assumption; lia|]. exact (cresponse_eats m H Hs). Qed.

(** ** An encoding not known *)
Lemma varint_size_le n z : varint_size n z <= Z.of_nat n.
Proof. revert z. induction n as [|n IH]; intros z; cbn [varint_size]; [lia|]. destruct (z <? 128); [lia|]. specialize (IH (z / 128)). lia. Qed.
Lemma pchunk_later v d : 2 <= v < 2 ^ 31 -> Z.of_nat (length d) < 2 ^ 32 ->
  let data := opt (nonempty d) (w_string 4 d) in
  let m := mkPChunk 0 0 UNKNOWN d [(3, UVarint v)] in
  merge_from pchunk_read (w_enum 3 v ++ data) pchunk_new = (m, true) /\ pchunk_write m = data ++ w_enum 3 v.
Proof.
  intros Hv Hd data m. split.
  - apply merge_eats.
    + rewrite app_length, Nat2Z.inj_add, (enum_length 3 v) by lia. unfold data. rewrite (opt_length _ _ _ (string_length 4 d ltac:(lia))).
      change (enum_size 3 v) with (1 + varint_size 5 v). pose proof (varint_size_le 5 v).
      unfold optz. destruct (nonempty d); [|lia]. unfold string_size. change (tag_size 4) with 1. unfold varint32_size.
      pose proof (varint_size_le 5 (Z.of_nat (length d))). lia.
    + apply eats_app with (m2 := mkPChunk 0 0 UNKNOWN [] [(3, UVarint v)]).
      * unfold w_enum. apply eats_field; [lia|wires; lia|]. intros short rest Hs. cbn [pchunk_new pchunk_field].
        change (3 =? 1) with false. change (3 =? 2) with false. change (3 =? 3) with true. change (WVarint =? WVarint) with true. cbn match.
        rewrite read_int32_ok by lia. unfold encoding_from. replace (v =? 0) with false by lia. replace (v =? 1) with false by lia.
        cbn [app]. unfold wrapu. rewrite Z.mod_small by lia. reflexivity.
      * apply (eats_data pchunk_field 4 d (fun z => mkPChunk 0 0 UNKNOWN z [(3, UVarint v)])); try assumption; try lia; reflexivity.
  - unfold pchunk_write, m. cbn [pc_min pc_max pc_type pc_data pc_unk not_unknown]. change (negb (0 =? 0)) with false. cbn [opt app].
    unfold write_unknowns, write_unknown, data, w_enum. cbn [map concat fst snd]. rewrite app_nil_r. unfold wrapu. rewrite Z.mod_small by lia. reflexivity.
Qed.
